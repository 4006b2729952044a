(** Property C16: the processing order. Specification: [OrderSpec]. *)
From Verif Require Import Base GraphModel GraphSpec GraphBase GraphPath GraphInv GraphShape GraphRefs GraphClean
  GraphStep GraphProps OrderModel OrderSpec OrderProofs.
Local Open Scope nat_scope.

(** Every node that was not freed is in the order exactly once, and nothing else is. *)
Theorem C16_each_node_once : forall g ord, reachable g -> node_order g = Some ord ->
  NoDup ord /\ (forall k, In k ord <-> live g k).
Proof. intros g ord H. apply order_once. exact (reachable_wf g H). Qed.
Print Assumptions C16_each_node_once.
(** Two sources added into node 2, which goes to output 0; node 0 also goes to output 1. *)
Example C16_once_case : reachable ex_g /\ node_order ex_g = Some [0; 1; 3; 2].
Proof. split; [exact ex_reachable|vm_compute; reflexivity]. Qed.

(** The order exists (no panic, no endless search) if everything that is read is still there. *)
Theorem C16_order_exists : forall g, reachable g -> sources_live g -> exists ord, node_order g = Some ord.
Proof. intros g H. apply order_total. exact (reachable_wf g H). Qed.
Print Assumptions C16_order_exists.
(** ... which holds after every plain history, when there are no parameter links. *)
Theorem C16_order_exists_plain : forall id inputs outputs slots ops g,
  plain_run (graph_new id inputs outputs slots) ops g -> (forall s k, ~ par_feeds g s k) ->
  exists ord, node_order g = Some ord.
Proof.
  intros id i o slots ops g H Hp.
  destruct (plain_run_refs _ _ _ H (graph_new_wf id i o slots) (graph_new_refs id i o slots)) as [Hr Hw].
  apply order_total; [exact Hw|]. apply refs_sources_live; assumption.
Qed.
Print Assumptions C16_order_exists_plain.
Lemma ex_no_par : forall s k, ~ par_feeds ex_g s k.
Proof.
  intros s k (n & ps & p & El & E & Hin & _). revert n ps E Hin El.
  assert (forall n, lookup ex_g k = Some n -> n_pedges n = Some []).
  { do 4 (destruct k as [|k]; [vm_compute; intros n H; injection H as <-; reflexivity|]).
    vm_compute. discriminate. }
  intros n ps E Hin El. rewrite (H n El) in E. injection E as <-. destruct Hin.
Qed.
Example C16_exists_case : plain_run ex_start ex_ops ex_g /\ (forall s k, ~ par_feeds ex_g s k).
Proof. split; [exact ex_plain|exact ex_no_par]. Qed.

(** Every node connected to a graph output (directly or not) runs after everything it reads, as audio or
    as an audio-rate parameter, provided that no feedback connections exist, the audio and parameter links
    together have no loop, and no node connected to a graph output feeds another such node.  Missing: graphs
    violating the last condition (see the refutation), nodes connected to no output, feedback. *)
Theorem C16_topological_partial : forall g ord, reachable g -> node_order g = Some ord ->
  (forall k, ~ upstream g k k) -> (forall k c e, in_edge g k c = Some e -> e_fb e = false) ->
  (forall a b, feeds_output g a -> feeds_output g b -> a <> b -> ~ upstream g a b) ->
  forall k, heard g k -> after_sources g ord k.
Proof.
  intros g ord Hg H Hac Hfb Hout k Hk. pose proof (reachable_wf g Hg) as Hw.
  unfold node_order in H. destruct (node_order2 g) as [[o1 o2]|] eqn:E; cbn in H; [|discriminate]. injection H as <-.
  destruct (roots_total g (proj1 Hw)) as [r Er].
  destruct (roots_spec g r (bi_nodup g (proj1 (proj1 Hw))) Er) as (Hnr & Hro & _).
  eapply order_sorted; [exact Hw|exact Hac|exact E|exact Er| |eapply heard_connected; eauto].
  apply safe_pairs_indep; [exact Hnr|]. intros a b Ha Hb. apply Hout; auto.
Qed.
Print Assumptions C16_topological_partial.

(** The same without the condition on output nodes, in terms of the start nodes the code picks: no start
    node may be upstream of one picked before it. *)
Theorem C16_topological_starts_partial : forall g ord r, reachable g -> node_order g = Some ord -> roots g = Some r ->
  (forall k, ~ upstream g k k) -> (forall k c e, in_edge g k c = Some e -> e_fb e = false) ->
  (forall l1 x l2 y, r = l1 ++ x :: l2 -> In y l2 -> ~ upstream g y x) ->
  forall k, heard g k -> after_sources g ord k.
Proof.
  intros g ord r Hg H Er Hac Hfb Hp k Hk. pose proof (reachable_wf g Hg) as Hw.
  unfold node_order in H. destruct (node_order2 g) as [[o1 o2]|] eqn:E; cbn in H; [|discriminate]. injection H as <-.
  eapply order_sorted; [exact Hw|exact Hac|exact E|exact Er| |eapply heard_connected; eauto].
  clear - Hp. induction r as [|x r IH]; constructor.
  - rewrite Forall_forall. intros y Hy. apply (Hp [] x r y eq_refl Hy).
  - apply IH. intros l1 a l2 y ->. apply (Hp (x :: l1) a l2 y eq_refl).
Qed.
Print Assumptions C16_topological_starts_partial.

(** A graph meeting the hypotheses: 0 and 1 feed 2 and 3, 0 also modulates a parameter of 3; 2 and 3 go to
    the two outputs. *)
Definition ex_two_ops : list op :=
  [ OpPush 0 1 [] false; OpPush 0 1 [] false; OpPush 2 1 [] false; OpPush 1 1 ["freq"%string] false;
    OpConnect (nd 0) 0 0 (nd 2) true false; OpConnect (nd 1) 0 1 (nd 2) true false;
    OpConnect (nd 1) 0 0 (nd 3) true false; OpConnectParam (mk_id 0 7) 0 (PIndex 0) (mk_id 3 7) true;
    OpConnect (nd 3) 0 0 NGraph true false; OpConnect (nd 2) 0 1 NGraph true false ].
Definition ex_two : graph := match run (graph_new 7 0 2 []) ex_two_ops with Some g => g | None => ex_start end.
Definition rank4 (k : key) : nat := match k with 0 | 1 => 0 | _ => 1 end.
Lemma ex_two_step : forall a b, same_block ex_two a b -> rank4 a < rank4 b.
Proof.
  intros a b [(c & e & He & Hs & _)|(n & ps & p & El & E & Hin & Hp)].
  - destruct b as [|[|[|[|b]]]]; [| | | |vm_compute in He; discriminate];
      destruct c as [|[|c]]; vm_compute in He; try (destruct c; discriminate); try discriminate;
      injection He as <-; vm_compute in Hs; injection Hs as <-; vm_compute; lia.
  - destruct b as [|[|[|[|b]]]]; vm_compute in El; try discriminate; injection El as <-;
      vm_compute in E; injection E as <-; try contradiction.
    destruct Hin as [<-|[]].
    vm_compute in Hp. subst a. vm_compute. lia.
Qed.
Lemma ex_two_up : forall a b, upstream ex_two a b -> rank4 a < rank4 b.
Proof. intros a b H. induction H; [apply ex_two_step; assumption|lia]. Qed.
Example C16_topological_case : reachable ex_two /\ (forall k, ~ upstream ex_two k k) /\
  (forall k c e, in_edge ex_two k c = Some e -> e_fb e = false) /\
  (forall a b, feeds_output ex_two a -> feeds_output ex_two b -> a <> b -> ~ upstream ex_two a b) /\
  par_feeds ex_two 0 3 /\ heard ex_two 0 /\ node_order ex_two = Some [0; 1; 2; 3].
Proof.
  split; [|split; [|split; [|split; [|split; [|split]]]]].
  - exists 7%N, 0, 2, [], ex_two_ops. vm_compute. reflexivity.
  - intros k H. apply ex_two_up in H. lia.
  - intros k c e He. destruct k as [|[|[|[|b]]]]; [| | | |vm_compute in He; discriminate];
      destruct c as [|[|c]]; vm_compute in He; try (destruct c; discriminate); try discriminate;
      injection He as <-; reflexivity.
  - intros a b Ha Hb Hne H. apply ex_two_up in H.
    assert (forall x, feeds_output ex_two x -> rank4 x = 1).
    { intros x (c & e & He & Hs). destruct c as [|[|c]]; vm_compute in He; try (destruct c; discriminate);
        injection He as <-; vm_compute in Hs; injection Hs as <-; reflexivity. }
    rewrite (H0 a Ha), (H0 b Hb) in H. lia.
  - eexists _, _, _. split; [vm_compute; reflexivity|]. split; [vm_compute; reflexivity|].
    split; [left; reflexivity|reflexivity].
  - exists 2. split.
    + exists 1. eexists. split; vm_compute; reflexivity.
    + apply rt_step. left. exists 0. eexists. split; [vm_compute; reflexivity|]. split; reflexivity.
  - vm_compute. reflexivity.
Qed.

(** In general false: node 0 goes to output 0, to node 1 (connected to nothing) and to node 2, which goes to
    output 1.  Node 2 is then ordered before node 0, which it reads. *)
Theorem C16_topological_refuted : exists g ord k, reachable g /\ node_order g = Some ord /\
  (forall s k, ~ par_feeds g s k) /\ (forall k c e, in_edge g k c = Some e -> e_fb e = false) /\
  refs_ok g /\ heard g k /\ ~ after_sources g ord k.
Proof.
  set (ops := [ OpPush 0 1 [] false; OpPush 1 1 [] false; OpPush 1 1 [] false;
    OpConnect (nd 0) 0 0 (nd 1) true false; OpConnect (nd 0) 0 0 (nd 2) true false;
    OpConnect (nd 0) 0 0 NGraph true false; OpConnect (nd 2) 0 1 NGraph true false ]).
  destruct (run (graph_new 7 0 2 []) ops) as [g|] eqn:E; [|vm_compute in E; discriminate].
  exists g, [2; 0; 1], 2. split; [exists 7%N, 0, 2, [], ops; exact E|].
  assert (Hp : plain_run (graph_new 7 0 2 []) ops g).
  { unfold ops in *. vm_compute in E. injection E as <-.
    do 7 (eapply plain_cons; [first [exact I|split; [reflexivity|live_tac]]|vm_compute; reflexivity|]).
    constructor. }
  pose proof (proj1 (plain_run_refs _ _ _ Hp (graph_new_wf _ _ _ _) (graph_new_refs _ _ _ _))) as Hr.
  clear Hp. vm_compute in E. injection E as <-. split; [vm_compute; reflexivity|].
  split; [|split; [|split; [exact Hr|split]]].
  - intros s k (n & ps & p & El & Ep & Hin & _).
    destruct k as [|[|[|k]]]; vm_compute in El; try discriminate; injection El as <-;
      vm_compute in Ep; injection Ep as <-; destruct Hin.
  - intros k c e He. destruct k as [|[|[|k]]]; [| | |vm_compute in He; discriminate];
      destruct c as [|c]; vm_compute in He; try (destruct c; discriminate); try discriminate;
      injection He as <-; reflexivity.
  - exists 2. split; [exists 1; eexists; split; vm_compute; reflexivity|apply rt_refl].
  - intros H. destruct (H [] [0; 1] 0 eq_refl); auto.
    left. exists 0. eexists. split; [vm_compute; reflexivity|]. split; reflexivity.
Qed.
Print Assumptions C16_topological_refuted.

(** Nodes connected to no output run in the order of their slots: node 0 reads node 1 but runs first. *)
Theorem C16_unheard_refuted : exists g ord k, reachable g /\ refs_ok g /\ node_order g = Some ord /\ live g k /\
  ~ after_sources g ord k.
Proof.
  set (ops := [ OpPush 1 1 [] false; OpPush 0 1 [] false; OpConnect (nd 1) 0 0 (nd 0) true false ]).
  destruct (run (graph_new 7 0 2 []) ops) as [g|] eqn:E; [|vm_compute in E; discriminate].
  exists g, [0; 1], 0. split; [exists 7%N, 0, 2, [], ops; exact E|].
  assert (Hp : plain_run (graph_new 7 0 2 []) ops g).
  { unfold ops in *. vm_compute in E. injection E as <-.
    do 3 (eapply plain_cons; [first [exact I|split; [reflexivity|live_tac]]|vm_compute; reflexivity|]).
    constructor. }
  pose proof (proj1 (plain_run_refs _ _ _ Hp (graph_new_wf _ _ _ _) (graph_new_refs _ _ _ _))) as Hr.
  clear Hp. vm_compute in E. injection E as <-. split; [exact Hr|]. split; [vm_compute; reflexivity|].
  split; [live_tac|]. intros H. destruct (H [] [1] 1 eq_refl); auto.
  left. exists 0. eexists. split; [vm_compute; reflexivity|]. split; reflexivity.
Qed.
Print Assumptions C16_unheard_refuted.

(** Freeing a node that still modulates a parameter of a heard node makes the next commit panic. *)
Theorem C16_freed_modulator_panics_refuted : exists g, reachable g /\ refs_ok g /\ node_order g = None.
Proof.
  set (ops := [ OpPush 0 1 [] false; OpPush 0 1 ["freq"%string] false; OpConnect (nd 1) 0 0 NGraph true false;
    OpConnectParam (mk_id 0 7) 0 (PIndex 0) (mk_id 1 7) true; OpFree (mk_id 0 7) ]).
  destruct (run (graph_new 7 0 2 []) ops) as [g|] eqn:E; [|vm_compute in E; discriminate].
  exists g. split; [exists 7%N, 0, 2, [], ops; exact E|].
  vm_compute in E. injection E as <-. split; [|vm_compute; reflexivity]. split.
  - intros k c e He. destruct k as [|[|k]]; vm_compute in He; try discriminate; destruct c; discriminate.
  - intros c e He. destruct c as [|[|c]]; vm_compute in He; try (destruct c; discriminate); try discriminate.
    injection He as <-. eexists. vm_compute. split; [reflexivity|]. split; [discriminate|lia].
Qed.
Print Assumptions C16_freed_modulator_panics_refuted.
