(** C75: graphs inside graphs. Specification: [NestSpec]. *)
From Verif Require Import Base GraphModel GraphSpec GraphBase GraphPath GraphInv GraphShape GraphRefs GraphClean GraphProps
  OrderModel OrderSpec OrderProofs OrderProps AllocModel AllocProofs PlaceProofs RenderSpec PlanProofs PlanTotal RenderModel
  RenderProofs RenderMain AllocProps SessionModel SessionProofs FeedbackModel RenderProps SoundSpec SoundProofs SoundProps NestModel NestSpec NestProofs.
Local Open Scope nat_scope.

(** A graph without feedback and the plan it runs, which is one of those of [C17_exactly_sound_plans]. *)
Definition own_plan (bs : nat) (g : graph) (td : task_data) : Prop :=
  reachable g /\ refs_ok g /\ (N.of_nat (links g) < usize_max)%N /\ (forall k c e, in_edge g k c = Some e -> e_fb e = false) /\
  (exists a old a1, plan g bs a old = Some (a1, td)) /\ sound_plan g bs td.
Lemma all_nets_mono (P Q : graph -> task_data -> Prop) : (forall g td, P g td -> Q g td) -> forall n, all_nets P n -> all_nets Q n.
Proof.
  intros H n. induction n as [g td sub IH] using net_induct. intros [HP Hall]. split; [apply H; exact HP|].
  intros k. specialize (Hall k). destruct (sub k) as [n'|] eqn:E; [|exact I]. destruct Hall as [A B]. split; [eapply IH; eauto|exact B].
Qed.
Lemma own_good bs n : all_nets (own_plan bs) n -> all_nets (good_plan bs) n.
Proof.
  apply all_nets_mono. intros g td (Hr & Hrefs & Hl & Hfb & Hp & Hs). split; [|split; assumption].
  constructor; try assumption. apply reachable_wf. exact Hr.
Qed.

(** If every graph of the nest renders on its own, then so does the nest, to any depth: every inner graph contributes what it plays with the
    signals arriving at its node on its inputs, block after block. *)
Theorem C75_nested : forall F zero St proc bs n gins m st m' st' outs, 0 < bs -> all_nets (own_plan bs) n ->
  (forall gin c, In gin gins -> List.length (gin c) = bs) -> ready F zero St bs n m st ->
  nrender_n F zero St proc bs n gins (m, st) = (m', st', outs) -> nplays F zero St proc bs n gins st outs.
Proof.
  intros F zero St proc bs n gins m st m' st' outs Hbs Hn Hg Hr H.
  exact (proj2 (nrender_plays F zero St proc bs Hbs n (own_good bs n Hn) gins m st m' st' outs Hg Hr H)).
Qed.
Print Assumptions C75_nested.

(** The meaning of a nest is unique: whatever agrees with all generators and all connections is what is rendered. *)
Theorem C75_unique : forall F zero St proc bs n gin m st st1 outs, 0 < bs -> all_nets (own_plan bs) n ->
  (forall c, List.length (gin c) = bs) -> ready F zero St bs n m st ->
  means F zero St proc bs n [] gin st st1 outs -> snd (nrender F zero St proc bs n [] gin (m, st)) = outs.
Proof.
  intros F zero St proc bs n gin m st st1 outs Hbs Hn Hg Hr H.
  exact (means_render F zero St proc bs Hbs n (own_good bs n Hn) [] gin m st st1 outs Hg Hr H).
Qed.
Print Assumptions C75_unique.

(** Graphs as in [C17_blocks_partial] qualify at every level. *)
Theorem C75_plain : forall bs n, 0 < bs -> all_nets (fun g td => plain_graph g /\ exists a old a1, plan g bs a old = Some (a1, td)) n ->
  all_nets (own_plan bs) n.
Proof.
  intros bs n Hbs. apply all_nets_mono. intros g td [Hg (a & old & a1 & Hp)]. pose proof Hg as (H1 & H2 & H3 & H4 & _).
  do 4 (split; [assumption|]). split; [eauto|]. eapply C17_plain_graphs_sound; eauto.
Qed.
Print Assumptions C75_plain.

(** ** a case: a source into a graph that doubles and holds another graph that triples *)
Definition nd8 (k : nat) : node_or_graph := NNode (mk_id k 8).
Definition nd9 (k : nat) : node_or_graph := NNode (mk_id k 9).
Definition outer_ops : list op := [ OpPush 0 1 [] false; OpPush 1 1 [] false; OpConnect (nd 0) 0 0 (nd 1) true false; OpConnect (nd 1) 0 0 NGraph true false ].
Definition middle_ops : list op := [ OpPush 1 1 [] false; OpPush 1 1 [] false; OpConnect NGraph 0 0 (nd8 0) true false;
  OpConnect (nd8 0) 0 0 (nd8 1) true false; OpConnect (nd8 1) 0 0 NGraph true false ].
Definition inner_ops : list op := [ OpPush 1 1 [] false; OpConnect NGraph 0 0 (nd9 0) true false; OpConnect (nd9 0) 0 0 NGraph true false ].
Definition built (g : graph) (ops : list op) : graph := match run g ops with Some g => g | None => g end.
Definition outer_g : graph := built (graph_new 7 0 1 [0; 1]) outer_ops.
Definition middle_g : graph := built (graph_new 8 1 1 [0; 1]) middle_ops.
Definition inner_g : graph := built (graph_new 9 1 1 [0; 1]) inner_ops.
Definition planned (g : graph) : task_data := match plan g 2 (alloc_new 8) (fun _ => false) with Some (_, td) => td | None => mk_td [] [] end.
Definition inner_n : net := Net inner_g (planned inner_g) (fun _ => None).
Definition middle_n : net := Net middle_g (planned middle_g) (fun k => if k =? 1 then Some inner_n else None).
Definition outer_n : net := Net outer_g (planned outer_g) (fun k => if k =? 1 then Some middle_n else None).

(** The source counts, the generators multiply what arrives. *)
Definition nest_proc (p : list key) (s : Z) (ins : list (list Z)) (pars : list (N * list Z)) : Z * (nat -> nat -> Z) :=
  match p with
  | [0] => ((s + 2)%Z, fun _ i => (s + Z.of_nat i)%Z)
  | [0; 1] => (s, fun _ i => (2 * nth i (nth 0 ins []) 0)%Z)
  | _ => (s, fun _ i => (3 * nth i (nth 0 ins []) 0)%Z)
  end.
Definition nest_st : key -> nstate Z Z := fun k =>
  if k =? 1 then Inner (fun _ => 0%Z) (fun k => if k =? 1 then Inner (fun _ => 0%Z) (fun _ => Leaf 0%Z) else Leaf 0%Z) else Leaf 1%Z.

Lemma own_case g0 ops g : run g0 ops = Some g -> (exists id i o sl, g0 = graph_new id i o sl) -> plain_run g0 ops g ->
  (N.of_nat (links g) < usize_max)%N -> forallb (fun kn => match n_edges (snd kn) with Some es => forallb (fun o => match o with Some e => negb (e_fb e) | None => true end) es | None => true end) (g_nodes g) = true ->
  forall a1 td, plan g 2 (alloc_new 8) (fun _ => false) = Some (a1, td) -> sound_b g 2 td = true -> own_plan 2 g td.
Proof.
  intros Hrun (id & i & o & sl & ->) Hp Hl Hfb a1 td Hplan Hs.
  split; [exists id, i, o, sl, ops; exact Hrun|]. split; [exact (proj1 (plain_run_refs _ _ _ Hp (graph_new_wf _ _ _ _) (graph_new_refs _ _ _ _)))|].
  split; [exact Hl|]. split.
  { intros k c e H. unfold in_edge, edges_of, lookup in H. rewrite forallb_forall in Hfb.
    destruct (nlookup (g_nodes g) k) as [n|] eqn:E; cbn in H; [|discriminate]. destruct (n_edges n) as [es|] eqn:Ee; [|discriminate].
    destruct (nth_error es c) as [oe|] eqn:En; [subst oe|discriminate].
    apply nlookup_In in E. specialize (Hfb _ E). cbn [snd] in Hfb. rewrite Ee, forallb_forall in Hfb.
    specialize (Hfb _ (nth_error_In _ _ En)). cbn in Hfb. destruct (e_fb e); [discriminate|reflexivity]. }
  split; [eauto|]. apply sound_b_ok. exact Hs.
Qed.
Example C75_case : all_nets (own_plan 2) outer_n /\ ready Z 0%Z Z 2 outer_n (fun _ => 0%Z) nest_st /\
  snd (nrender_n Z 0%Z Z nest_proc 2 outer_n [(fun _ => [0; 0]%Z); (fun _ => [0; 0]%Z)] ((fun _ => 0%Z), nest_st)) = [[[6; 12]]; [[18; 24]]]%Z.
Proof.
  split; [|split; [|vm_compute; reflexivity]].
  - assert (Ho : own_plan 2 outer_g (planned outer_g)).
    { eapply (own_case (graph_new 7 0 1 [0; 1]) outer_ops); [vm_compute; reflexivity|eauto| | | |vm_compute; reflexivity|]; [|vm_compute; reflexivity..].
      unfold outer_ops. do 4 (eapply plain_cons; [first [exact I|split; [reflexivity|live_tac]]|vm_compute; reflexivity|]). vm_compute. constructor. }
    assert (Hm : own_plan 2 middle_g (planned middle_g)).
    { eapply (own_case (graph_new 8 1 1 [0; 1]) middle_ops); [vm_compute; reflexivity|eauto| | | |vm_compute; reflexivity|]; [|vm_compute; reflexivity..].
      unfold middle_ops. do 5 (eapply plain_cons; [first [exact I|split; [reflexivity|live_tac]]|vm_compute; reflexivity|]). vm_compute. constructor. }
    assert (Hi : own_plan 2 inner_g (planned inner_g)).
    { eapply (own_case (graph_new 9 1 1 [0; 1]) inner_ops); [vm_compute; reflexivity|eauto| | | |vm_compute; reflexivity|]; [|vm_compute; reflexivity..].
      unfold inner_ops. do 3 (eapply plain_cons; [first [exact I|split; [reflexivity|live_tac]]|vm_compute; reflexivity|]). vm_compute. constructor. }
    split; [exact Ho|]. intros k. destruct (k =? 1) eqn:E; [|exact I]. apply Nat.eqb_eq in E. subst k. split.
    + split; [exact Hm|]. intros k. destruct (k =? 1) eqn:E; [|exact I]. apply Nat.eqb_eq in E. subst k. split.
      * split; [exact Hi|]. intros k. exact I.
      * vm_compute. intros nd' H. injection H as <-. split; reflexivity.
    + vm_compute. intros nd' H. injection H as <-. split; reflexivity.
  - split; [reflexivity|]. intros k. unfold nest_st. destruct (k =? 1); [|eauto]. do 2 eexists. split; [reflexivity|].
    split; [reflexivity|]. intros k'. destruct (k' =? 1); [|eauto]. do 2 eexists. split; [reflexivity|]. split; [reflexivity|]. eauto.
Qed.
