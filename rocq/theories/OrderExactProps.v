(** C16: exactly when every node runs after what it reads.  Specification: [OrderSpec], [ExactSpec]. *)
From Verif Require Import Base GraphModel GraphSpec GraphBase GraphPath GraphInv GraphShape GraphRefs GraphClean GraphStep
  OrderModel OrderSpec OrderProofs ExactSpec OrderExact GraphProps OrderProps.
Local Open Scope nat_scope.

(** Without feedback connections and loops: the nodes connected to the graph outputs all run after everything they
    read exactly if no start node the code picks ([roots], processed from the front of the list) is upstream of one
    processed before it. *)
Theorem C16_starts_exactly : forall g ord r, reachable g -> node_order g = Some ord -> roots g = Some r ->
  (forall k, ~ upstream g k k) -> (forall k c e, in_edge g k c = Some e -> e_fb e = false) ->
  ((forall k, heard g k -> after_sources g ord k) <->
   (forall x y, before r x y -> ~ upstream g y x)).
Proof.
  intros g ord r Hg H Er Hac Hfb. split.
  - intros Hall x y (l1 & l2 & E & Hy). eapply starts_needed; eauto. exact (reachable_wf g Hg).
  - intros Hp. eapply C16_topological_starts_partial; eauto.
    intros l1 x l2 y E Hy. apply Hp. exists l1, l2. auto.
Qed.
Print Assumptions C16_starts_exactly.

(** A node connected to no graph output runs after everything it reads exactly if each of its sources is connected to
    a graph output or sits in an earlier slot. *)
Theorem C16_unheard_exactly : forall g ord k, reachable g -> node_order g = Some ord ->
  (forall k c e, in_edge g k c = Some e -> e_fb e = false) -> sources_live g -> live g k -> ~ heard g k ->
  (after_sources g ord k <-> forall s, same_block g s k -> heard g s \/ before (map fst (g_nodes g)) s k).
Proof. intros g ord k Hg. apply unheard_needed. exact (reachable_wf g Hg). Qed.
Print Assumptions C16_unheard_exactly.

(** The graph with two outputs of [OrderProps]: start nodes 2 and 3, neither upstream of the other. *)
Example C16_starts_case : roots ex_two = Some [2; 3] /\ (forall x y, before [2; 3] x y -> ~ upstream ex_two y x).
Proof.
  split; [vm_compute; reflexivity|]. intros x y (l1 & l2 & E & Hy) Hup. apply ex_two_up in Hup.
  destruct l1 as [|a [|b [|c l1]]]; cbn in E; injection E; intros; subst; try contradiction; try discriminate.
  destruct Hy as [<-|[]]. vm_compute in Hup. lia.
Qed.
(** Nodes 0 and 1 connected to no output, 0 reads 1: its source sits in a later slot. *)
Definition ex_mute_ops : list op := [OpPush 1 1 [] false; OpPush 0 1 [] false; OpConnect (nd 1) 0 0 (nd 0) true false].
Definition ex_mute : graph := match run (graph_new 7 0 2 []) ex_mute_ops with Some g => g | None => ex_start end.
Example C16_unheard_case : reachable ex_mute /\ node_order ex_mute = Some [0; 1] /\
  (forall k c e, in_edge ex_mute k c = Some e -> e_fb e = false) /\ sources_live ex_mute /\ live ex_mute 0 /\
  ~ heard ex_mute 0 /\ same_block ex_mute 1 0 /\ ~ before (map fst (g_nodes ex_mute)) 1 0.
Proof.
  assert (Hin : forall k c e, in_edge ex_mute k c = Some e -> k = 0 /\ e = mk_edge (Some 1) 0 false).
  { intros k c e He. destruct k as [|[|k]]; [| |vm_compute in He; discriminate];
      destruct c as [|c]; vm_compute in He; try (destruct c; discriminate); try discriminate. injection He as <-. auto. }
  assert (Hout : forall c e, out_edge ex_mute c = Some e -> False).
  { intros c e He. destruct c as [|[|c]]; vm_compute in He; try discriminate. destruct c; discriminate. }
  assert (Hpar : forall s k, ~ par_feeds ex_mute s k).
  { intros s k (n & ps & p & El & E & Hp & _). destruct k as [|[|k]]; vm_compute in El; try discriminate;
      injection El as <-; vm_compute in E; injection E as <-; contradiction. }
  split; [exists 7%N, 0, 2, [], ex_mute_ops; vm_compute; reflexivity|]. split; [vm_compute; reflexivity|].
  split; [intros k c e He; apply Hin in He as [_ ->]; reflexivity|]. split.
  { split.
    - intros s k [(c & e & He & Hs & _)|H]; [|exfalso; eapply Hpar; eauto].
      apply Hin in He as [_ ->]. cbn in Hs. injection Hs as <-. live_tac.
    - intros k (c & e & He & _). exfalso. eapply Hout; eauto. }
  split; [live_tac|]. split; [intros (r & (c & e & He & _) & _); eapply Hout; eauto|]. split.
  { left. exists 0. eexists. split; [vm_compute; reflexivity|]. split; reflexivity. }
  intros (l1 & l2 & E & Hy). destruct l1 as [|a [|b [|d l1]]]; vm_compute in E; injection E; intros; subst; try contradiction; discriminate.
Qed.
