(** Property C62: inspection. Specification: [InspectSpec]. [irun] ranges over all interleavings of edits, commits
    and audio blocks. *)
From Verif Require Import Base GraphModel GraphSpec GraphBase GraphPath GraphInv GraphShape GraphGrow OrderModel OrderSpec OrderProofs
  RuntimeModel RuntimeSpec RuntimeEvolve RuntimeSafe InspectModel InspectSpec InspectProofs.
Local Open Scope nat_scope.
Local Notation length := List.length.

Section Props.
Variables St X : Type.
Variable init : key -> St.
Variable proc : X -> key -> St -> St.
Definition ireached (yd : sys St X * list key) : Prop := exists id i o slots cap dcap ops,
  irun St X proc (sys_new St X init id i o slots cap dcap) [] ops = Some yd.
Lemma ireached_kept yd : ireached yd -> kept (fst yd).
Proof.
  intros (id & i & o & slots & cap & dcap & ops & H). destruct yd as [y disc]. eapply (kept_irun init proc); [|exact H]. apply kept_new.
Qed.

(** Inspecting never panics, at any moment; whatever is reported is described as it is in the graph. *)
Theorem C62_never_panics : forall yd, ireached yd ->
  exists r, inspect St X yd = Some r /\ describes (y_g _ _ (fst yd)) (fun k => In k (y_order _ _ (fst yd))) r.
Proof.
  intros yd H. apply ireached_kept in H. destruct H. unfold inspect, inspection.
  destruct (report_nodes_some _ (snd yd) _ i_keys) as [rs E].
  eexists. split; [rewrite E; reflexivity|]. apply (inspection_spec _ _ (snd yd)); [|exact i_nodup]. unfold inspection. rewrite E. reflexivity.
Qed.
(** When no edit is waiting for a commit, exactly the nodes that were not freed are reported. *)
Theorem C62_report_partial : forall yd r, ireached yd -> g_recalc (y_g _ _ (fst yd)) = false -> inspect St X yd = Some r ->
  describes (y_g _ _ (fst yd)) (live (y_g _ _ (fst yd))) r /\
  (forall id, In id (handle_ids r) <-> live (y_g _ _ (fst yd)) (id_key id) /\ id_graph id = g_id (y_g _ _ (fst yd))).
Proof.
  intros yd r H Hc Hi. apply ireached_kept in H. destruct H.
  destruct (inspection_spec _ _ _ _ Hi i_nodup) as [(A & B & C) _].
  assert (Hk : forall k, In k (map nr_key (gr_nodes r)) <-> live (y_g St X (fst yd)) k) by (intros k; rewrite B; apply i_calm; exact Hc).
  assert (Hd : describes (y_g _ _ (fst yd)) (live (y_g _ _ (fst yd))) r) by (split; [exact A|split; [exact Hk|exact C]]).
  split; [exact Hd|]. destruct C as (_ & _ & _ & Eid & _). intros id. unfold handle_ids. rewrite <- Hk, Eid. split.
  - intros Hin. apply in_map_iff in Hin as (n & <- & Hn). cbn [id_key id_graph]. split; [apply in_map; exact Hn|reflexivity].
  - intros [Hin Eg]. apply in_map_iff in Hin as (n & En & Hn). apply in_map_iff. exists n. split; [|exact Hn].
    destruct id as [k gid]. cbn in *. subst. reflexivity.
Qed.
(** The drawing shows only connections that exist; all of them, if none comes from a freed node. *)
Theorem C62_drawing_partial : forall yd r, ireached yd -> inspect St X yd = Some r ->
  (forall a, In a (dot_arrows r) <-> stands_for (y_g _ _ (fst yd)) r a) /\
  (g_recalc (y_g _ _ (fst yd)) = false -> fed_by_live (y_g _ _ (fst yd)) ->
    (forall k c e, in_edge (y_g _ _ (fst yd)) k c = Some e -> exists a j n, In a (dot_arrows r) /\ ar_dst a = Some j /\ ar_to a = c /\
       nth_error (gr_nodes r) j = Some n /\ nr_key n = k /\ ar_from a = e_chan e) /\
    (forall c e, out_edge (y_g _ _ (fst yd)) c = Some e ->
       exists a, In a (dot_arrows r) /\ ar_dst a = None /\ ar_to a = c /\ ar_from a = e_chan e)).
Proof.
  intros yd r H Hi. split.
  - intros a. pose proof (ireached_kept yd H) as Hk. destruct Hk. destruct (inspection_spec _ _ _ _ Hi i_nodup) as [Hd _].
    exact (dot_stands _ _ r a Hd).
  - intros Hc Hf. apply dot_all; [|exact Hf]. exact (proj1 (C62_report_partial yd r H Hc Hi)).
Qed.
(** After a commit that had edits to send, a node is shown as unconnected if it is not heard at any output;
    and, without feedback connections, only then. *)
Theorem C62_unconnected_partial : forall y disc y' disc' r n, ireached (y, disc) -> g_recalc (y_g _ _ y) = true ->
  irun St X proc y disc [YCommit X] = Some (y', disc') -> inspect St X (y', disc') = Some r -> In n (gr_nodes r) ->
  (~ heard (y_g _ _ y') (nr_key n) -> nr_unconnected n = true) /\
  ((forall k c e, in_edge (y_g _ _ y') k c = Some e -> e_fb e = false) -> nr_unconnected n = true -> ~ heard (y_g _ _ y') (nr_key n)).
Proof.
  intros y disc y' disc' r n Hr Hc H Hi Hn. pose proof (ireached_kept _ Hr) as Hk. cbn [fst] in Hk.
  cbn [irun] in H. destruct (ystep St X proc y (YCommit X)) as [y1|] eqn:Es; cbn [bind] in H; [|discriminate].
  destruct (disc_step St X y disc (YCommit X)) as [d1|] eqn:Ed; cbn [bind] in H; [|discriminate]. injection H as -> ->.
  pose proof (kept_step init proc _ _ _ Hk Es) as Hk'.
  cbn [disc_step] in Ed. destruct (free_old (applied_fn St X y) (y_g St X y)) as [g1|] eqn:Ef; cbn [bind] in Ed; [|discriminate].
  pose proof (safe_fresh_flag y (i_safe y Hk)) as HA.
  pose proof (free_old_evolves _ _ _ (sf_wf y (i_safe y Hk)) HA Ef) as Hev.
  assert (Er : g_recalc g1 = true).
  { destruct (g_recalc g1) eqn:E; [reflexivity|]. destruct (ev_calm _ _ _ Hev E). congruence. }
  rewrite Er in Ed. destruct (node_order2 g1) as [[o1 o2]|] eqn:Eo; cbn in Ed; [|discriminate]. injection Ed as <-.
  assert (Hf : g_nodes (y_g St X y') = g_nodes g1 /\ g_outs (y_g St X y') = g_outs g1 /\ y_order St X y' = o1 ++ o2).
  { cbn [ystep] in Es. unfold ycommit in Es. rewrite Ef in Es. cbn [bind] in Es. rewrite Er in Es.
    unfold node_order in Es. rewrite Eo in Es. cbn [bind fst snd] in Es. destruct (make_tasks _ _ _ _).
    destruct (_ <? _); injection Es as <-; cbn; auto. }
  destruct Hf as (F1 & F2 & F3).
  destruct (inspection_spec _ _ _ _ Hi (i_nodup y' Hk')) as (_ & Hm & Hu). cbn [fst snd] in *. rewrite (Hu n Hn).
  assert (Hl : live g1 (nr_key n)).
  { assert (E : node_order g1 = Some (o1 ++ o2)) by (unfold node_order; rewrite Eo; reflexivity).
    apply (order_once g1 _ (ev_wf _ _ _ Hev) E). rewrite <- F3, <- Hm. apply in_map. exact Hn. }
  destruct (unconnected_spec g1 o1 o2 _ (ev_wf _ _ _ Hev) Eo Hl) as [U1 U2].
  rewrite (heard_frame g1 _ _ F1 F2), mem_In. split; [exact U1|]. intros Hfb. apply U2. intros k c e He.
  apply (Hfb k c e). rewrite <- He. apply in_edge_frame. exact F1.
Qed.
End Props.
Print Assumptions C62_never_panics.
Print Assumptions C62_report_partial.
Print Assumptions C62_drawing_partial.
Print Assumptions C62_unconnected_partial.

(** ** cases: UGens that count the blocks they ran *)
Definition sinit (k : key) : nat := 0.
Definition sproc (x : nat) (k : key) (s : nat) : nat := S s.
Definition srun (ops : list (yop nat)) := irun nat nat sproc (sys_new nat nat sinit 7 1 2 [] 4 4) [] ops.
Definition nd (k : nat) := NNode (mk_id k 7).
Definition ed (o : op) : yop nat := YEdit nat o.
Lemma s_reached ops yd : srun ops = Some yd -> ireached nat nat sinit sproc yd.
Proof. intros H. exists 7%N, 1, 2, [], 4, 4, ops. exact H. Qed.
(** node 0 and graph input 0 added up into output 0 (the sum is node 2), node 1 not connected *)
Definition s_ops : list (yop nat) :=
  [ed (OpPush 0 1 [] false); ed (OpPush 2 1 ["freq"%string] false); ed (OpConnect (nd 0) 0 0 NGraph true false);
   ed (OpConnect NGraph 0 0 NGraph true false); YStart nat; YCommit nat].
Example C62_case : exists yd r, srun s_ops = Some yd /\ inspect nat nat yd = Some r /\ g_recalc (y_g _ _ (fst yd)) = false /\
  map nr_key (gr_nodes r) = [0; 2; 1] /\ map nr_unconnected (gr_nodes r) = [false; false; true] /\
  map nr_edges (gr_nodes r) = [[]; [mk_er (Some 0) 0 0 false; mk_er None 0 1 false]; []] /\
  gr_outs r = [mk_er (Some 2) 0 0 false] /\
  dot_arrows r = [mk_arrow (Some 0) 0 (Some 1) 0; mk_arrow None 0 (Some 1) 1; mk_arrow (Some 1) 0 None 0].
Proof.
  destruct (srun s_ops) as [yd|] eqn:E; [|vm_compute in E; discriminate].
  destruct (inspect nat nat yd) as [r|] eqn:Er; [|exfalso; vm_compute in E; injection E as <-; vm_compute in Er; discriminate].
  exists yd, r. split; [reflexivity|]. split; [exact Er|]. vm_compute in E. injection E as <-. vm_compute in Er. injection Er as <-.
  vm_compute. repeat split.
Qed.

Ltac start ops := destruct (srun ops) as [yd|] eqn:E; [|vm_compute in E; discriminate];
  destruct (inspect nat nat yd) as [r|] eqn:Er; [|exfalso; vm_compute in E; injection E as <-; vm_compute in Er; discriminate];
  exists yd, r; split; [exact (s_reached _ _ E)|]; split; [exact Er|]; vm_compute in E; injection E as <-; vm_compute in Er; injection Er as <-.
(** Nodes pushed since the last commit are not reported ("All the nodes currently in the Graph"). *)
Theorem C62_uncommitted_refuted : exists yd r, ireached nat nat sinit sproc yd /\ inspect nat nat yd = Some r /\
  live (y_g _ _ (fst yd)) 0 /\ gr_nodes r = [].
Proof.
  start [ed (OpPush 0 1 [] false)]. split; [|reflexivity]. eexists. eexists. split; vm_compute; reflexivity.
Qed.
(** Nodes pending removal are not reported either ("including those pending removal"). *)
Theorem C62_pending_refuted : exists yd r, ireached nat nat sinit sproc yd /\ inspect nat nat yd = Some r /\
  g_recalc (y_g _ _ (fst yd)) = false /\ lookup (y_g _ _ (fst yd)) 0 <> None /\ is_pending (y_g _ _ (fst yd)) 0 = true /\ gr_nodes r = [].
Proof.
  start [ed (OpPush 0 1 [] false); YCommit nat; ed (OpFree (mk_id 0 7)); YCommit nat].
  vm_compute. repeat split. discriminate.
Qed.
(** A feedback connection is reported as an ordinary one. *)
Theorem C62_feedback_refuted : exists yd r, ireached nat nat sinit sproc yd /\ inspect nat nat yd = Some r /\
  g_recalc (y_g _ _ (fst yd)) = false /\ exists n er e, In n (gr_nodes r) /\ In er (nr_edges n) /\
  in_edge (y_g _ _ (fst yd)) (nr_key n) (er_to er) = Some e /\ e_fb e = true /\ er_fb er = false.
Proof.
  start [ed (OpPush 1 1 [] false); ed (OpConnect (nd 0) 0 0 (nd 0) true true); YCommit nat].
  split; [reflexivity|]. cbn [gr_nodes].
  match goal with |- exists n er e, In n (?a :: _) /\ _ => exists a, (hd (mk_er None 0 0 false) (nr_edges a)) end.
  eexists. split; [left; reflexivity|]. split; [left; reflexivity|]. vm_compute. repeat split.
Qed.
(** Taking a node off the graph output is not reported, even after a commit: nothing feeds an output, the node is
    still shown as connected. *)
Theorem C62_disconnected_refuted : exists yd r, ireached nat nat sinit sproc yd /\ inspect nat nat yd = Some r /\
  g_recalc (y_g _ _ (fst yd)) = false /\ (forall k, ~ feeds_output (y_g _ _ (fst yd)) k) /\
  exists n, gr_nodes r = [n] /\ nr_unconnected n = false.
Proof.
  start [ed (OpPush 0 1 [] false); ed (OpConnect (nd 0) 0 0 NGraph true false); YCommit nat;
         ed (OpDisconnectIn 0 NGraph); YCommit nat].
  split; [reflexivity|]. split; [|eexists; split; reflexivity].
  intros k (c & e & He & _). destruct c as [|[|c]]; vm_compute in He; try discriminate. destruct c; discriminate.
Qed.
Print Assumptions C62_uncommitted_refuted.
Print Assumptions C62_pending_refuted.
Print Assumptions C62_feedback_refuted.
Print Assumptions C62_disconnected_refuted.
