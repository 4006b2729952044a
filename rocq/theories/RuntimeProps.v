(** Properties C21 and C22: the hand-over between editing and audio thread. Specification: [RuntimeSpec].
    [yrun (sys_new …) ops] ranges over all interleavings of edits, commits and the steps of audio blocks,
    including the edits of the init callback before the audio thread starts. *)
From Verif Require Import Base GraphModel GraphSpec GraphBase GraphPath GraphInv GraphShape GraphGrow OrderModel OrderSpec OrderProofs
  RuntimeModel RuntimeSpec RuntimeEvolve RuntimeSafe RuntimeLink.
Local Open Scope nat_scope.

Section Props.
Variables St X : Type.
Variable init : key -> St.
Variable proc : X -> key -> St -> St.
Notation sys := (sys St X).
Notation live_in y k := (live (y_g St X y) k).

(** [y] is reached by some interleaving in which no commit found the ring buffer full. *)
Definition reached (y : sys) : Prop := exists id i o slots cap dcap ops,
  yrun St X proc (sys_new St X init id i o slots cap dcap) ops = Some y.
Definition in_time (y : sys) : Prop := reached y /\ y_lost St X y = false.
Lemma in_time_linked y : in_time y -> linked init proc y.
Proof.
  intros [(id & i & o & slots & cap & dcap & ops & H) Hl]. eapply linked_runs; [apply linked_new|exact H|exact Hl].
Qed.
Lemma reached_safe y : reached y -> safe y.
Proof. intros (id & i & o & slots & cap & dcap & ops & H). eapply (safe_run init proc); [apply (safe_new init)|exact H]. Qed.

(** When a block runs, every node in it has exactly the state that all earlier blocks left it with, however
    many commits were picked up in between and in whatever portions; no node is in the block twice. *)
Theorem C21_continues_partial : forall y, in_time y -> at_block y ->
  NoDup (r_keys _ (y_cur _ _ y)) /\
  forall k u, In (k, u) (r_tasks _ (y_cur _ _ y)) -> u = Own (expected init proc k (y_trace _ _ y)).
Proof.
  intros y Hy (Hr & Hn & Hc). pose proof (in_time_linked y Hy) as Hl. destruct Hl.
  destruct (y_virgin St X y) eqn:Hv.
  - destruct (k_virgin eq_refl) as (_ & _ & _ & _ & V).
    assert (Hst : y_started St X y = true).
    { destruct (y_started St X y) eqn:E; [reflexivity|]. destruct (sf_unstarted y k_safe E). congruence. }
    destruct (V Hst) as [V1|[V1|[V1 _]]]; [|congruence..]. unfold r_keys. rewrite V1. split; [constructor|intros k u []].
  - unfold act, running in k_nodup, k_act. rewrite Hv, Hn in k_nodup, k_act. auto.
Qed.
(** No step of the audio thread panics. *)
Theorem C21_blocks_run_partial : forall y, in_time y ->
  ystep St X proc y (YApply X) <> None /\ forall x, ystep St X proc y (YRun X x) <> None.
Proof.
  intros y Hy. pose proof (in_time_linked y Hy) as Hl. split.
  - cbn [ystep]. destruct (y_reading St X y) eqn:Er; [|discriminate]. destruct (y_next St X y) eqn:En; [discriminate|].
    destruct (y_chunk St X y) as [|td rest] eqn:Ec; [discriminate|].
    destruct (linked_apply_ok init proc y Hl Er En td rest Ec) as (old' & E & _). rewrite E. discriminate.
  - intros x. cbn [ystep]. destruct (y_reading St X y) eqn:Er; [|discriminate]. destruct (y_next St X y) eqn:En; [discriminate|].
    destruct (y_chunk St X y) as [|td rest] eqn:Ec; [|discriminate].
    destruct (C21_continues_partial y Hy (conj Er (conj En Ec))) as [_ H].
    rewrite (run_all_spec proc (fun k => expected init proc k (y_trace St X y))) by exact H. discriminate.
Qed.
(** A node that has run and was not freed runs in every later block. *)
Theorem C21_stays_partial : forall y k, in_time y -> at_block y -> live_in y k ->
  (exists b, In b (y_trace _ _ y) /\ In k (fst b)) -> In k (r_keys _ (y_cur _ _ y)).
Proof.
  intros y k Hy (Hr & Hn & Hc) Hk (b & Hb & Hi). pose proof (in_time_linked y Hy) as Hl. destruct Hl.
  specialize (k_trace b k Hb Hi). specialize (k_cact k Hk k_trace). unfold act, running in k_cact. rewrite Hn in k_cact.
  destruct (y_virgin St X y); [destruct k_cact|exact k_cact].
Qed.
(** When everything committed has been picked up and nothing was changed since, the block consists of the
    nodes of the graph. *)
Theorem C21_complete_partial : forall y k, in_time y -> at_block y -> y_ring _ _ y = [] -> g_recalc (y_g _ _ y) = false ->
  In k (r_keys _ (y_cur _ _ y)) <-> live_in y k.
Proof.
  intros y k Hy (Hr & Hn & Hc) Hring Hcalm. pose proof (in_time_linked y Hy) as Hl. destruct Hl.
  assert (Hcur : r_keys _ (y_cur _ _ y) = y_order _ _ y).
  { unfold waiting in k_order. rewrite Hc, Hring in k_order. cbn in k_order. unfold act, running in k_order.
    rewrite Hn in k_order. destruct (y_virgin St X y) eqn:Hv; [|exact k_order].
    destruct (k_virgin eq_refl) as (_ & _ & _ & _ & V).
    assert (Hst : y_started St X y = true).
    { destruct (y_started St X y) eqn:E; [reflexivity|]. destruct (sf_unstarted y k_safe E). congruence. }
    destruct (V Hst) as [V1|[V1|[V1 _]]]; [|congruence..]. unfold r_keys. rewrite V1. exact k_order. }
  rewrite Hcur. split; [apply k_calm2; exact Hcalm|]. intros Hk. apply k_cord; [exact Hk|]. apply k_calm; assumption.
Qed.
(** Every UGen ever created is in exactly one place: in its node, in one task list, or dropped. *)
Theorem C21_one_owner_partial : forall y, in_time y ->
  NoDup (owners y) /\ forall k, In k (owners y) <-> k < g_next (y_g _ _ y).
Proof.
  intros y Hy. pose proof (in_time_linked y Hy) as Hl. destruct Hl. split.
  - apply cnt_nodup. intros k. rewrite k_own. destruct (k <? _); lia.
  - intros k. rewrite cnt_In, k_own. destruct (Nat.ltb_spec k (g_next (y_g St X y))); lia.
Qed.

(** A commit removes a node from the graph only after the audio thread took over a task list without it
    (and everything still waiting is without it); this also holds when the ring buffer was full. *)
Theorem C22_removed_after_release : forall y y' k, reached y -> ystep St X proc y (YCommit X) = Some y' ->
  In k (map fst (g_nodes (y_g _ _ y))) -> ~ In k (map fst (g_nodes (y_g _ _ y'))) -> released y k /\ released y' k.
Proof. intros y y' k Hy. apply commit_removes. apply reached_safe. exact Hy. Qed.
(** From then on no block runs it, whatever happens. *)
Theorem C22_never_run_again : forall y y' k ops y2, reached y -> ystep St X proc y (YCommit X) = Some y' ->
  In k (map fst (g_nodes (y_g _ _ y))) -> ~ In k (map fst (g_nodes (y_g _ _ y'))) ->
  yrun St X proc y' ops = Some y2 ->
  exists l, y_trace _ _ y2 = y_trace _ _ y' ++ l /\ forall b, In b l -> ~ In k (fst b).
Proof.
  intros y y' k ops y2 Hy H Hin Hout Hrun. pose proof (reached_safe y Hy) as Hs.
  eapply (forgotten_run init proc ops y' y2 k); [eapply (safe_step init proc); eauto|exact Hrun|eapply (commit_forgets init proc y y'); eauto].
Qed.
(** The UGen itself is dropped only when its node was freed and neither the current task list of the audio thread
    nor any it will switch to contains it. *)
Theorem C22_ugen_dropped_late : forall y k, in_time y -> In k (y_dead _ _ y) ->
  ~ live_in y k /\ ~ In k (r_keys _ (y_cur _ _ y)) /\ released y k.
Proof.
  intros y k Hy Hk. pose proof (in_time_linked y Hy) as Hl. destruct Hl.
  destruct (k_left k) as (A & B & C); [unfold leftover; apply in_or_app; right; apply in_or_app; auto|].
  split; [exact B|]. split; [apply k_left2; apply in_or_app; auto|exact A].
Qed.
(** It is not kept for ever: once everything sent was picked up, the next commit removes all nodes freed
    before the last commit that sent something. *)
Theorem C22_reclaimed : forall y y' k f, in_time y -> waiting y = [] -> ystep St X proc y (YCommit X) = Some y' ->
  In (k, f) (g_pending (y_g _ _ y)) -> f < g_flag (y_g _ _ y) -> ~ In k (map fst (g_nodes (y_g _ _ y'))).
Proof.
  intros y y' k f Hy Hw H Hp Hf. pose proof (in_time_linked y Hy) as Hl. destruct Hl.
  assert (Ha : In f (y_applied St X y)) by (apply k_flags in Hf as [Hf|(t & Ht & _)]; [exact Hf|rewrite Hw in Ht; destruct Ht]).
  cbn [ystep] in H. unfold ycommit in H. destruct (free_old _ _) as [g1|] eqn:E; cbn [bind] in H; [|discriminate].
  assert (Hev : evolves (applied_fn St X y) (y_g St X y) g1)
    by (apply free_old_evolves; [apply k_safe|apply safe_fresh_flag; exact k_safe|exact E]).
  pose proof (ev_gone _ _ _ Hev k f Hp (proj2 (applied_fn_In y f) Ha)) as Hg.
  destruct (g_recalc g1); [|injection H as <-; exact Hg].
  destruct (node_order g1); cbn [bind] in H; [|discriminate]. destruct (make_tasks _ _ _ _).
  destruct (_ <? _); injection H as <-; exact Hg.
Qed.
End Props.
Print Assumptions C21_continues_partial.
Print Assumptions C21_blocks_run_partial.
Print Assumptions C21_stays_partial.
Print Assumptions C21_complete_partial.
Print Assumptions C21_one_owner_partial.
Print Assumptions C22_removed_after_release.
Print Assumptions C22_never_run_again.
Print Assumptions C22_ugen_dropped_late.
Print Assumptions C22_reclaimed.

(** ** cases: a UGen that counts the blocks it was run in, starting at 100 times its number *)
Definition cinit (k : key) : nat := 100 * k.
Definition cproc (x : nat) (k : key) (s : nat) : nat := s + x.
Definition c_new (cap : nat) : sys nat nat := sys_new nat nat cinit 7%N 0 1 [0; 1; 2; 3; 4; 5] cap 4.
Definition nd (k : key) : node_id := mk_id k 7%N.
Definition e_push : yop nat := YEdit _ (OpPush 1 1 [] false).
Definition e_out (k : key) : yop nat := YEdit _ (OpConnect (NNode (nd k)) 0 0 NGraph false false).
Definition e_free (k : key) : yop nat := YEdit _ (OpFree (nd k)).
Definition cblock (applies : nat) (x : nat) : list (yop nat) :=
  YRead _ :: List.concat (repeat [YApply _; YSwitch _] applies) ++ [YRun _ x].
(** Init callback: nodes 0 and 1; block; push node 2, commit, free node 0, commit; a block picks up both commits; stop
    right before the next block is run. *)
Definition c_ops : list (yop nat) :=
  [e_push; e_push; e_out 1; YCommit _; YStart _] ++ cblock 1 1 ++ [e_push; YCommit _; e_free 0; YCommit _] ++ cblock 2 5 ++
  [YCommit _; YRead _].
Definition c_run (cap : nat) (ops : list (yop nat)) : sys nat nat :=
  match yrun nat nat cproc (c_new cap) ops with Some y => y | None => c_new cap end.
Lemma c_reached cap ops :
  match yrun nat nat cproc (c_new cap) ops with Some _ => true | None => false end = true ->
  reached nat nat cinit cproc (c_run cap ops).
Proof.
  intros H. exists 7%N, 0, 1, [0; 1; 2; 3; 4; 5], cap, 4, ops. fold (c_new cap). unfold c_run.
  destruct (yrun nat nat cproc (c_new cap) ops); [reflexivity|discriminate].
Qed.
Lemma c_wf cap ops :
  match yrun nat nat cproc (c_new cap) ops with Some _ => true | None => false end = true -> wf (y_g _ _ (c_run cap ops)).
Proof. intros H. apply c_reached in H. apply reached_safe in H. apply H. Qed.
Definition c_state := c_run 3 c_ops.
(** Node 1 went through both blocks, node 2 through one, node 0 is no longer run and was removed and dropped. *)
Example C21_case : in_time nat nat cinit cproc c_state /\ at_block c_state /\
  r_tasks _ (y_cur _ _ c_state) = [(1, Own 106); (2, Own 205)] /\
  y_trace _ _ c_state = [([1; 0], 1); ([1; 2], 5)] /\
  map fst (g_nodes (y_g _ _ c_state)) = [1; 2] /\ y_dead _ _ c_state = [0] /\ owners c_state = [1; 2; 0] /\
  y_ring _ _ c_state = [] /\ g_recalc (y_g _ _ c_state) = false.
Proof.
  split; [split; [apply c_reached; vm_compute; reflexivity|vm_compute; reflexivity]|].
  vm_compute. repeat split.
Qed.
(** The state just before that last commit: node 0 is still in the graph and its flag is set. *)
Definition c_before := c_run 3 (firstn 18 c_ops).
Example C22_case : in_time nat nat cinit cproc c_before /\
  g_pending (y_g _ _ c_before) = [(0, 2)] /\ map fst (g_nodes (y_g _ _ c_before)) = [0; 1; 2] /\ waiting c_before = [] /\
  match ystep nat nat cproc c_before (YCommit _) with Some y' => map fst (g_nodes (y_g _ _ y')) = [1; 2] | None => False end.
Proof.
  split; [split; [apply c_reached; vm_compute; reflexivity|vm_compute; reflexivity]|].
  vm_compute. repeat split.
Qed.

(** Not covered: when the ring buffer is full, [commit_changes] has already moved the UGens into the new list, which is
    dropped.  If editing goes on after that error, the next list refers to tasks that the audio thread never
    received.  Here (ring buffer of one) node 1's UGen is dropped although its node was not freed, and the audio
    thread then panics. *)
Definition full_ops : list (yop nat) :=
  [e_push; e_out 0; YCommit _; YStart _; e_push; YCommit _] ++ cblock 1 1 ++ [YCommit _; YRead _].
Theorem C21_ring_full_refuted : exists y, reached nat nat cinit cproc y /\ live (y_g _ _ y) 1 /\ In 1 (y_dead _ _ y) /\
  ystep nat nat cproc y (YApply _) = None.
Proof.
  exists (c_run 1 full_ops). split; [apply c_reached; vm_compute; reflexivity|].
  split; [|split; [vm_compute; auto|vm_compute; reflexivity]].
  apply live_iff; [apply c_wf; vm_compute; reflexivity|]. vm_compute. intuition discriminate.
Qed.
Print Assumptions C21_ring_full_refuted.
(** ... or gives a node the state of another one: with node 0 freed in the lost commit, the next block runs node 1
    with the UGen of node 0 (100 * 0 plus what it had counted). *)
Definition swap_ops : list (yop nat) :=
  [e_push; e_push; e_out 0; YCommit _; YStart _; e_free 0; YCommit _] ++ cblock 1 1 ++ [YCommit _; YRead _; YApply _; YSwitch _].
Theorem C21_ring_full_swaps_refuted : exists y, reached nat nat cinit cproc y /\ at_block y /\
  r_tasks _ (y_cur _ _ y) = [(1, Own 1)] /\ expected cinit cproc 1 (y_trace _ _ y) = 101.
Proof.
  exists (c_run 1 swap_ops). split; [apply c_reached; vm_compute; reflexivity|].
  vm_compute. repeat split.
Qed.
Print Assumptions C21_ring_full_swaps_refuted.
(** Taken literally ("switched to") the record part of C22 is off by one step: [applied] is stored (task.rs:129)
    before the current list is replaced (graph_gen.rs:97-99), so a commit between the two removes the node's
    record while the old list, which contains the node, is still the current one.  That list is not run again, and
    its UGens are in the lists, so [C22_never_run_again] and [C22_ugen_dropped_late] are not affected. *)
Definition early_ops : list (yop nat) :=
  [e_push; e_push; e_out 1; YCommit _; YStart _] ++ cblock 1 1 ++ [e_free 0; YCommit _; YRead _; YApply _].
Theorem C22_record_removed_before_switch_refuted : exists y y' k, in_time nat nat cinit cproc y /\
  ystep nat nat cproc y (YCommit _) = Some y' /\ In k (map fst (g_nodes (y_g _ _ y))) /\
  ~ In k (map fst (g_nodes (y_g _ _ y'))) /\ In k (r_keys _ (y_cur _ _ y')).
Proof.
  exists (c_run 3 early_ops), (c_run 3 (early_ops ++ [YCommit _])), 0.
  split; [split; [apply c_reached; vm_compute; reflexivity|vm_compute; reflexivity]|].
  vm_compute. intuition discriminate.
Qed.
Print Assumptions C22_record_removed_before_switch_refuted.
