(** C49: parameters through stacks of wrappers *)
From Verif Require Import Base WrapModel WrapSpec WrapProofs.
Open Scope nat_scope.

(** Any stack [ls] around any generator, after any calls [cs] that did not panic (with one list entry per parameter, see
    [C49_shape]): a value of the parameter's type never panics, leaves every other parameter's owner alone, and reaches the owner at
    once unless a delay, an audio rate link or smoothing is active for that parameter on the way. *)
Theorem C49_apply : forall t ls cs s i v ty, steps (build t ls) cs = Some s ->
  nth_error (types s) i = Some ty -> accepts ty v = true -> (forall l, v <> VSmooth l) ->
  exists s', apply s i v = Some s' /\ (forall j, j <> i -> received s' j = received s j) /\
    (direct s i -> received s' i = received s i ++ [v]) /\ (received s' i = received s i \/ received s' i = received s i ++ [v]).
Proof.
  intros t ls cs s i v ty R T A N.
  pose proof (steps_wf cs _ _ (build_ok t ls) R) as W.
  destruct (apply_ok s i v ty W T A N) as (s' & E & _ & _ & H3 & H4). exists s'. split; [exact E |]. split.
  - intros j Hj. destruct (H3 j) as [H | [H _]]; [exact H | contradiction].
  - split; [exact H4 |]. destruct (H3 i) as [H | [_ H]]; auto.
Qed.
Print Assumptions C49_apply.

(** The number and types of parameters never change *)
Theorem C49_shape : forall t ls cs s, steps (build t ls) cs = Some s -> types s = types (build t ls) /\
  types (build t ls) = t ++ concat (map (fun l => match l with LMul => [TFloat] | LDone => [TInt] | _ => [] end) (rev ls)).
Proof.
  intros t ls cs s R. split.
  - pose proof (build_ok t ls) as W. revert W R. generalize (build t ls). induction cs as [| c cs IH]; intros s0 W R; cbn [steps] in R; [injection R as <-; reflexivity |].
    destruct (step s0 c) as [s1 |] eqn:E; [| discriminate R]. cbn [bind] in R. rewrite (IH s1 (step_wf s0 c s1 W E) R). exact (step_types s0 c s1 E).
  - clear R. induction ls as [| l ls IH]; [cbn; symmetry; apply app_nil_r |]. cbn [rev]. rewrite map_app, concat_app, app_assoc, <- IH. change (build t (l :: ls)) with (put l (build t ls)).
    destruct l; cbn [put types map concat app]; rewrite ?app_nil_r; reflexivity.
Qed.
Print Assumptions C49_shape.

(** A delay reaches the sample accurate wrapper when everything around it forwards delays and the parameter is one of those below
    it; a value set after it is held back with that delay. Missing: other stacks ([C49_delay_refuted], [C49_drop_refuted]). *)
Theorem C49_delay_partial : forall t ls cs s i d v, steps (build t ls) cs = Some s -> delay_path s i -> d <> 0%N ->
  length (queue_of s) < slots_of s ->
  exists s1 s2, delay s i d = Some (s1, true) /\ delay_of s1 i = Some d /\ apply s1 i v = Some s2 /\ queue_of s2 = queue_of s ++ [(d, i, v)] /\
    forall j, received s2 j = received s j.
Proof.
  intros t ls cs s i d v R H D Q. pose proof (steps_wf cs _ _ (build_ok t ls) R) as W.
  destruct (delay_then_apply s i d v W H D Q) as (s1 & s2 & A & B & _ & C & E). destruct (delay_ok s i d W H) as (s1' & A' & _ & _ & F & _). rewrite A' in A. injection A as <-.
  exists s1', s2. auto.
Qed.
Print Assumptions C49_delay_partial.

(** A link reaches the audio rate wrapper when everything around it forwards links and the parameter is one of those below it.
    Missing: other stacks ([C49_link_refuted], [C49_drop_refuted]). *)
Theorem C49_link_partial : forall t ls cs s i p, steps (build t ls) cs = Some s -> link_path s i ->
  exists s', link s i p = Some (s', true) /\ buffer_of s' i = Some p /\ forall j, received s' j = received s j.
Proof.
  intros t ls cs s i p R H. pose proof (steps_wf cs _ _ (build_ok t ls) R) as W. destruct (link_ok s i p W H) as (s' & A & _ & _ & B & C). exists s'. auto.
Qed.
Print Assumptions C49_link_partial.

(** No call with an existing parameter and a value of its type fails, in any order, in stacks where no [WrMul] is reached by delays and
    links. Missing: stacks with [WrMul] outside ([C49_delay_refuted], [C49_link_refuted]) and smoothing settings
    ([C49_smoothing_refuted]). *)
Theorem C49_never_fails_partial : forall t ls cs, no_mul (build t ls) -> Forall (call_ok (types (build t ls))) cs -> Forall no_smooth_call cs ->
  exists s, steps (build t ls) cs = Some s.
Proof. intros t ls cs M H N. destruct (steps_safe cs _ (build_ok t ls) M H N) as (s & E & _). exists s. exact E. Qed.
Print Assumptions C49_never_fails_partial.

(** [WrMul] adds a parameter but passes delays and links for it on to the wrapper inside, which has no such parameter and panics. A
    scheduled change of it is such a delay (graph_gen.rs:269-305), so this panics on the audio thread. *)
Theorem C49_delay_refuted : exists t ls i d, i < length (types (build t ls)) /\ nth_error (types (build t ls)) i = Some TFloat /\ delay (build t ls) i d = None.
Proof. exists [TFloat], [LMul; LPrecise 4], 1, 5%N. vm_compute. auto. Qed.
Print Assumptions C49_delay_refuted.
Theorem C49_link_refuted : exists t ls i p, i < length (types (build t ls)) /\ nth_error (types (build t ls)) i = Some TFloat /\ link (build t ls) i p = None.
Proof. exists [TFloat], [LMul; LAr], 1, 7. vm_compute. auto. Qed.
Print Assumptions C49_link_refuted.
(** [WrDone], [WrArParams], [WrSmoothParams] and [WrArParamToInput] do not pass delays on, [WrDone], [WrSmoothParams] and
    [WrArParamToInput] do not pass links on: the wrapper inside that would use them never learns of them. *)
Theorem C49_drop_refuted :
  (forall l, In l [LDone; LAr; LSmooth; LToInput] -> forall t ls i d, delay (build t (l :: ls)) i d = Some (build t (l :: ls), false)) /\
  (forall l, In l [LDone; LSmooth; LToInput] -> forall t ls i p, link (build t (l :: ls)) i p = Some (build t (l :: ls), false)) /\
  delay (build [TFloat] [LPrecise 4]) 0 5%N = Some (SPrecise 4 [5%N] [] (SBase [TFloat] []), true).
Proof.
  split; [| split; [| vm_compute; reflexivity]]; intros l H t ls i d; change (build t (l :: ls)) with (put l (build t ls)); repeat (destruct H as [<- | H]; [reflexivity |]); destruct H.
Qed.
Print Assumptions C49_drop_refuted.
(** A smoothing setting panics in a generator's own float parameter when there is no [WrSmoothParams], and in [WrMul]'s own parameter
    even when there is one inside. *)
Theorem C49_smoothing_refuted : apply (build [TFloat] []) 0 (VSmooth true) = None /\ apply (build [TFloat] [LMul; LSmooth]) 1 (VSmooth true) = None.
Proof. vm_compute. auto. Qed.
Print Assumptions C49_smoothing_refuted.

Definition demo : list layer := [LMul; LFwd; LPrecise 4; LDone; LSmooth].
Definition demo_calls : list call := [CApply 0 (VSmooth true); CDelay 2 9%N; CApply 2 (VInt 1); CApply 0 (VFloat 3); CApply 1 (VBool true); CApply 3 (VFloat 4)].
Example demo_runs : match steps (build [TFloat; TBool] demo) demo_calls with
  | Some s => queue_of s = [(9%N, 2, VInt 1)] /\ received s 0 = [] /\ received s 1 = [VBool true] /\ received s 3 = [VFloat 4] | None => False end.
Proof. vm_compute. auto. Qed.
Example demo_direct : direct (build [TFloat; TBool] demo) 0 /\ delay_path (build [TFloat; TBool] demo) 2 /\ link_path (build [TFloat] [LMul; LPrecise 4; LAr]) 0.
Proof. vm_compute. auto 10. Qed.
Example demo_apply : match apply (build [TFloat; TBool] demo) 0 (VFloat 8) with Some s => received s 0 = [VFloat 8] | None => False end.
Proof. vm_compute. reflexivity. Qed.
Example demo_no_mul : no_mul (build [TFloat] [LPrecise 4; LSmooth; LMul]) /\ call_ok [TFloat; TFloat] (CDelay 1 4%N) /\ call_ok [TFloat; TFloat] (CApply 1 (VFloat 2)).
Proof. split; [exact Logic.I |]. split; [cbn; lia |]. exists TFloat. auto. Qed.
