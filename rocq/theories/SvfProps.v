(** C57: the state variable filter is stable; C58: its gain at the two ends of the spectrum. *)
From Coq Require Import Reals Lra.
From Flocq Require Import Core BinarySingleNaN.
From Verif Require Import Base FloatBase SvfModel SvfSpec SvfProofs.
Local Open Scope R_scope.

(** * C57 *)
(** Whatever the sequence of parameter changes in range (cutoff, resonance, gain, type), the energy stored in the filter never
    grows while the input is silent. *)
Theorem C57_energy_partial : forall sr s l, ready sr s -> Forall (fine sr) l -> Forall silent l ->
  energy (fst (svf_run Rops sr s l)) <= energy s.
Proof. intros sr s l H. apply run_energy. apply ready_tuned. exact H. Qed.
Print Assumptions C57_energy_partial.
(** With fixed settings, bounded input gives bounded output. *)
Theorem C57_bounded_partial : forall sr s, ready sr s -> exists K, 0 <= K /\
  forall x M, (forall n, Rabs (x n) <= M) ->
  forall n, Rabs (output s x n) <= K * (M + Rabs (v_ic1 s) + Rabs (v_ic2 s)).
Proof. exact bibo. Qed.
Print Assumptions C57_bounded_partial.
(** With fixed settings and silent input, the output dies out exponentially. *)
Theorem C57_ring_out_partial : forall sr s, ready sr s -> exists K rho, 0 <= K /\ 0 <= rho < 1 /\
  forall n, Rabs (output s (fun _ => 0) n) <= K * rho ^ n * (Rabs (v_ic1 s) + Rabs (v_ic2 s)).
Proof. exact ring_out. Qed.
Print Assumptions C57_ring_out_partial.
(** A filter is ready after [init] with settings in range, and stays so under parameter changes in range. *)
Theorem C57_init_ready : forall ty sr cutoff q gain, in_range sr cutoff q ->
  ready sr (fst (svf_step Rops sr (svf_new Rops ty cutoff q gain) (OInit sr))).
Proof.
  intros ty sr cutoff q gain H. unfold svf_step. cbn [fst]. split.
  - destruct ty; exact H.
  - eexists. reflexivity.
Qed.
Print Assumptions C57_init_ready.
Theorem C57_stays_ready : forall sr s o, ready sr s -> fine sr o -> ready sr (fst (svf_step Rops sr s o)).
Proof. intros sr s o H G. apply tuned_ready. apply step_tuned; [apply ready_tuned |]; assumption. Qed.
Print Assumptions C57_stays_ready.
(** The cutoff is not limited: above half the sample rate one sample of input makes the output grow without bound. *)
Theorem C57_above_nyquist_refuted : forall sr, 0 < sr -> forall B, exists n, B < Rabs (output (over sr) impulse n).
Proof. exact over_unbounded. Qed.
Print Assumptions C57_above_nyquist_refuted.
(** The resonance is not limited: with a resonance of zero a high pass outputs NaN for silence ([f32]; a tangent of one). *)
Definition f32ops : float_ops (binary_float 24 128) :=
  mk_ops _ fzero fone (fz 2) (fz 10) (fz 40) (fze 13176795 (-22)) fadd fsub fmul fdiv fneg (fun _ => fone) (fun x => x) (fun _ y => y).
Theorem C57_zero_resonance_refuted :
  let s := set_coeffs f32ops (svf_new f32ops High (fz 12000) fzero fzero) (fz 48000) in
  is_nan (snd (process_sample f32ops s fzero)) = true.
Proof. vm_compute. reflexivity. Qed.
Print Assumptions C57_zero_resonance_refuted.

(** A filter meeting the hypotheses, with a history that is not trivial. *)
Example ready_example : ready 48000 (set_coeffs Rops (svf_new Rops Bell 1000 (1 / 2) 6) 48000).
Proof. split; [unfold in_range; cbn; lra | eexists; reflexivity]. Qed.
Example fine_example : Forall (fine 48000) [OCutoff 20; OSample 0; OType High; OQ 40; OSample 0; OGain (-12); OCalc; OSample 0] /\
  Forall silent [OCutoff 20; OSample 0; OType High; OQ 40; OSample 0; OGain (-12); OCalc; OSample 0].
Proof. split; repeat constructor; cbn; lra. Qed.
(** The energy really moves: one sample of a low pass with [g = 1], [k = 1]. *)
Example energy_moves : let s := mk_svf Low 0 0 0 3 0 (1 / 3) (1 / 3) (1 / 3) 0 0 1 in
  energy s = 9 /\ energy (fst (process_sample Rops s 0)) = 5.
Proof. unfold energy; cbn. lra. Qed.

(** * C58 *)
(** A constant signal comes out multiplied by the gain documented for the type: the low pass passes it, the high and band pass
    remove it, the low shelf multiplies it by the gain setting, the others leave its level unchanged. *)
Theorem C58_constant : forall sr s x, ready sr s ->
  Un_cv (output s (fun _ => x)) (dc_gain (v_ty s) (linear_gain (v_gain s)) * x).
Proof. exact dc_cv. Qed.
Print Assumptions C58_constant.
(** The signal alternating every sample: the high pass passes it, the low and band pass remove it, the high shelf multiplies it
    by the gain setting. *)
Theorem C58_alternating : forall sr s x, ready sr s ->
  Un_cv (fun n => output s (alternating x) n - top_gain (v_ty s) (linear_gain (v_gain s)) * alternating x n) 0.
Proof. exact top_cv. Qed.
Print Assumptions C58_alternating.
Example gain_example : dc_gain LowShelf (linear_gain 20) = 10 /\ top_gain Low 7 = 0 /\ dc_gain Low 7 = 1.
Proof.
  repeat split. unfold dc_gain, linear_gain. replace (20 / 20) with 1 by field. apply Rpower_1. lra.
Qed.
