(** C94: the fixed trapezoid of the band-limited oscillator in floating point. *)
From Coq Require Import Reals Lra List.
From Flocq Require Import Core BinarySingleNaN.
From Verif Require Import Base FloatBase PolyModel PolySpec PolyProofs PolyWave PolyFloatSpec PolyFloatProofs PolyNearSpec PolyNearProofs PolyTriSpec PolyTriProofs PolyTrapSpec PolyTrapProofs PolyNearProps.
Import ListNotations.
Local Open Scope R_scope.

(** In [f32] and [f64] every sample of the fixed trapezoid is within 72 rounding units of the rounded-off trapezoid at the same phase,
    however small the step is, and within 1 up to as much. *)
Theorem C94_trapezoid : forall prec emax (I : ieee prec emax) fpi ftau fsin fcos (s : poly (binary_float prec emax)),
  reached (Fops fpi ftau fsin fcos) s -> audible (Fops fpi ftau fsin fcos) s -> p_wave s = TrapezoidFixed ->
  let y := val (next_sample (Fops fpi ftau fsin fcos) s) in
  Rabs (y - round_trapezoid (val (p_dt s)) (val (p_t s))) <= 72 * bpow radix2 (- prec) /\ Rabs y <= 1 + 72 * bpow radix2 (- prec).
Proof.
  intros prec emax I fpi ftau fsin fcos s R A W y. pose proof (reached_ok fpi ftau fsin fcos s R) as H.
  pose proof (audible_moving fpi ftau fsin fcos s H A) as M. assert (T : phase_ok (p_t s)) by apply H. destruct A as [_ A].
  pose proof M as [[_ D] D']. unfold y, next_sample, get_freq_in_hz. cbn [Fops q_leb q_div q_mul q_frac]. rewrite A, W.
  rewrite <- exact_trap; [| lra | apply T]. pose proof (trap_near fpi ftau fsin fcos (p_t s) (p_dt s) T M) as N. split; [exact N |].
  assert (Sl : slow (val (p_dt s))) by (unfold slow; lra). destruct T as [_ T].
  pose proof (trap_range (val (p_t s)) (val (p_dt s)) Sl T) as Q. unfold inside in Q. apply Rabs_le_inv in N. apply Rabs_le. lra.
Qed.
Print Assumptions C94_trapezoid.
(** In [f32] the bound is below 2^-17. *)
Theorem C94_trapezoid_f32 : forall fpi ftau fsin fcos (s : poly (binary_float 24 128)),
  reached (Fops fpi ftau fsin fcos) s -> audible (Fops fpi ftau fsin fcos) s -> p_wave s = TrapezoidFixed ->
  Rabs (val (next_sample (Fops fpi ftau fsin fcos) s) - round_trapezoid (val (p_dt s)) (val (p_t s))) <= bpow radix2 (-17).
Proof.
  intros fpi ftau fsin fcos s R A W. eapply Rle_trans; [apply C94_trapezoid; assumption |].
  replace (bpow radix2 (-17)) with (128 * bpow radix2 (-24)) by (change 128 with (bpow radix2 7); rewrite <- bpow_plus; reflexivity).
  change (- (24))%Z with (-24)%Z. pose proof (bpow_ge_0 radix2 (-24)). lra.
Qed.
Print Assumptions C94_trapezoid_f32.
(** The hypotheses are met: 7200 Hz at 48 kHz, after three samples, at phase 0.45. *)
Definition trap7200 (n : nat) : poly (binary_float 24 128) := poly_run f32n (poly_new f32n TrapezoidFixed (fz 7200)) (PInit (fz 48000) :: repeat PSample n).
Example C94_case : reached f32n (trap7200 3) /\ audible f32n (trap7200 3) /\ p_wave (trap7200 3) = TrapezoidFixed.
Proof.
  split; [| split; [| reflexivity]].
  - exists TrapezoidFixed, (fz 7200), (fz 48000), (repeat PSample 3). destruct (fz_small (prec := 24) (emax := 128) 7200) as [V F]; [cbn; lia |].
    destruct (fz_small (prec := 24) (emax := 128) 48000) as [V' F']; [cbn; lia |]. rewrite V, V'.
    assert (1 * bpow radix2 20 <= bpow radix2 100) by (rewrite Rmult_1_l; apply bpow_le; lia). assert (bpow radix2 20 = 1048576) by reflexivity.
    repeat split; try assumption; try lra. repeat constructor.
  - assert (P : fltb (fzero : binary_float 24 128) (p_dt (trap7200 3)) = true) by (vm_compute; reflexivity).
    split; [| vm_compute; reflexivity]. apply fltb_true in P; [rewrite val_fzero in P; exact P | reflexivity | vm_compute; reflexivity].
Qed.
(** There the straight line is at 8 * (0.5 - 0.45) = 0.4 and the corner at 3/8, half a step away, takes off 0.2 * (1/2)^3 = 0.025. *)
Example C94_value : fltb (fabs (fsub (p_t (trap7200 3)) (fdiv (fz 45) (fz 100)))) (fze 1 (-20)) = true /\
  fltb (fabs (fsub (next_sample f32n (trap7200 3)) (fdiv (fz 375) (fz 1000)))) (fze 1 (-17)) = true.
Proof. vm_compute. split; reflexivity. Qed.
