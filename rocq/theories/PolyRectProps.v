(** C97: the rectified sines of the band-limited oscillator in floating point. *)
From Coq Require Import Reals Lra List.
From Flocq Require Import Core BinarySingleNaN.
From Verif Require Import Base FloatBase PanProofs PolyModel PolySpec PolyProofs PolyWave PolyFloatSpec PolyFloatProofs PolyNearSpec PolyNearProofs PolyVarProofs PolyRectSpec PolyRectProofs PolyNearProps.
Import ListNotations.
Local Open Scope R_scope.

(** In [f32] and [f64] every sample of the full-wave and of the half-wave rectified sine is within 80 rounding units, and twice what the
    platform's [sin] is wrong by, of the rectified sine with its corners filled, at the same phase and however small the step is. *)
Theorem C97_full : forall prec emax (I : ieee prec emax) fpi ftau fsin fcos delta (s : poly (binary_float prec emax)),
  platform delta fpi ftau fsin -> reached (Fops fpi ftau fsin fcos) s -> audible (Fops fpi ftau fsin fcos) s -> p_wave s = FullWaveRectifiedSine ->
  Rabs (val (next_sample (Fops fpi ftau fsin fcos) s) - round_full (val (p_dt s)) (val (p_t s))) <= 80 * bpow radix2 (- prec) + 2 * delta.
Proof.
  intros prec emax I fpi ftau fsin fcos delta s G R A W. pose proof (reached_ok fpi ftau fsin fcos s R) as H.
  pose proof (audible_moving fpi ftau fsin fcos s H A) as M. assert (T : phase_ok (p_t s)) by apply H. destruct A as [_ A].
  pose proof M as [[_ D] D']. unfold next_sample, get_freq_in_hz. cbn [Fops q_leb q_div q_mul q_frac]. rewrite A, W.
  rewrite <- exact_full; [| lra | apply T]. apply full_near; assumption.
Qed.
Print Assumptions C97_full.
Theorem C97_half : forall prec emax (I : ieee prec emax) fpi ftau fsin fcos delta (s : poly (binary_float prec emax)),
  platform delta fpi ftau fsin -> reached (Fops fpi ftau fsin fcos) s -> audible (Fops fpi ftau fsin fcos) s -> p_wave s = HalfWaveRectifiedSine ->
  Rabs (val (next_sample (Fops fpi ftau fsin fcos) s) - round_half (val (p_dt s)) (val (p_t s))) <= 80 * bpow radix2 (- prec) + 2 * delta.
Proof.
  intros prec emax I fpi ftau fsin fcos delta s G R A W. pose proof (reached_ok fpi ftau fsin fcos s R) as H.
  pose proof (audible_moving fpi ftau fsin fcos s H A) as M. assert (T : phase_ok (p_t s)) by apply H. destruct A as [_ A].
  pose proof M as [[_ D] D']. unfold next_sample, get_freq_in_hz. cbn [Fops q_leb q_div q_mul q_frac]. rewrite A, W.
  rewrite <- exact_half; [| lra | apply T]. apply half_near; assumption.
Qed.
Print Assumptions C97_half.
(** In [f32], with a [sin] that is wrong by at most 2^-23, that is below 2^-17. *)
Theorem C97_f32 : forall fpi ftau fsin fcos (s : poly (binary_float 24 128)),
  platform (bpow radix2 (-23)) fpi ftau fsin -> reached (Fops fpi ftau fsin fcos) s -> audible (Fops fpi ftau fsin fcos) s ->
  (p_wave s = FullWaveRectifiedSine -> Rabs (val (next_sample (Fops fpi ftau fsin fcos) s) - round_full (val (p_dt s)) (val (p_t s))) < bpow radix2 (-17)) /\
  (p_wave s = HalfWaveRectifiedSine -> Rabs (val (next_sample (Fops fpi ftau fsin fcos) s) - round_half (val (p_dt s)) (val (p_t s))) < bpow radix2 (-17)).
Proof.
  intros fpi ftau fsin fcos s G R A.
  assert (B : 80 * bpow radix2 (- (24)) + 2 * bpow radix2 (-23) < bpow radix2 (-17)) by (cbn; lra).
  split; intros W; eapply Rle_lt_trans; [apply C97_full; eassumption | exact B | apply C97_half; eassumption | exact B].
Qed.
Print Assumptions C97_f32.

(** The hypotheses are met. Correctly rounded constants and a correctly rounded [sin] are such a platform, in every precision: *)
Section Correct.
Context {prec emax : Z} {I : ieee prec emax}.
Notation fl := (binary_float prec emax).
Definition of_real (x : R) : fl :=
  fze (Ztrunc (scaled_mantissa radix2 (SpecFloat.fexp prec emax) (@rnd prec emax x))) (cexp radix2 (SpecFloat.fexp prec emax) (@rnd prec emax x)).
Lemma of_real_ok : forall x, -8192 <= x <= 8192 -> fin (of_real x) /\ val (of_real x) = @rnd prec emax x.
Proof.
  intros x H. pose proof (small_ok (prec := prec) (emax := emax) x H) as S. unfold of_real.
  assert (F : generic_format radix2 (SpecFloat.fexp prec emax) (@rnd prec emax x)) by (apply generic_format_round; [apply fexp_correct; exact (ieee_gt0 prec emax I) | apply valid_rnd_N]).
  set (y := @rnd prec emax x) in *. assert (E : IZR (Ztrunc (scaled_mantissa radix2 (SpecFloat.fexp prec emax) y)) * bpow radix2 (cexp radix2 (SpecFloat.fexp prec emax) y) = y).
  { symmetry. exact F. }
  destruct (fze_ok (prec := prec) (emax := emax) (Ztrunc (scaled_mantissa radix2 (SpecFloat.fexp prec emax) y)) (cexp radix2 (SpecFloat.fexp prec emax) y)) as [V G].
  - rewrite E. rewrite (rnd_format y F). exact S.
  - rewrite E, (rnd_format y F) in V. split; [exact G | exact V].
Qed.
Example C97_platform : platform (bpow radix2 (- prec)) (of_real PI) (of_real (2 * PI)) (fun x => of_real (sin (val x))).
Proof.
  pose proof pi_bounds as P. destruct (of_real_ok PI ltac:(lra)) as [A B]. destruct (of_real_ok (2 * PI) ltac:(lra)) as [C D].
  split; [exact A |]. split; [rewrite B; apply Rabs_le; apply err_up; lra |]. split; [exact C |]. split; [rewrite D; apply Rabs_le; apply err_up; lra |].
  intros x F H. pose proof (SIN_bound (val x)) as S. destruct (of_real_ok (sin (val x)) ltac:(lra)) as [K L]. split; [exact K |]. rewrite L.
  split; [apply rnd_between; [apply (rnd_int (-1)); cbn; lia | apply rnd_1 | lra] |]. apply err2. lra.
Qed.
End Correct.
(** And 7200 Hz at 48 kHz, after one sample, on any platform. *)
Definition rect7200 (O : poly_ops (binary_float 24 128)) (w : waveform) (n : nat) : poly (binary_float 24 128) :=
  poly_run O (poly_new O w (fz 7200)) (PInit (fz 48000) :: repeat PSample n).
Example C97_case : forall fpi ftau fsin fcos w, let O := Fops fpi ftau fsin fcos in
  reached O (rect7200 O w 1) /\ audible O (rect7200 O w 1) /\ p_wave (rect7200 O w 1) = w.
Proof.
  intros fpi ftau fsin fcos w O. split; [| split; [| reflexivity]].
  - exists w, (fz 7200), (fz 48000), (repeat PSample 1). destruct (fz_small (prec := 24) (emax := 128) 7200) as [V F]; [cbn; lia |].
    destruct (fz_small (prec := 24) (emax := 128) 48000) as [V' F']; [cbn; lia |]. rewrite V, V'.
    assert (1 * bpow radix2 20 <= bpow radix2 100) by (rewrite Rmult_1_l; apply bpow_le; lia). assert (bpow radix2 20 = 1048576) by reflexivity.
    split; [assumption |]. split; [lra |]. split; [assumption |]. split; [lra |]. split; [| reflexivity]. repeat constructor.
  - assert (P : fltb (fzero : binary_float 24 128) (p_dt (rect7200 O w 1)) = true) by (vm_compute; reflexivity).
    split; [| vm_compute; reflexivity]. apply fltb_true in P; [rewrite val_fzero in P; exact P | reflexivity | vm_compute; reflexivity].
Qed.
(** At phase 0, where the half wave begins, its sample is -2/pi filled by a third of 2 pi 0.15: -0.3224...; with [sin 0] = 0. *)
Example C97_value :
  let O := Fops (fze 13176795 (-22)) (fze 13176795 (-21)) (fun x => x) (fun x => x) in
  feqb (p_t (rect7200 O HalfWaveRectifiedSine 0)) (fz 0) = true /\
  fltb (fabs (fadd (next_sample O (rect7200 O HalfWaveRectifiedSine 0)) (fdiv (fz 32246) (fz 100000)))) (fze 1 (-16)) = true.
Proof. vm_compute. split; reflexivity. Qed.
