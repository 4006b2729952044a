(** C98: the triangular pulse of the band-limited oscillator in floating point. *)
From Coq Require Import Reals Lra List.
From Flocq Require Import Core BinarySingleNaN.
From Verif Require Import Base FloatBase PolyModel PolySpec PolyProofs PolyWave PolyFloatSpec PolyFloatProofs PolyNearSpec PolyNearProofs PolyTriSpec PolyPulseSpec PolyPulseProofs PolyNearProps.
Import ListNotations.
Local Open Scope R_scope.

(** In [f32] and [f64] every sample of the triangular pulse is within 112/width rounding units of the rounded-off pulse at the same
    phase, for all widths from 0.01 to 1 and however small the step is, and within 3 up to as much. *)
Theorem C98_pulse : forall prec emax (I : ieee prec emax) fpi ftau fsin fcos (s : poly (binary_float prec emax)),
  reached (Fops fpi ftau fsin fcos) s -> audible (Fops fpi ftau fsin fcos) s -> p_wave s = TriangularPulse ->
  fin (p_pw s) -> 1 / 100 <= val (p_pw s) <= 1 ->
  let y := val (next_sample (Fops fpi ftau fsin fcos) s) in
  let bound := 112 * bpow radix2 (- prec) / val (p_pw s) in
  Rabs (y - round_pulse (val (p_pw s)) (val (p_dt s)) (val (p_t s))) <= bound /\ Rabs y <= 3 + bound.
Proof.
  intros prec emax I fpi ftau fsin fcos s R A W Fp Hp y bound. pose proof (reached_ok fpi ftau fsin fcos s R) as H.
  pose proof (audible_moving fpi ftau fsin fcos s H A) as M. assert (T : phase_ok (p_t s)) by apply H. destruct A as [_ A].
  pose proof M as [[_ D] D']. unfold y, next_sample, get_freq_in_hz. cbn [Fops q_leb q_div q_mul q_frac]. rewrite A, W.
  rewrite <- exact_pulse; [| lra | apply T | lra]. pose proof (pulse_near fpi ftau fsin fcos (p_t s) (p_dt s) (p_pw s) T M Fp Hp) as N.
  fold bound in N. split; [exact N |].
  assert (Sl : slow (val (p_dt s))) by (unfold slow; lra). destruct T as [_ T]. assert (Wo : width_ok (val (p_pw s))) by (unfold width_ok; lra).
  pose proof (trip_range (val (p_t s)) (val (p_dt s)) (val (p_pw s)) Sl Wo T) as Q. unfold inside in Q. apply Rabs_le_inv in N. apply Rabs_le. lra.
Qed.
Print Assumptions C98_pulse.
(** In [f32], at widths from one half, that is 2^-16. *)
Theorem C98_pulse_f32 : forall fpi ftau fsin fcos (s : poly (binary_float 24 128)),
  reached (Fops fpi ftau fsin fcos) s -> audible (Fops fpi ftau fsin fcos) s -> p_wave s = TriangularPulse ->
  fin (p_pw s) -> 1 / 2 <= val (p_pw s) <= 1 ->
  Rabs (val (next_sample (Fops fpi ftau fsin fcos) s) - round_pulse (val (p_pw s)) (val (p_dt s)) (val (p_t s))) <= bpow radix2 (-16).
Proof.
  intros fpi ftau fsin fcos s R A W Fp Hp. eapply Rle_trans; [apply C98_pulse; try assumption; lra |].
  replace (bpow radix2 (-16)) with (256 * bpow radix2 (-24)) by (change 256 with (bpow radix2 8); rewrite <- bpow_plus; reflexivity).
  change (- (24))%Z with (-24)%Z. pose proof (bpow_ge_0 radix2 (-24)) as E. apply Rmult_le_reg_r with (val (p_pw s)); [lra |].
  unfold Rdiv. rewrite Rmult_assoc, Rinv_l by lra. nra.
Qed.
Print Assumptions C98_pulse_f32.
(** The hypotheses are met: 7200 Hz at 48 kHz with the default width of one half, after two samples. *)
Definition pulse7200 (n : nat) : poly (binary_float 24 128) :=
  poly_run f32n (poly_new f32n TriangularPulse (fz 7200)) (PInit (fz 48000) :: repeat PSample n).
Example C98_case : reached f32n (pulse7200 2) /\ audible f32n (pulse7200 2) /\ p_wave (pulse7200 2) = TriangularPulse /\
  fin (p_pw (pulse7200 2)) /\ 1 / 2 <= val (p_pw (pulse7200 2)) <= 1.
Proof.
  split; [| split; [| split; [reflexivity |]]].
  - exists TriangularPulse, (fz 7200), (fz 48000), (repeat PSample 2). destruct (fz_small (prec := 24) (emax := 128) 7200) as [V F]; [cbn; lia |].
    destruct (fz_small (prec := 24) (emax := 128) 48000) as [V' F']; [cbn; lia |]. rewrite V, V'.
    assert (1 * bpow radix2 20 <= bpow radix2 100) by (rewrite Rmult_1_l; apply bpow_le; lia). assert (bpow radix2 20 = 1048576) by reflexivity.
    split; [assumption |]. split; [lra |]. split; [assumption |]. split; [lra |]. split; [| reflexivity]. repeat constructor.
  - assert (P : fltb (fzero : binary_float 24 128) (p_dt (pulse7200 2)) = true) by (vm_compute; reflexivity).
    split; [| vm_compute; reflexivity]. apply fltb_true in P; [rewrite val_fzero in P; exact P | reflexivity | vm_compute; reflexivity].
  - destruct (lit_half (prec := 24) (emax := 128) fzero fzero (fun x => x) (fun x => x)) as [F V].
    change (p_pw (pulse7200 2)) with (q_frac (Fops (fzero : binary_float 24 128) fzero (fun x => x) (fun x => x)) 1 2). split; [exact F |]. lra.
Qed.
(** There, at phase 0.3, the sample is on the way down, 2 - 0.2 / 0.5 - 0.5, rounded off by the peak at 0.25:
    1.1 - 0.4 (1 - 0.05 / 0.15)^3 = 0.9814... *)
Example C98_value : fltb (fabs (fsub (p_t (pulse7200 2)) (fdiv (fz 3) (fz 10)))) (fze 1 (-20)) = true /\
  fltb (fabs (fsub (next_sample f32n (pulse7200 2)) (fdiv (fz 98148) (fz 100000)))) (fze 1 (-16)) = true.
Proof. vm_compute. split; reflexivity. Qed.
