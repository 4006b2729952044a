(** C96: the modified triangle of the band-limited oscillator in floating point. *)
From Coq Require Import Reals Lra List.
From Flocq Require Import Core BinarySingleNaN.
From Verif Require Import Base FloatBase PolyModel PolySpec PolyProofs PolyWave PolyFloatSpec PolyFloatProofs PolyNearSpec PolyNearProofs PolyTriSpec PolySkewSpec PolySkewProofs PolyNearProps.
Import ListNotations.
Local Open Scope R_scope.

(** In [f32] and [f64] every sample of the modified triangle is within 8/(w (1 - w))^2 rounding units of the rounded-off skewed triangle
    at the same phase, for all widths [w] from 0.01 to 0.99 and however small the step is, and within 1 up to as much. *)
Theorem C96_skew : forall prec emax (I : ieee prec emax) fpi ftau fsin fcos (s : poly (binary_float prec emax)),
  reached (Fops fpi ftau fsin fcos) s -> audible (Fops fpi ftau fsin fcos) s -> p_wave s = ModifiedTriangle ->
  fin (p_pw s) -> 1 / 100 <= val (p_pw s) <= 99 / 100 ->
  let w := val (p_pw s) in
  let y := val (next_sample (Fops fpi ftau fsin fcos) s) in
  let bound := 8 * bpow radix2 (- prec) * (/ (w * (1 - w))) ^ 2 in
  Rabs (y - round_skew w (val (p_dt s)) (val (p_t s))) <= bound /\ Rabs y <= 1 + bound.
Proof.
  intros prec emax I fpi ftau fsin fcos s R A W Fp Hp w y bound. pose proof (reached_ok fpi ftau fsin fcos s R) as H.
  pose proof (audible_moving fpi ftau fsin fcos s H A) as M. assert (T : phase_ok (p_t s)) by apply H. destruct A as [_ A].
  pose proof M as [[_ D] D']. unfold y, next_sample, get_freq_in_hz. cbn [Fops q_leb q_div q_mul q_frac]. rewrite A, W.
  unfold w. rewrite <- exact_skew; [| lra | apply T | exact Hp]. pose proof (skew_near fpi ftau fsin fcos (p_t s) (p_dt s) (p_pw s) T M Fp Hp) as N.
  cbv zeta in N. fold w in N. fold bound in N. split; [exact N |].
  assert (Sl : slow (val (p_dt s))) by (unfold slow; lra). destruct T as [_ T]. assert (Wo : width_ok w) by (unfold width_ok, w; lra).
  pose proof (tri2_range (val (p_t s)) (val (p_dt s)) w Sl Wo T) as Q. unfold inside in Q. apply Rabs_le_inv in N. apply Rabs_le. lra.
Qed.
Print Assumptions C96_skew.
(** In [f32], at widths from a quarter to three quarters, that is 2^-15. *)
Theorem C96_skew_f32 : forall fpi ftau fsin fcos (s : poly (binary_float 24 128)),
  reached (Fops fpi ftau fsin fcos) s -> audible (Fops fpi ftau fsin fcos) s -> p_wave s = ModifiedTriangle ->
  fin (p_pw s) -> 1 / 4 <= val (p_pw s) <= 3 / 4 ->
  Rabs (val (next_sample (Fops fpi ftau fsin fcos) s) - round_skew (val (p_pw s)) (val (p_dt s)) (val (p_t s))) <= bpow radix2 (-15).
Proof.
  intros fpi ftau fsin fcos s R A W Fp Hp. eapply Rle_trans; [apply C96_skew; try assumption; lra |].
  replace (bpow radix2 (-15)) with (512 * bpow radix2 (-24)) by (change 512 with (bpow radix2 9); rewrite <- bpow_plus; reflexivity).
  change (- (24))%Z with (-24)%Z. pose proof (bpow_ge_0 radix2 (-24)) as E. set (p := val (p_pw s)) in *. set (b := bpow radix2 (-24)) in *.
  assert (D : 3 / 16 <= p * (1 - p)) by (pose proof (Rmult_le_pos (p - 1 / 4) (3 / 4 - p) ltac:(lra) ltac:(lra)); lra).
  assert (B : 0 <= / (p * (1 - p)) <= 16 / 3).
  { split; [apply Rlt_le, Rinv_0_lt_compat; lra |]. replace (16 / 3) with (/ (3 / 16)) by lra. apply Rinv_le_contravar; lra. }
  set (x := / (p * (1 - p))) in *. assert (Q : x ^ 2 <= 64) by (cbn; clearbody x; clear - B; nra).
  replace (512 * b) with (8 * b * 64) by ring. apply Rmult_le_compat_l; [lra | exact Q].
Qed.
Print Assumptions C96_skew_f32.
(** The hypotheses are met: 7200 Hz at 48 kHz with a width of a quarter, after one sample. *)
Definition skew7200 (n : nat) : poly (binary_float 24 128) :=
  poly_run f32n (poly_new f32n ModifiedTriangle (fz 7200)) (PInit (fz 48000) :: PPw (fze 1 (-2)) :: repeat PSample n).
Example C96_case : reached f32n (skew7200 1) /\ audible f32n (skew7200 1) /\ p_wave (skew7200 1) = ModifiedTriangle /\
  fin (p_pw (skew7200 1)) /\ 1 / 4 <= val (p_pw (skew7200 1)) <= 3 / 4.
Proof.
  destruct (fze_ok (prec := 24) (emax := 128) 1 (-2)) as [Vq Fq].
  { rewrite Rmult_1_l, rnd_bpow by lia. apply below_top with (-2)%Z; [lia |]. rewrite Rabs_pos_eq; [lra | apply bpow_ge_0]. }
  rewrite Rmult_1_l, rnd_bpow in Vq by lia. replace (bpow radix2 (-2)) with (1 / 4) in Vq by (cbn; lra).
  split; [| split; [| split; [reflexivity | split; [exact Fq | change (val (p_pw (skew7200 1))) with (val (fze 1 (-2) : binary_float 24 128)); lra]]]].
  - exists ModifiedTriangle, (fz 7200), (fz 48000), (PPw (fze 1 (-2)) :: repeat PSample 1). destruct (fz_small (prec := 24) (emax := 128) 7200) as [V F]; [cbn; lia |].
    destruct (fz_small (prec := 24) (emax := 128) 48000) as [V' F']; [cbn; lia |]. rewrite V, V'.
    assert (1 * bpow radix2 20 <= bpow radix2 100) by (rewrite Rmult_1_l; apply bpow_le; lia). assert (bpow radix2 20 = 1048576) by reflexivity.
    split; [assumption |]. split; [lra |]. split; [assumption |]. split; [lra |]. split; [| reflexivity].
    repeat constructor; try assumption; try (rewrite Vq; lra).
  - assert (P : fltb (fzero : binary_float 24 128) (p_dt (skew7200 1)) = true) by (vm_compute; reflexivity).
    split; [| vm_compute; reflexivity]. apply fltb_true in P; [rewrite val_fzero in P; exact P | reflexivity | vm_compute; reflexivity].
Qed.
(** There, at phase 0.15, the sample is on the long line, 0.7 / 0.75, rounded off by the corner at 0.125:
    0.7 / 0.75 - 0.15 / 0.1875 * (1 - 0.025 / 0.15)^3 / 3 = 0.779... *)
Example C96_value : fltb (fabs (fsub (p_t (skew7200 1)) (fdiv (fz 15) (fz 100)))) (fze 1 (-20)) = true /\
  fltb (fabs (fsub (next_sample f32n (skew7200 1)) (fdiv (fz 779) (fz 1000)))) (fze 1 (-12)) = true.
Proof. vm_compute. split; reflexivity. Qed.
