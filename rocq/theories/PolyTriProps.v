(** C93: the triangle of the band-limited oscillator in floating point. *)
From Coq Require Import Reals Lra List.
From Flocq Require Import Core BinarySingleNaN.
From Verif Require Import Base FloatBase PolyModel PolySpec PolyProofs PolyWave PolyFloatSpec PolyFloatProofs PolyNearSpec PolyNearProofs PolyTriSpec PolyTriProofs PolyNearProps.
Import ListNotations.
Local Open Scope R_scope.

(** In [f32] and [f64] every sample of the triangle is within 32 rounding units of the rounded-off triangle at the same phase, however small the
    step is: the division by the step in the correction is made good by the multiplication with it. *)
Theorem C93_triangle : forall prec emax (I : ieee prec emax) fpi ftau fsin fcos (s : poly (binary_float prec emax)),
  reached (Fops fpi ftau fsin fcos) s -> audible (Fops fpi ftau fsin fcos) s -> p_wave s = Triangle ->
  Rabs (val (next_sample (Fops fpi ftau fsin fcos) s) - round_triangle (val (p_dt s)) (val (p_t s))) <= 32 * bpow radix2 (- prec).
Proof.
  intros prec emax I fpi ftau fsin fcos s R A W. pose proof (reached_ok fpi ftau fsin fcos s R) as H.
  pose proof (audible_moving fpi ftau fsin fcos s H A) as M. assert (T : phase_ok (p_t s)) by apply H. destruct A as [_ A].
  pose proof M as [[_ D] D']. unfold next_sample, get_freq_in_hz. cbn [Fops q_leb q_div q_mul q_frac]. rewrite A, W.
  rewrite <- exact_tri; [apply tri_near; assumption | lra | apply T].
Qed.
Print Assumptions C93_triangle.
(** In [f32] the bound is 2^-19: below the step of 16-bit sound. *)
Theorem C93_triangle_f32 : forall fpi ftau fsin fcos (s : poly (binary_float 24 128)),
  reached (Fops fpi ftau fsin fcos) s -> audible (Fops fpi ftau fsin fcos) s -> p_wave s = Triangle ->
  Rabs (val (next_sample (Fops fpi ftau fsin fcos) s) - round_triangle (val (p_dt s)) (val (p_t s))) <= bpow radix2 (-19).
Proof.
  intros fpi ftau fsin fcos s R A W. eapply Rle_trans; [apply C93_triangle; assumption |].
  change 32 with (bpow radix2 5). rewrite <- bpow_plus. apply bpow_le. lia.
Qed.
Print Assumptions C93_triangle_f32.
(** Farther than a step from both corners that is the plain triangle. *)
Theorem C93_triangle_sides : forall prec emax (I : ieee prec emax) fpi ftau fsin fcos (s : poly (binary_float prec emax)),
  reached (Fops fpi ftau fsin fcos) s -> audible (Fops fpi ftau fsin fcos) s -> p_wave s = Triangle ->
  let t := val (p_t s) in val (p_dt s) <= circle t (1 / 4) -> val (p_dt s) <= circle t (3 / 4) ->
  Rabs (val (next_sample (Fops fpi ftau fsin fcos) s) - triangle t) <= 32 * bpow radix2 (- prec).
Proof.
  intros prec emax I fpi ftau fsin fcos s R A W t C C'. pose proof (C93_triangle prec emax I fpi ftau fsin fcos s R A W) as N.
  unfold round_triangle, rounding_off in N. fold t in N. destruct (Rlt_dec _ _) as [L | _] in N; [lra |]. destruct (Rlt_dec _ _) as [L | _] in N; [lra |].
  rewrite Rminus_0_r, Rplus_0_r in N. exact N.
Qed.
Print Assumptions C93_triangle_sides.
(** The hypotheses are met: 7200 Hz at 48 kHz, after three samples. *)
Example C93_triangle_case : let s := poly_run f32n (poly_new f32n Triangle (fz 7200)) (PInit (fz 48000) :: repeat PSample 3) in
  reached f32n s /\ audible f32n s /\ p_wave s = Triangle.
Proof.
  cbv zeta. split; [| split; [| reflexivity]].
  - exists Triangle, (fz 7200), (fz 48000), (repeat PSample 3). destruct (fz_small (prec := 24) (emax := 128) 7200) as [V F]; [cbn; lia |].
    destruct (fz_small (prec := 24) (emax := 128) 48000) as [V' F']; [cbn; lia |]. rewrite V, V'.
    assert (1 * bpow radix2 20 <= bpow radix2 100) by (rewrite Rmult_1_l; apply bpow_le; lia). assert (bpow radix2 20 = 1048576) by reflexivity.
    repeat split; try assumption; try lra. repeat constructor.
  - assert (P : fltb (fzero : binary_float 24 128) (p_dt (poly_run f32n (poly_new f32n Triangle (fz 7200)) (PInit (fz 48000) :: repeat PSample 3))) = true) by (vm_compute; reflexivity).
    split; [| vm_compute; reflexivity]. apply fltb_true in P; [rewrite val_fzero in P; exact P | reflexivity | vm_compute; reflexivity].
Qed.
(** The value there, at phase 0.45 (rounded), is near 2 - 4 * 0.45 = 0.2, and the corners are farther than the step 0.15. *)
Example C93_triangle_value : let s := poly_run f32n (poly_new f32n Triangle (fz 7200)) (PInit (fz 48000) :: repeat PSample 3) in
  fltb (fabs (fsub (p_t s) (fdiv (fz 45) (fz 100)))) (fze 1 (-20)) = true /\
  fltb (fabs (fsub (next_sample f32n s) (fdiv (fz 1) (fz 5)))) (fze 1 (-19)) = true.
Proof. vm_compute. split; reflexivity. Qed.
