(** C95: the variable trapezoid of the band-limited oscillator in floating point. *)
From Coq Require Import Reals Lra List.
From Flocq Require Import Core BinarySingleNaN.
From Verif Require Import Base FloatBase PolyModel PolySpec PolyProofs PolyWave PolyFloatSpec PolyFloatProofs PolyNearSpec PolyNearProofs PolyTriSpec PolyVarSpec PolyVarProofs PolyNearProps.
Import ListNotations.
Local Open Scope R_scope.

(** In [f32] and [f64] every sample of the variable trapezoid is within 72/(1 - width) rounding units of the rounded-off trapezoid at the
    same phase, for all widths up to 0.999 and however small the step is, and within 1 up to as much. *)
Theorem C95_trapezoid : forall prec emax (I : ieee prec emax) fpi ftau fsin fcos (s : poly (binary_float prec emax)),
  reached (Fops fpi ftau fsin fcos) s -> audible (Fops fpi ftau fsin fcos) s -> p_wave s = TrapezoidVariable ->
  fin (p_pw s) -> 0 <= val (p_pw s) <= 999 / 1000 ->
  let y := val (next_sample (Fops fpi ftau fsin fcos) s) in
  let bound := 72 * bpow radix2 (- prec) / (1 - val (p_pw s)) in
  Rabs (y - round_flat_top (val (p_pw s)) (val (p_dt s)) (val (p_t s))) <= bound /\ Rabs y <= 1 + bound.
Proof.
  intros prec emax I fpi ftau fsin fcos s R A W Fp Hp y bound. pose proof (reached_ok fpi ftau fsin fcos s R) as H.
  pose proof (audible_moving fpi ftau fsin fcos s H A) as M. assert (T : phase_ok (p_t s)) by apply H. destruct A as [_ A].
  pose proof M as [[_ D] D']. unfold y, next_sample, get_freq_in_hz. cbn [Fops q_leb q_div q_mul q_frac]. rewrite A, W.
  rewrite <- exact_var; [| lra | apply T | exact Hp]. pose proof (var_near fpi ftau fsin fcos (p_t s) (p_dt s) (p_pw s) T M Fp Hp) as N.
  fold bound in N. split; [exact N |].
  assert (Sl : slow (val (p_dt s))) by (unfold slow; lra). destruct T as [_ T]. assert (Wo : width_ok (val (p_pw s))) by (unfold width_ok; lra).
  pose proof (trap2_range (val (p_t s)) (val (p_dt s)) (val (p_pw s)) Sl Wo T) as Q. unfold inside in Q. apply Rabs_le_inv in N. apply Rabs_le. lra.
Qed.
Print Assumptions C95_trapezoid.
(** In [f32], at widths up to one half, that is 2^-16. *)
Theorem C95_trapezoid_f32 : forall fpi ftau fsin fcos (s : poly (binary_float 24 128)),
  reached (Fops fpi ftau fsin fcos) s -> audible (Fops fpi ftau fsin fcos) s -> p_wave s = TrapezoidVariable ->
  fin (p_pw s) -> 0 <= val (p_pw s) <= 1 / 2 ->
  Rabs (val (next_sample (Fops fpi ftau fsin fcos) s) - round_flat_top (val (p_pw s)) (val (p_dt s)) (val (p_t s))) <= bpow radix2 (-16).
Proof.
  intros fpi ftau fsin fcos s R A W Fp Hp. eapply Rle_trans; [apply C95_trapezoid; try assumption; lra |].
  replace (bpow radix2 (-16)) with (256 * bpow radix2 (-24)) by (change 256 with (bpow radix2 8); rewrite <- bpow_plus; reflexivity).
  change (- (24))%Z with (-24)%Z. pose proof (bpow_ge_0 radix2 (-24)) as E. apply Rmult_le_reg_r with (1 - val (p_pw s)); [lra |].
  unfold Rdiv. rewrite Rmult_assoc, Rinv_l by lra. nra.
Qed.
Print Assumptions C95_trapezoid_f32.
(** The hypotheses are met: 7200 Hz at 48 kHz with a quarter of the period flat, after two samples. *)
Definition var7200 (n : nat) : poly (binary_float 24 128) :=
  poly_run f32n (poly_new f32n TrapezoidVariable (fz 7200)) (PInit (fz 48000) :: PPw (fze 1 (-2)) :: repeat PSample n).
Example C95_case : reached f32n (var7200 2) /\ audible f32n (var7200 2) /\ p_wave (var7200 2) = TrapezoidVariable /\
  fin (p_pw (var7200 2)) /\ 0 <= val (p_pw (var7200 2)) <= 999 / 1000.
Proof.
  destruct (fze_ok (prec := 24) (emax := 128) 1 (-2)) as [Vq Fq].
  { rewrite Rmult_1_l, rnd_bpow by lia. apply below_top with (-2)%Z; [lia |]. rewrite Rabs_pos_eq; [lra | apply bpow_ge_0]. }
  rewrite Rmult_1_l, rnd_bpow in Vq by lia. replace (bpow radix2 (-2)) with (1 / 4) in Vq by (cbn; lra).
  split; [| split; [| split; [reflexivity | split; [exact Fq | change (val (p_pw (var7200 2))) with (val (fze 1 (-2) : binary_float 24 128)); lra]]]].
  - exists TrapezoidVariable, (fz 7200), (fz 48000), (PPw (fze 1 (-2)) :: repeat PSample 2). destruct (fz_small (prec := 24) (emax := 128) 7200) as [V F]; [cbn; lia |].
    destruct (fz_small (prec := 24) (emax := 128) 48000) as [V' F']; [cbn; lia |]. rewrite V, V'.
    assert (1 * bpow radix2 20 <= bpow radix2 100) by (rewrite Rmult_1_l; apply bpow_le; lia). assert (bpow radix2 20 = 1048576) by reflexivity.
    split; [assumption |]. split; [lra |]. split; [assumption |]. split; [lra |]. split; [| reflexivity].
    repeat constructor; try assumption; try (rewrite Vq; lra).
  - assert (P : fltb (fzero : binary_float 24 128) (p_dt (var7200 2)) = true) by (vm_compute; reflexivity).
    split; [| vm_compute; reflexivity]. apply fltb_true in P; [rewrite val_fzero in P; exact P | reflexivity | vm_compute; reflexivity].
Qed.
(** There, at phase 0.3, the sample is on the flat part (which goes from 0.1875 to 0.3125), rounded off by both corners:
    1 - 0.4 / 3 * ((1 - 0.1125 / 0.15)^3 + (1 - 0.0125 / 0.15)^3) = 0.895... *)
Example C95_value : fltb (fabs (fsub (p_t (var7200 2)) (fdiv (fz 3) (fz 10)))) (fze 1 (-20)) = true /\
  fltb (fabs (fsub (next_sample f32n (var7200 2)) (fdiv (fz 895) (fz 1000)))) (fze 1 (-10)) = true.
Proof. vm_compute. split; reflexivity. Qed.
