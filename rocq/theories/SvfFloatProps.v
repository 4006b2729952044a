(** C57: the state variable filter with rounding. *)
From Coq Require Import Reals Lra Psatz.
From Flocq Require Import Core BinarySingleNaN.
From Verif Require Import Base FloatBase SvfModel SvfSpec SvfFloatSpec SvfFloatProofs.
Local Open Scope R_scope.

(** In any IEEE format, with whatever tangent, square root and power the platform provides: if the damping of the settings exceeds
    the rounding error, then for every bounded input every output sample is finite and bounded, and what the filter stored at the
    start dies out exponentially, down to the size of a subnormal number. *)
Theorem C57_float_partial : forall prec emax (I : ieee prec emax) pi tan sqrt powf s0 sr x M,
  let O := ieee_ops pi tan sqrt powf in
  let s := set_coeffs O s0 sr in
  let start := Rabs (val (v_ic1 s)) + Rabs (val (v_ic2 s)) in
  let K := ceiling (g_val O s0 sr) (k_val O s0) (val (v_m0 s)) (val (v_m1 s)) (val (v_m2 s)) in
  let rho := decay (g_val O s0 sr) (k_val O s0) in
  sturdy O s0 sr -> fin (v_ic1 s) -> fin (v_ic2 s) ->
  (forall n, fin (x n) /\ Rabs (val (x n)) <= M) ->
  K * (start + M + @tiny prec emax) <= bpow radix2 (emax - 1) ->
  0 <= rho < 1 /\
  forall n, fin (f_output O s x n) /\ Rabs (val (f_output O s x n)) <= K * (rho ^ n * start + M + @tiny prec emax).
Proof.
  intros prec emax I pi tan sqrt powf s0 sr x M O s start K rho H F1 F2 Hx HK.
  pose proof (sturdy_tuned pi tan sqrt powf s0 sr H) as T.
  assert (B : 0 < g_val O s0 sr /\ 0 < k_val O s0 /\ 1400 * @unit_roundoff prec <= damping (g_val O s0 sr) (k_val O s0)).
  { unfold sturdy in H. cbv zeta in H. destruct (m_of _ _ _ _) as [[m0 m1] m2].
    destruct H as (_ & _ & Rg & Rk & _ & _ & _ & D). pose proof (bpow_gt_0 radix2 (-24)). unfold g_val, k_val. repeat split; lra. }
  destruct B as (Hg & Hk & Hd). split.
  { pose proof (damping_pos _ _ Hg Hk). pose proof (damping_small _ _ Hg Hk). unfold rho, decay.
    split; [apply sqrt_pos |]. apply Rlt_le_trans with (R_sqrt.sqrt 1); [apply sqrt_lt_1; lra | rewrite sqrt_1; lra]. }
  intros n. destruct (run_float pi tan sqrt powf _ _ s x M Hg Hk Hd T F1 F2 Hx HK n) as (_ & _ & A & _ & _ & B). split; [exact A | exact B].
Qed.
Print Assumptions C57_float_partial.

(** In double precision the damping exceeds the rounding error for every cutoff from 1 Hz to 22 kHz (at 48 kHz) and every resonance
    from 1/4 to 64. *)
Theorem C57_double_damping : forall g k, bpow radix2 (-14) <= g <= 8 -> / 64 <= k <= 4 ->
  1400 * @unit_roundoff 53 <= damping g k.
Proof.
  intros g k [G1 G2] [K1 K2]. assert (G0 : 0 < bpow radix2 (-14)) by apply bpow_gt_0.
  unfold damping. set (C := 2 * (k * k + 4) * _).
  assert (gk : g * k <= 32) by nra. assert (gk0 : 0 < g * k) by nra.
  assert (C0 : 0 < C <= 143560).
  { assert (k * k <= 16) by nra. assert (0 < k * k) by nra. assert (g * g <= 64) by nra.
    assert (A : (1 + g * k) * (1 + g * k) <= 1089) by nra. assert (A0 : 0 <= (1 + g * k) * (1 + g * k)) by nra. unfold C. split.
    - apply Rmult_lt_0_compat; nra.
    - apply Rle_trans with (40 * 3589); [apply Rmult_le_compat; nra | lra]. }
  apply Rmult_le_reg_r with C; [lra |]. replace (g * k / C * C) with (g * k) by (field; lra).
  assert (U : @unit_roundoff 53 = bpow radix2 (-53)) by reflexivity. rewrite U.
  assert (P : bpow radix2 (-53) * bpow radix2 39 = bpow radix2 (-14)) by (rewrite <- bpow_plus; reflexivity).
  assert (P39 : bpow radix2 39 = 549755813888) by (cbn; lra). rewrite P39 in P.
  assert (B0 : 0 < bpow radix2 (-53)) by apply bpow_gt_0. set (b := bpow radix2 (-53)) in *. set (a := bpow radix2 (-14)) in *.
  assert (1400 * b * C <= 1400 * b * 143560) by (apply Rmult_le_compat_l; lra).
  assert (a * / 64 <= g * k) by (apply Rmult_le_compat; lra). lra.
Qed.
Print Assumptions C57_double_damping.
(** In single precision it does from 310 Hz to 12 kHz, and resonances from 1/2 to 2. *)
Theorem C57_single_damping : forall g k, / 49 <= g <= 1 -> / 2 <= k <= 2 ->
  1400 * @unit_roundoff 24 <= damping g k.
Proof.
  intros g k [G1 G2] [K1 K2]. unfold damping. set (C := 2 * (k * k + 4) * _).
  assert (gk : g * k <= 2 * g) by nra. assert (gk0 : 0 < g * k) by nra.
  assert (U : @unit_roundoff 24 = / 16777216) by (cbn; lra). rewrite U.
  assert (kk : 0 < k * k <= 4) by nra.
  assert (Cp : 0 < C). { unfold C. apply Rmult_lt_0_compat; nra. }
  apply Rmult_le_reg_r with C; [lra |]. replace (g * k / C * C) with (g * k) by (field; lra).
  destruct (Rle_dec g (/ 8)) as [L | L].
  - assert (C <= 109).
    { assert (g * g <= / 64) by nra. assert (A : (1 + g * k) * (1 + g * k) <= 25 / 16) by nra. assert (A0 : 0 <= (1 + g * k) * (1 + g * k)) by nra.
      unfold C. apply Rle_trans with (16 * (109 / 16)); [apply Rmult_le_compat; nra | lra]. }
    assert (/ 49 * / 2 <= g * k) by (apply Rmult_le_compat; lra). lra.
  - assert (C <= 544).
    { assert (g * g <= 1) by nra. assert (A : (1 + g * k) * (1 + g * k) <= 9) by nra. assert (A0 : 0 <= (1 + g * k) * (1 + g * k)) by nra.
      unfold C. apply Rle_trans with (16 * 34); [apply Rmult_le_compat; nra | lra]. }
    assert (/ 8 * / 2 <= g * k) by (apply Rmult_le_compat; lra). lra.
Qed.
Print Assumptions C57_single_damping.

(** A single precision low pass at a quarter of the sample rate (the tangent is one), at rest, with input up to a million. *)
Definition f32_svf_ops : float_ops (binary_float 24 128) := ieee_ops (fze 13176795 (-22)) (fun _ => fone) (fun x => x) (fun _ y => y).
Definition quarter_low : svf (binary_float 24 128) := svf_new f32_svf_ops Low (fz 12000) fone fzero.
Example one_over_one : fin (fdiv (fone : binary_float 24 128) fone) /\ val (fdiv (fone : binary_float 24 128) fone) = 1.
Proof.
  assert (E : rnd (prec := 24) (emax := 128) (val (fone : binary_float 24 128) / val (fone : binary_float 24 128)) = 1).
  { rewrite val_fone. unfold Rdiv. rewrite Rinv_1, Rmult_1_r. apply rnd_1. }
  destruct (fdiv_ok (fone : binary_float 24 128) fone fin_fone) as [V F].
  - rewrite val_fone. lra.
  - rewrite E. apply below_top with 1%Z; [lia |]. rewrite Rabs_R1. change 1 with (bpow radix2 0). apply bpow_le. lia.
  - split; [exact F |]. rewrite V. exact E.
Qed.
Example quarter_sturdy : sturdy f32_svf_ops quarter_low (fz 48000).
Proof.
  destruct one_over_one as [F V]. unfold sturdy, quarter_low, svf_new. cbn [v_ty v_cutoff v_q v_gain m_of g_of k_of f32_svf_ops ieee_ops o_tan o_div o_one o_zero].
  assert (B1 : bpow radix2 (-24) <= 1) by (change 1 with (bpow radix2 0); apply bpow_le; lia).
  assert (B2 : 1 <= bpow radix2 24) by (change 1 with (bpow radix2 0); apply bpow_le; lia).
  rewrite V, val_fone. repeat split; try assumption; try apply fin_fone; try reflexivity.
  apply C57_single_damping; lra.
Qed.
Example quarter_case : let s := set_coeffs f32_svf_ops quarter_low (fz 48000) in
  ceiling (g_val f32_svf_ops quarter_low (fz 48000)) (k_val f32_svf_ops quarter_low) (val (v_m0 s)) (val (v_m1 s)) (val (v_m2 s))
    * (Rabs (val (v_ic1 s)) + Rabs (val (v_ic2 s)) + 1000000 + @tiny 24 128) <= bpow radix2 (128 - 1).
Proof.
  destruct one_over_one as [F V]. cbv zeta.
  unfold g_val, k_val, quarter_low, svf_new, set_coeffs. cbn [v_ty v_cutoff v_q v_gain m_of g_of k_of f32_svf_ops ieee_ops o_tan o_div o_one o_zero v_m0 v_m1 v_m2 v_ic1 v_ic2].
  unfold ceiling. rewrite V, val_fone, val_fzero, Rabs_R0, Rabs_R1.
  assert (S0 : 0 <= swing 1 1 <= 100000).
  { unfold swing, damping. split; [apply sqrt_pos |]. rewrite <- (sqrt_square 100000) by lra. apply sqrt_le_1_alt. lra. }
  assert (T : @tiny 24 128 <= 1) by (unfold tiny; change 1 with (bpow radix2 0); apply bpow_le; lia).
  assert (T0 : 0 < @tiny 24 128) by apply bpow_gt_0.
  apply Rle_trans with (40 * 100000 * 2 * 1000001); [apply Rmult_le_compat; lra |].
  apply Rle_trans with (bpow radix2 60); [cbn; lra | apply bpow_le; lia].
Qed.
