(** Proofs for C95: the distance of the rounded variable trapezoid from the exact one. *)
From Coq Require Import Reals Lra Lia ZArith.
From Flocq Require Import Core BinarySingleNaN.
From Verif Require Import Base FloatBase PolyModel PolySpec PolyProofs PolyWave PolyFloatSpec PolyFloatProofs PolyNearProofs PolyTriSpec PolyTriProofs PolyTrapProofs PolyVarSpec SegProofs.
Local Open Scope R_scope.

Section Var.
Context {prec emax : Z} {I : ieee prec emax}.
Notation fl := (binary_float prec emax).
Notation rnd := (@rnd prec emax).
Notation e := (bpow radix2 (- prec)).
Ltac err x H := let K := fresh in assert (K : Rabs (rnd x - x) <= e) by (apply err2; first [lra | split; nra]); apply abs_le in K; rename K into H.

Lemma prod_in : forall a b A B, - A <= a <= A -> - B <= b <= B -> - (A * B) <= a * b <= A * B.
Proof. intros a b A B HA HB. split; nra. Qed.
Lemma e_small : 0 < e <= / 16777216.
Proof.
  split; [apply bpow_gt_0 |]. replace (/ 16777216) with (bpow radix2 (-24)) by (cbn; lra). apply bpow_le. destruct I; lia.
Qed.
Lemma err_up : forall c x, 1 <= c -> - c <= x <= c -> - (c * e) <= rnd x - x <= c * e.
Proof.
  intros c x C H. pose proof e_small as E. destruct (Rle_lt_dec (Rabs x) 1) as [L | L].
  - assert (K : Rabs (rnd x - x) <= e) by (apply err2; apply Rabs_le_inv in L; lra). apply abs_le in K. nra.
  - assert (K : Rabs (rnd x - x) <= e * Rabs x).
    { apply rel_error. apply Rle_trans with 1; [| lra]. change 1 with (bpow radix2 0). apply bpow_le. destruct I; lia. }
    assert (A : Rabs x <= c) by (apply Rabs_le; lra). apply abs_le in K. nra.
Qed.
Lemma small_ok : forall x, -8192 <= x <= 8192 -> Rabs (rnd x) < top (emax := emax).
Proof. intros x H. apply fits with 13%Z; [destruct I; lia |]. replace (bpow radix2 13) with 8192 by (cbn; lra). apply Rabs_le. lra. Qed.

Variables (fpi ftau : fl) (fsin fcos : fl -> fl).
Notation O := (Fops fpi ftau fsin fcos).

(** The cap of the width is not reached. *)
Lemma cap : forall pw : fl, fin pw -> 0 <= val pw <= 999 / 1000 -> minf O pw (q_frac O 9999 10000) = pw.
Proof.
  intros pw F H. unfold minf. cbn [Fops q_ltb q_frac].
  destruct (fz_small (prec := prec) (emax := emax) 9999) as [A B]; [cbn; lia |]. destruct (fz_small (prec := prec) (emax := emax) 10000) as [A1 B1]; [cbn; lia |].
  destruct (fdiv_ok (fz 9999 : fl) (fz 10000) B) as [V G]; [rewrite A1; lra | rewrite A, A1; apply small_ok; lra |].
  rewrite fltb_ok by assumption. rewrite V, A, A1. pose proof e_small. err (9999 / 10000) Ec. rewrite Rlt_bool_true by lra. reflexivity.
Qed.
(** The slope *)
Lemma slope : forall pw : fl, fin pw -> 0 <= val pw <= 999 / 1000 ->
  let s := fdiv (q_frac O 1 1) (fsub (q_frac O 1 1) pw) in let X := / (1 - val pw) in
  fin s /\ 1 <= X <= 1000 /\ - (4 * (X * e)) <= val s - X <= 4 * (X * e).
Proof.
  intros pw F H s X. pose proof e_small as E. destruct (lit_int fpi ftau fsin fcos 1) as [F1 V1]; [lia |].
  destruct (sub_in (q_frac O 1 1) pw 0 4) as [[A1 A2] A3]; try lia; try assumption; [rewrite V1; lra |]. rewrite V1 in A3.
  set (q := fsub (q_frac O 1 1) pw) in *. set (L := 1 - val pw) in *. assert (HL : 1 / 1000 <= L <= 1) by (unfold L; lra).
  assert (R : Rabs (rnd L - L) <= e * Rabs L).
  { apply rel_error. rewrite Rabs_pos_eq by lra. apply Rle_trans with (bpow radix2 (-10)); [apply bpow_le; destruct I; lia |]. replace (bpow radix2 (-10)) with (/ 1024) by (cbn; lra). lra. }
  rewrite (Rabs_pos_eq L) in R by lra. rewrite <- A3 in R. apply abs_le in R.
  assert (X1 : X * L = 1) by (unfold X; fold L; field; lra).
  assert (X2 : 1 <= X <= 1000).
  { unfold X. fold L. split; [rewrite <- Rinv_1 at 1; apply Rinv_le; lra |]. replace 1000 with (/ (1 / 1000)) by field. apply Rinv_le; lra. }
  assert (Q : 0 < val q) by nra. set (r := 1 / val q). assert (R1 : r * val q = 1) by (unfold r; field; lra).
  assert (R2 : 0 < r) by (unfold r; apply Rdiv_lt_0_compat; lra).
  assert (R3 : - (2 * (X * e)) <= r - X <= 2 * (X * e)).
  { (* r L (1 +- e) = 1 *)
    assert (U1 : r * L * (1 - e) <= 1) by nra. assert (U2 : 1 <= r * L * (1 + e)) by nra.
    assert (U3 : r * L <= 1 + 2 * e) by nra. assert (U4 : 1 - 2 * e <= r * L) by nra.
    assert (W : r = X * (r * L)) by (rewrite (Rmult_comm r L), <- Rmult_assoc, X1; ring).
    set (g := r * L) in *. rewrite W. split; nra. }
  assert (B0 : r <= 1001) by nra.
  destruct (fdiv_ok (q_frac O 1 1) q F1) as [V G]; [lra | rewrite V1; fold r; apply small_ok; lra |]. rewrite V1 in V. fold r in V. fold s in V, G.
  assert (P : - ((X * (1 + 2 * e)) * e) <= rnd r - r <= (X * (1 + 2 * e)) * e) by (apply err_up; nra).
  split; [exact G |]. split; [exact X2 |]. rewrite V. assert (0 <= X * e) by nra. nra.
Qed.
(** One pair of corners: [z0] is what the program computes for the phase [zx], before the last rounding *)
Lemma pair_var : forall (z0 zx X : R) (dt s t1 : fl), fin s -> 0 <= z0 <= 3 / 2 -> 0 <= zx -> - (2 * e) <= z0 - zx <= 2 * e -> moving dt ->
  1 <= X <= 1000 -> - (4 * (X * e)) <= val s - X <= 4 * (X * e) -> phase_ok t1 -> val t1 = rnd z0 - IZR (Zfloor (rnd z0)) ->
  let t2 := wrap O (fadd t1 (q_frac O 1 2)) in
  let x := fmul (fmul (fmul s (q_frac O 2 1)) dt) (fsub (blamp O t1 dt) (blamp O t2 dt)) in
  fin x /\ - X <= val x <= X /\ - (28 * (X * e)) <= val x - 2 * X * (val dt * (K (val dt) zx - K (val dt) (zx + 1 / 2))) <= 28 * (X * e).
Proof.
  intros z0 zx X dt s t1 Fs Z Zx N M HX S P1 E1 t2 x. pose proof e_small as E.
  destruct (ratio_ok dt M) as (Q1 & Q2 & Q3). pose proof M as [D Dp]. pose proof D as [D1 D2].
  destruct (lit_half fpi ftau fsin fcos) as [Fh Vh]. destruct (lit_int fpi ftau fsin fcos 2) as [F2 V2]; [lia |].
  destruct (wrap_plus fpi ftau fsin fcos t1 (q_frac O 1 2) P1 Fh) as [P2 E2]; [rewrite Vh; lra |]. fold t2 in P2, E2. rewrite Vh in E2.
  pose proof P1 as [_ T1'].
  pose proof (K_near fpi ftau fsin fcos t1 dt z0 P1 M ltac:(lra) E1) as N1.
  pose proof (K_near fpi ftau fsin fcos t2 dt (val t1 + 1 / 2) P2 M ltac:(lra) E2) as N2.
  assert (N3 : - (2 * e) <= val dt * (K (val dt) z0 - K (val dt) zx) <= 2 * e).
  { pose proof (K_lip_abs (val dt) z0 zx ltac:(lra)) as L1. pose proof (K_lip_abs (val dt) zx z0 ltac:(lra)) as L2. rewrite Rabs_minus_sym in L2.
    assert (Rabs (z0 - zx) <= 2 * e) by (apply Rabs_le; lra). lra. }
  err z0 G0.
  assert (N4 : - (3 * e) <= val dt * (K (val dt) (val t1 + 1 / 2) - K (val dt) (zx + 1 / 2)) <= 3 * e).
  { rewrite (K_shift (val dt) (val t1 + 1 / 2) (- Zfloor (rnd z0)) (rnd z0 + 1 / 2)) by (rewrite opp_IZR; lra).
    pose proof (K_lip_abs (val dt) (rnd z0 + 1 / 2) (zx + 1 / 2) ltac:(lra)) as L1.
    pose proof (K_lip_abs (val dt) (zx + 1 / 2) (rnd z0 + 1 / 2) ltac:(lra)) as L2. rewrite Rabs_minus_sym in L2.
    assert (Rabs (rnd z0 + 1 / 2 - (zx + 1 / 2)) <= 3 * e) by (apply Rabs_le; lra). lra. }
  destruct (blamp_in fpi ftau fsin fcos t1 dt P1 D) as (B1 & B2 & _). destruct (blamp_in fpi ftau fsin fcos t2 dt P2 D) as (G1 & G2 & _).
  set (b1 := val (blamp O t1 dt)) in *. set (b2 := val (blamp O t2 dt)) in *.
  destruct (sub_in (blamp O t1 dt) (blamp O t2 dt) (-2) 2) as [[S1 S2] S3]; try lia; try assumption; [fold b1 b2; lra |].
  fold b1 b2 in S3. err (b1 - b2) H1. rewrite <- S3 in H1. set (d := fsub (blamp O t1 dt) (blamp O t2 dt)) in *.
  set (w := X * e) in *. assert (W : 0 < w /\ e <= w /\ w <= X / 1000000) by (unfold w; split; [nra | split; nra]).
  assert (Sp : 0 <= val s <= X + X / 100) by lra.
  destruct (fmul_ok s (q_frac O 2 1) Fs F2) as [A1 A2]; [rewrite V2; apply small_ok; lra |]. rewrite V2, Rmult_comm, two_exact in A1.
  set (s2 := fmul s (q_frac O 2 1)) in *.
  assert (C0 : 0 <= val s2 * val dt <= X) by (rewrite A1; split; nra).
  destruct (fmul_ok s2 dt A2 D1) as [M1 M2]; [apply small_ok; lra |]. set (m := fmul s2 dt) in *.
  assert (C1 : - w <= val m - val s2 * val dt <= w) by (rewrite M1; apply err_up; lra).
  assert (C2 : - (2 * w) <= val s2 * val dt - 2 * X * val dt <= 2 * w) by (rewrite A1; split; nra).
  assert (C3 : - (3 * w) <= val m - 2 * X * val dt <= 3 * w) by lra.
  assert (C4 : - (3 / 4 * X) <= val m * val d <= 3 / 4 * X).
  { assert (U : - (3 / 2 * X * (1 / 2)) <= val m * val d <= 3 / 2 * X * (1 / 2)) by (apply prod_in; lra). lra. }
  destruct (fmul_ok m d M2 S1) as [R1 R2]; [apply small_ok; lra |]. fold x in R1, R2.
  assert (C5 : - w <= val x - val m * val d <= w) by (rewrite R1; apply err_up; lra).
  split; [exact R2 |]. split; [lra |].
  assert (C6 : - (3 * w * (1 / 2)) <= (val m - 2 * X * val dt) * val d <= 3 * w * (1 / 2)) by (apply prod_in; lra).
  set (k := val dt * (K (val dt) zx - K (val dt) (zx + 1 / 2))).
  assert (C7 : - (1 / 4 * e) <= val dt * (val d - (b1 - b2)) <= 1 / 4 * e) by (apply prod_in; lra).
  assert (C8 : - (49 / 4 * e) <= val dt * val d - k <= 49 / 4 * e) by (unfold k; lra).
  assert (C9 : - (2 * X * (49 / 4 * e)) <= 2 * X * (val dt * val d - k) <= 2 * X * (49 / 4 * e)) by (apply prod_in; lra).
  unfold w in *. lra.
Qed.
Lemma clamp_by : forall a, 0 <= a -> forall y : fl, fin y -> forall g, - a <= val y - g <= a ->
  let c := clampf O y (fneg (q_frac O 1 1)) (q_frac O 1 1) in
  fin c /\ -1 <= val c <= 1 /\ - a <= val c - clampf RPops g (-1) 1 <= a.
Proof.
  intros a Ep y Fy g H c. destruct (lit_int fpi ftau fsin fcos 1) as [F1 V1]; [lia |].
  assert (Fn : fin (fneg (q_frac O 1 1))) by (apply fin_fneg; exact F1).
  unfold c, clampf. unq. unfold Rltb. cbn [q_ltb Fops]. rewrite !fltb_ok by assumption. rewrite val_fneg, V1.
  destruct (Rlt_bool_spec (val y) (- (1))) as [A | A].
  - split; [exact Fn |]. rewrite val_fneg, V1. destruct (Rlt_dec g (-1)); [lra |]. destruct (Rlt_dec 1 g); lra.
  - destruct (Rlt_bool_spec 1 (val y)) as [B | B].
    + split; [exact F1 |]. rewrite V1. destruct (Rlt_dec g (-1)); [lra |]. destruct (Rlt_dec 1 g); lra.
    + split; [exact Fy |]. destruct (Rlt_dec g (-1)); [lra |]. destruct (Rlt_dec 1 g); lra.
Qed.

Lemma min_low : forall p, p <= 999 / 1000 -> minf RPops p (9999 / 10000) = p.
Proof. intros p H. unfold minf. cbn [RPops q_ltb]. unfold Rltb. destruct (Rlt_dec p (9999 / 10000)); [reflexivity | lra]. Qed.

Lemma var_near : forall t dt pw : fl, phase_ok t -> moving dt -> fin pw -> 0 <= val pw <= 999 / 1000 ->
  Rabs (val (w_trap2 O t dt pw) - w_trap2 RPops (val t) (val dt) (val pw)) <= 72 * e / (1 - val pw).
Proof.
  intros t dt pw T M Fp Hp. destruct (ratio_ok dt M) as (Q1 & Q2 & Q3). pose proof M as [D Dp]. pose proof T as [T1 T2]. pose proof D as [D1 D2].
  assert (Sl : slow (val dt)) by (unfold slow; lra). pose proof e_small as E.
  destruct (lit_14 fpi ftau fsin fcos) as [Fq Vq].
  destruct (lit_int fpi ftau fsin fcos 4) as [F4 V4]; [lia |].
  destruct (slope pw Fp Hp) as (F1 & HX & Hs). set (X := / (1 - val pw)) in *. set (s := fdiv (q_frac O 1 1) (fsub (q_frac O 1 1) pw)) in *.
  unfold w_trap2. rewrite cap by assumption. unq. rewrite min_low by lra.
  cbn [q_add Fops q_opp q_sub q_mul q_div]. fold s.
  (* the flat parts and flanks *)
  destruct (mul_in (q_frac O 4 1) t 0 16) as [[Y1 Y2] Y3]; try lia; try assumption; [rewrite V4; lra |]. rewrite V4, four_exact in Y3.
  destruct (fold_near fpi ftau fsin fcos t _ T Y1 Y3) as (G1 & G2 & G3).
  set (f := fold_tri O (fmul (q_frac O 4 1) t)) in *. set (f0 := fold_tri RPops (4 * val t)) in *.
  set (w := X * e) in *. assert (W : 0 < w /\ e <= w /\ w <= X / 1000000) by (unfold w; split; [nra | split; nra]).
  assert (Sp : 0 <= val s <= X + X / 100) by lra.
  assert (B0 : - (2 * X * 1) <= val s * val f <= 2 * X * 1) by (apply prod_in; lra).
  destruct (fmul_ok s f F1 G1) as [V1 F2]; [apply small_ok; lra |].
  assert (B1 : - (2 * X * e) <= rnd (val s * val f) - val s * val f <= 2 * X * e) by (apply err_up; lra). rewrite <- V1 in B1.
  assert (B2 : - (4 * w * 1) <= (val s - X) * val f <= 4 * w * 1) by (apply prod_in; lra).
  assert (B3 : - (X * e) <= X * (val f - f0) <= X * e) by (apply prod_in; lra).
  assert (EX : 1 / (1 - val pw) = X) by (unfold X; field; lra). rewrite !EX.
  assert (B4 : - (7 * w) <= val (fmul s f) - X * f0 <= 7 * w) by (unfold w in *; lra).
  destruct (clamp_by (7 * w) ltac:(lra) _ F2 _ B4) as (C1 & C2 & C3). replace (- (1)) with (-1) in * by lra.
  set (c := clampf O _ _ _) in *.
  (* the phases of the corners *)
  destruct (add_in t (q_frac O 1 4) 1 5) as [[A1 A2] A3]; try lia; try assumption; [rewrite Vq; lra |]. rewrite Vq in A3. err (val t + 1 / 4) A4. rewrite <- A3 in A4.
  destruct (mul_in (q_frac O 1 4) pw 0 1) as [[H1 H2] H3]; try lia; try assumption; [rewrite Vq; lra |]. rewrite Vq in H3. err (1 / 4 * val pw) H4. rewrite <- H3 in H4.
  set (a := fadd t (q_frac O 1 4)) in *. set (h := fmul (q_frac O 1 4) pw) in *.
  destruct (sub_in a h 0 8) as [[U1 U2] U3]; try lia; try assumption; [lra |].
  destruct (add_in a h 0 8) as [[W1 W2] W3]; try lia; try assumption; [lra |].
  destruct (wrap_ok fpi ftau fsin fcos (fsub a h) U1) as [P1 E1]; [lra |]. rewrite U3 in E1.
  destruct (wrap_ok fpi ftau fsin fcos (fadd a h) W1) as [P2 E2]; [lra |]. rewrite W3 in E2.
  destruct (pair_var (val a - val h) (val t + 1 / 4 - 1 / 4 * val pw) X dt s _ F1 ltac:(lra) ltac:(lra) ltac:(lra) M HX Hs P1 E1) as (I1 & I2 & I3).
  destruct (pair_var (val a + val h) (val t + 1 / 4 + 1 / 4 * val pw) X dt s _ F1 ltac:(lra) ltac:(lra) ltac:(lra) M HX Hs P2 E2) as (J1 & J2 & J3).
  set (x := fmul _ (fsub (blamp O (wrap O (fsub a h)) dt) _)) in *. set (x' := fmul _ (fsub (blamp O (wrap O (fadd a h)) dt) _)) in *.
  destruct (fadd_ok c x C1 I1) as [S3 S1]; [apply small_ok; lra |].
  assert (S4 : - (2 * X * e) <= rnd (val c + val x) - (val c + val x) <= 2 * X * e) by (apply err_up; lra). rewrite <- S3 in S4.
  set (y := fadd c x) in *. assert (S5 : - (3 * X) <= val y <= 3 * X) by (fold w in S4; unfold w in *; lra).
  destruct (fadd_ok y x' S1 J1) as [S7 S6]; [apply small_ok; lra |].
  assert (S8 : - (4 * X * e) <= rnd (val y + val x') - (val y + val x') <= 4 * X * e) by (apply err_up; lra). rewrite <- S7 in S8.
  replace (72 * e / (1 - val pw)) with (72 * w) by (unfold w, X; field; lra).
  assert (K1 : blamp RPops (wrap RPops (wrap RPops (val t + 1 / 4 - 1 / 4 * val pw) + 1 / 2)) (val dt) = K (val dt) (val t + 1 / 4 - 1 / 4 * val pw + 1 / 2)).
  { pose proof (wrap_half (val t) (val dt) (1 / 4 - 1 / 4 * val pw) Sl ltac:(lra)) as Q. replace (val t + (1 / 4 - 1 / 4 * val pw)) with (val t + 1 / 4 - 1 / 4 * val pw) in Q by lra. exact Q. }
  assert (K2 : blamp RPops (wrap RPops (wrap RPops (val t + 1 / 4 + 1 / 4 * val pw) + 1 / 2)) (val dt) = K (val dt) (val t + 1 / 4 + 1 / 4 * val pw + 1 / 2)).
  { pose proof (wrap_half (val t) (val dt) (1 / 4 + 1 / 4 * val pw) Sl ltac:(lra)) as Q. replace (val t + (1 / 4 + 1 / 4 * val pw)) with (val t + 1 / 4 + 1 / 4 * val pw) in Q by lra. exact Q. }
  rewrite K1, K2, !K_wrap by (assumption || lra).
  apply Rabs_le. unfold w in *. lra.
Qed.
End Var.

(** The exact waveform by distance from the corners *)
Lemma exact_var : forall t dt pw : R, 0 < dt < 1 / 4 -> 0 <= t < 1 -> 0 <= pw <= 999 / 1000 -> w_trap2 RPops t dt pw = round_flat_top pw dt t.
Proof.
  intros t dt pw D T Hp. assert (Sl : slow dt) by (unfold slow; lra). unfold w_trap2. unq. rewrite min_low by lra.
  assert (K1 : blamp RPops (wrap RPops (wrap RPops (t + 1 / 4 - 1 / 4 * pw) + 1 / 2)) dt = K dt (t + 1 / 4 - 1 / 4 * pw + 1 / 2)).
  { pose proof (wrap_half t dt (1 / 4 - 1 / 4 * pw) Sl ltac:(lra)) as Q. replace (t + (1 / 4 - 1 / 4 * pw)) with (t + 1 / 4 - 1 / 4 * pw) in Q by lra. exact Q. }
  assert (K2 : blamp RPops (wrap RPops (wrap RPops (t + 1 / 4 + 1 / 4 * pw) + 1 / 2)) dt = K dt (t + 1 / 4 + 1 / 4 * pw + 1 / 2)).
  { pose proof (wrap_half t dt (1 / 4 + 1 / 4 * pw) Sl ltac:(lra)) as Q. replace (t + (1 / 4 + 1 / 4 * pw)) with (t + 1 / 4 + 1 / 4 * pw) in Q by lra. exact Q. }
  rewrite K1, K2, !K_wrap by (assumption || lra).
  unfold round_flat_top. cbv zeta. rewrite !circle_dist by lra.
  replace (t + (1 - (1 - pw) / 4)) with (t + 1 / 4 + 1 / 4 * pw + 1 / 2) by lra.
  replace (t + (1 - (1 / 2 - (1 - pw) / 4))) with (t + 1 / 4 - 1 / 4 * pw + 1 / 2) by lra.
  replace (t + (1 - (1 / 2 + (1 - pw) / 4))) with (t + 1 / 4 + 1 / 4 * pw) by lra.
  replace (t + (1 - (1 - (1 - pw) / 4))) with (t + 1 / 4 - 1 / 4 * pw) by lra.
  assert (R : forall x, corner pw dt x = 1 / (1 - pw) * 2 * dt * BB dt x).
  { intros x. unfold corner, rounding_off, BB. destruct (Rlt_dec x dt); field; lra. }
  rewrite !R. fold (K dt (t + 1 / 4 + 1 / 4 * pw + 1 / 2)) (K dt (t + 1 / 4 - 1 / 4 * pw + 1 / 2)) (K dt (t + 1 / 4 + 1 / 4 * pw)) (K dt (t + 1 / 4 - 1 / 4 * pw)).
  assert (F : clampf RPops (1 / (1 - pw) * fold_tri RPops (4 * t)) (- (1)) 1 = flat_top pw t).
  { unfold flat_top, triangle. rewrite circle_dist by lra. replace (t + (1 - 1 / 4)) with (t + 3 / 4) by lra.
    replace (fold_tri RPops (4 * t)) with (1 - 4 * dist (t + 3 / 4)).
    - unfold clampf. unq. unfold Rltb. replace (1 / (1 - pw) * (1 - 4 * dist (t + 3 / 4))) with ((1 - 4 * dist (t + 3 / 4)) / (1 - pw)) by (field; lra).
      set (x := (1 - 4 * dist (t + 3 / 4)) / (1 - pw)). clearbody x.
      unfold Rmax, Rmin. destruct (Rlt_dec x (- (1))); destruct (Rle_dec 1 x); destruct (Rle_dec _ _); try destruct (Rlt_dec 1 x); lra.
    - destruct (Rle_lt_dec t (1 / 4)) as [L | L].
      + rewrite fold_up by lra. rewrite dist1 by lra. rewrite Rabs_left1; lra.
      + destruct (Rle_lt_dec t (3 / 4)) as [N | N].
        * rewrite fold_down by lra. rewrite dist1 by lra. rewrite Rabs_pos_eq; lra.
        * rewrite fold_back by lra. rewrite dist2 by lra. rewrite Rabs_left1; lra. }
  rewrite F. lra.
Qed.
