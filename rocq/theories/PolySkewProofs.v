(** Proofs for C96: the distance of the rounded modified triangle from the exact one. *)
From Coq Require Import Reals Lra Lia ZArith.
From Flocq Require Import Core BinarySingleNaN.
From Verif Require Import Base FloatBase PolyModel PolySpec PolyProofs PolyWave PolyFloatSpec PolyFloatProofs PolyNearProofs PolyTriSpec PolyTriProofs PolyTrapProofs PolyVarProofs PolySkewSpec.
Local Open Scope R_scope.

Section Skew.
Context {prec emax : Z} {I : ieee prec emax}.
Notation fl := (binary_float prec emax).
Notation rnd := (@rnd prec emax).
Notation e := (bpow radix2 (- prec)).
Ltac err x H := let K := fresh in assert (K : Rabs (rnd x - x) <= e) by (apply err2; first [lra | split; nra]); apply abs_le in K; rename K into H.

Variables (fpi ftau : fl) (fsin fcos : fl -> fl).
Notation O := (Fops fpi ftau fsin fcos).

(** The limits of the width are not reached. *)
Lemma limits : forall pw : fl, fin pw -> 1 / 100 <= val pw <= 99 / 100 ->
  maxf O (minf O pw (q_frac O 9999 10000)) (q_frac O 1 10000) = pw.
Proof.
  intros pw F H. rewrite cap by (assumption || lra). unfold maxf. cbn [Fops q_ltb q_frac].
  destruct (fz_small (prec := prec) (emax := emax) 1) as [A B]; [cbn; lia |]. destruct (fz_small (prec := prec) (emax := emax) 10000) as [A1 B1]; [cbn; lia |].
  destruct (fdiv_ok (fz 1 : fl) (fz 10000) B) as [V G]; [rewrite A1; lra | rewrite A, A1; apply small_ok; lra |].
  rewrite fltb_ok by assumption. rewrite V, A, A1. pose proof (e_small (prec := prec) (emax := emax)). err (1 / 10000) Ec. rewrite Rlt_bool_true by lra. reflexivity.
Qed.
Lemma limits_exact : forall p, 1 / 100 <= p <= 99 / 100 -> maxf RPops (minf RPops p (9999 / 10000)) (1 / 10000) = p.
Proof. intros p H. rewrite min_low by lra. unfold maxf. cbn [RPops q_ltb]. unfold Rltb. destruct (Rlt_dec (1 / 10000) p); [reflexivity | lra]. Qed.

(** The straight lines, as functions of twice the phase *)
Definition lines (p y : R) : R := if Rle_dec (2 - p) y then (y - 2) / p else if Rle_dec p y then 1 - (y - p) / (1 - p) else y / p.
Definition flines (pw y : fl) : fl :=
  if fleb (fsub (q_frac O 2 1) pw) y then fdiv (fsub y (q_frac O 2 1)) pw
  else if fleb pw y then fsub (q_frac O 1 1) (fdiv (fsub y pw) (fsub (q_frac O 1 1) pw)) else fdiv y pw.

Lemma div_range : forall a b lo hi, 0 < b -> lo * b <= a <= hi * b -> lo <= a / b <= hi.
Proof. intros a b lo hi B H. split; apply Rmult_le_reg_r with b; try lra; unfold Rdiv; rewrite Rmult_assoc, Rinv_l by lra; lra. Qed.
Lemma div_move : forall a a' b d, 0 < b -> - d <= a - a' <= d -> - (d / b) <= a / b - a' / b <= d / b.
Proof.
  intros a a' b d B H. replace (a / b - a' / b) with ((a - a') / b) by (field; lra). replace (- (d / b)) with (- d / b) by (field; lra).
  split; apply div_le; lra.
Qed.

Lemma lines_near : forall pw y : fl, fin pw -> fin y -> 1 / 100 <= val pw <= 99 / 100 -> 0 <= val y <= 2 ->
  let X := / (val pw * (1 - val pw)) in
  fin (flines pw y) /\ -2 <= val (flines pw y) <= 2 /\ - (9 * (X * e)) <= val (flines pw y) - lines (val pw) (val y) <= 9 * (X * e).
Proof.
  intros pw y Fp Fy Hp Hy X. pose proof (e_small (prec := prec) (emax := emax)) as E.
  destruct (lit_int fpi ftau fsin fcos 1) as [F1 V1]; [lia |]. destruct (lit_int fpi ftau fsin fcos 2) as [F2 V2]; [lia |].
  set (p := val pw) in *. set (L := 1 - p). set (P := / p). set (Q := / L).
  assert (LE : L = 1 - p) by reflexivity. assert (HL : 1 / 100 <= L <= 99 / 100) by (unfold L; lra).
  assert (EP : P * p = 1) by (unfold P; field; lra). assert (EQ : Q * L = 1) by (unfold Q; field; lra).
  assert (EX : X = P + Q) by (unfold X, P, Q, L; field; lra).
  assert (BP : 1 <= P <= 100) by (split; nra). assert (BQ : 1 <= Q <= 100) by (split; nra).
  assert (DP : forall a, a / p = a * P) by reflexivity. assert (DQ : forall a, a / L = a * Q) by reflexivity.
  set (dp := P * e). set (dq := Q * e). assert (Ep : e <= dp <= / 100000) by (unfold dp; split; nra). assert (Eq : e <= dq <= / 100000) by (unfold dq; split; nra).
  assert (WX : X * e = dp + dq) by (unfold dp, dq; rewrite EX; ring). rewrite WX.
  destruct (sub_in (q_frac O 2 1) pw 0 8) as [[A1 A2] A3]; try lia; try assumption; [rewrite V2; fold p; lra |]. rewrite V2 in A3. fold p in A3.
  err (2 - p) A4. rewrite <- A3 in A4.
  unfold flines. rewrite !fleb_ok by assumption. set (c2 := fsub (q_frac O 2 1) pw) in *. fold p.
  (* the two lines meet at 2 - p *)
  assert (Meet : forall yy, - e <= yy - (2 - p) <= e -> - (dp + dq) <= (yy - 2) / p - (1 - (yy - p) / L) <= dp + dq).
  { intros yy H. replace ((yy - 2) / p - (1 - (yy - p) / L)) with ((yy - (2 - p)) * X) by (unfold X; fold L; unfold L; field; lra).
    rewrite <- WX, (Rmult_comm X e). apply prod_in; [exact H | lra]. }
  set (z := val y) in *.
  destruct (Rle_bool_spec (val c2) z) as [Hc | Hc].
  - destruct (sub_in y (q_frac O 2 1) (-8) 0) as [[B1 B2] B3]; try lia; try assumption; [rewrite V2; fold z; lra |]. rewrite V2 in B3. fold z in B3.
    err (z - 2) B4. rewrite <- B3 in B4. set (u := fsub y (q_frac O 2 1)) in *.
    assert (R1 : -2 <= val u / p <= 0) by (apply div_range; lra).
    destruct (div_in u pw (-8) 0) as [[C1 C2] C3]; try lia; try assumption; try (fold p; lra). fold p in C3. err (val u / p) C4. rewrite <- C3 in C4.
    pose proof (div_move (val u) (z - 2) p e ltac:(lra) ltac:(lra)) as C5. replace (e / p) with dp in C5 by (unfold dp, P; field; lra).
    split; [exact C1 |]. split; [lra |]. unfold lines. destruct (Rle_dec (2 - p) z) as [Q1 | Q1]; [lra |].
    destruct (Rle_dec p z) as [Q2 | Q2]; [| lra]. specialize (Meet z ltac:(lra)). fold L. lra.
  - destruct (Rle_bool_spec p z) as [Hd | Hd].
    + destruct (sub_in y pw 0 8) as [[B1 B2] B3]; try lia; try assumption; [fold z p; lra |]. fold z p in B3. err (z - p) B4. rewrite <- B3 in B4.
      destruct (sub_in (q_frac O 1 1) pw 0 4) as [[D1 D2] D3]; try lia; try assumption; [rewrite V1; fold p; lra |]. rewrite V1 in D3. fold p L in D3.
      err L D4. rewrite <- D3 in D4. set (v := fsub y pw) in *. set (q := fsub (q_frac O 1 1) pw) in *.
      assert (Hq : 0 < val q) by lra. set (r := val v / val q).
      assert (R0 : -1 <= r <= 3) by (unfold r; apply div_range; lra).
      assert (R1 : r * val q = val v) by (unfold r; field; lra).
      assert (G1 : - (32 / 10 * dq) <= r - (z - p) * Q <= 32 / 10 * dq).
      { set (m := (z - p) * Q). assert (M1 : 0 <= m <= 21 / 10) by (unfold m; rewrite <- DQ; apply div_range; lra).
        assert (M2 : m * L = z - p) by (unfold m; rewrite Rmult_assoc, EQ; ring).
        assert (M3 : - (21 / 10 * e) <= m * (val q - L) <= 21 / 10 * e) by (apply prod_in; lra).
        assert (M4 : - (31 / 10 * e) <= (r - m) * val q <= 31 / 10 * e) by lra.
        assert (M5 : 199 / 200 * L <= val q) by lra.
        assert (M6 : dq * L = e) by (unfold dq; rewrite (Rmult_comm Q e), Rmult_assoc, EQ; ring).
        set (g := r - m) in *. replace (31 / 10 * e) with (31 / 10 * dq * L) in M4 by (rewrite <- M6; ring).
        assert (Lq : 0 <= val q) by lra. clearbody g. clear - M4 M5 HL Eq E Lq. split; apply Rnot_lt_le; intros N; nra. }
      destruct (div_in v q (-4) 12) as [[C1 C2] C3]; try lia; try assumption; try lra; [fold r; lra |]. fold r in C3.
      assert (C4 : - (3 * e) <= rnd r - r <= 3 * e) by (apply err_up; lra). rewrite <- C3 in C4.
      assert (M1 : 0 <= (z - p) * Q <= 21 / 10) by (rewrite <- DQ; apply div_range; lra).
      destruct (sub_in (q_frac O 1 1) (fdiv v q) (-8) 8) as [[K1 K2] K3]; try lia; try assumption; [rewrite V1; lra |]. rewrite V1 in K3.
      err (1 - val (fdiv v q)) K4. rewrite <- K3 in K4.
      split; [exact K1 |]. split; [lra |]. unfold lines. fold L. rewrite <- DQ in G1.
      destruct (Rle_dec (2 - p) z) as [Q1 | Q1].
      * specialize (Meet z ltac:(lra)). lra.
      * destruct (Rle_dec p z) as [Q2 | Q2]; [lra | lra].
    + assert (R1 : 0 <= z / p <= 1) by (apply div_range; lra).
      destruct (div_in y pw 0 4) as [[C1 C2] C3]; try lia; try assumption; try (fold p z; lra). fold p z in C3. err (z / p) C4. rewrite <- C3 in C4.
      split; [exact C1 |]. split; [lra |]. unfold lines. destruct (Rle_dec (2 - p) z) as [Q1 | Q1]; [lra |]. destruct (Rle_dec p z); lra.
Qed.

Lemma skew_near : forall t dt pw : fl, phase_ok t -> moving dt -> fin pw -> 1 / 100 <= val pw <= 99 / 100 ->
  let X := / (val pw * (1 - val pw)) in
  Rabs (val (w_tri2 O t dt pw) - w_tri2 RPops (val t) (val dt) (val pw)) <= 8 * e * X ^ 2.
Proof.
  intros t dt pw T M Fp Hp X. destruct (ratio_ok dt M) as (Q1 & Q2 & Q3). pose proof M as [D Dp]. pose proof T as [T1 T2]. pose proof D as [D1 D2].
  assert (Sl : slow (val dt)) by (unfold slow; lra). pose proof (e_small (prec := prec) (emax := emax)) as E.
  destruct (lit_half fpi ftau fsin fcos) as [Fh Vh]. destruct (lit_int fpi ftau fsin fcos 1) as [F1 V1]; [lia |]. destruct (lit_int fpi ftau fsin fcos 2) as [F2 V2]; [lia |].
  unfold w_tri2. rewrite limits by assumption. unq. rewrite limits_exact by lra.
  cbn [q_add Fops q_opp q_sub q_mul q_div q_leb]. unfold Rleb.
  destruct (mul_in t (q_frac O 2 1) 0 8) as [[Y1 Y2] Y3]; try lia; try assumption; [rewrite V2; lra |]. rewrite V2, Rmult_comm, two_exact in Y3.
  destruct (lines_near pw (fmul t (q_frac O 2 1)) Fp Y1 Hp ltac:(lra)) as (G1 & G2 & G3). fold X in G3. rewrite Y3 in G3.
  set (p := val pw) in *. set (Dn := p * (1 - p)) in *. assert (HD : 99 / 10000 <= Dn <= 1 / 4) by
    (unfold Dn; pose proof (Rmult_le_pos (p - 1 / 100) (99 / 100 - p) ltac:(lra) ltac:(lra)); pose proof (pow2_ge_0 (p - 1 / 2)); split; lra).
  assert (EX : X * Dn = 1) by (unfold X; fold Dn; field; lra). assert (BX : 4 <= X <= 102).
  { clearbody X Dn. clear - EX HD. split; apply Rnot_lt_le; intros N; nra. }
  fold (flines pw (fmul t (q_frac O 2 1))). set (y := flines pw (fmul t (q_frac O 2 1))) in *.
  assert (Eg : (if if Rle_dec (2 - p) (val t * 2) then true else false then (val t * 2 - 2) / p
    else if if Rle_dec p (val t * 2) then true else false then 1 - (val t * 2 - p) / (1 - p) else val t * 2 / p) = lines p (2 * val t)).
  { rewrite (Rmult_comm (val t) 2). unfold lines. destruct (Rle_dec (2 - p) (2 * val t)); [reflexivity |]. destruct (Rle_dec p (2 * val t)); reflexivity. }
  rewrite Eg. clear Eg.
  (* the phases of the corners *)
  destruct (mul_in (q_frac O 1 2) pw 0 2) as [[H1 H2] H3]; try lia; try assumption; [rewrite Vh; fold p; lra |]. rewrite Vh in H3. fold p in H3. err (1 / 2 * p) H4. rewrite <- H3 in H4.
  set (h := fmul (q_frac O 1 2) pw) in *.
  destruct (add_in t h 0 8) as [[U1 U2] U3]; try lia; try assumption; [lra |].
  destruct (add_in t (q_frac O 1 1) 4 8) as [[A1 A2] A3]; try lia; try assumption; [rewrite V1; lra |]. rewrite V1 in A3. err (val t + 1) A4. rewrite <- A3 in A4.
  set (a := fadd t (q_frac O 1 1)) in *.
  destruct (sub_in a h 0 8) as [[W1 W2] W3]; try lia; try assumption; [lra |].
  destruct (wrap_ok fpi ftau fsin fcos (fadd t h) U1) as [P1 E1]; [lra |]. rewrite U3 in E1.
  destruct (wrap_ok fpi ftau fsin fcos (fsub a h) W1) as [P2 E2]; [lra |]. rewrite W3 in E2.
  set (t1 := wrap O (fadd t h)) in *. set (t2 := wrap O (fsub a h)) in *.
  pose proof (K_near fpi ftau fsin fcos t1 dt (val t + val h) P1 M ltac:(lra) E1) as N1.
  pose proof (K_near fpi ftau fsin fcos t2 dt (val a - val h) P2 M ltac:(lra) E2) as N2.
  set (z1 := val t + 1 / 2 * p) in *. set (z2 := val t + 1 - 1 / 2 * p) in *.
  assert (N3 : - e <= val dt * (K (val dt) (val t + val h) - K (val dt) z1) <= e).
  { pose proof (K_lip_abs (val dt) (val t + val h) z1 ltac:(lra)) as L1. pose proof (K_lip_abs (val dt) z1 (val t + val h) ltac:(lra)) as L2. rewrite Rabs_minus_sym in L2.
    assert (Rabs (val t + val h - z1) <= e) by (apply Rabs_le; unfold z1; lra). lra. }
  assert (N4 : - (2 * e) <= val dt * (K (val dt) (val a - val h) - K (val dt) z2) <= 2 * e).
  { pose proof (K_lip_abs (val dt) (val a - val h) z2 ltac:(lra)) as L1. pose proof (K_lip_abs (val dt) z2 (val a - val h) ltac:(lra)) as L2. rewrite Rabs_minus_sym in L2.
    assert (Rabs (val a - val h - z2) <= 2 * e) by (apply Rabs_le; unfold z2; lra). lra. }
  destruct (blamp_in fpi ftau fsin fcos t1 dt P1 D) as (B1 & B2 & _). destruct (blamp_in fpi ftau fsin fcos t2 dt P2 D) as (I1 & I2 & _).
  set (b1 := val (blamp O t1 dt)) in *. set (b2 := val (blamp O t2 dt)) in *.
  destruct (sub_in (blamp O t1 dt) (blamp O t2 dt) (-2) 2) as [[S1 S2] S3]; try lia; try assumption; [fold b1 b2; lra |].
  fold b1 b2 in S3. err (b1 - b2) J1. rewrite <- S3 in J1. set (d := fsub (blamp O t1 dt) (blamp O t2 dt)) in *.
  (* the factor *)
  assert (PP : 0 <= p * p <= 1) by (clear - Hp; split; nra).
  destruct (mul_in pw pw 0 4) as [[X1 X2] X3]; try lia; try assumption; [fold p; lra |]. fold p in X3. err (p * p) X4. rewrite <- X3 in X4.
  assert (DD : Dn = p - p * p) by (unfold Dn; ring).
  destruct (sub_in pw (fmul pw pw) (-4) 4) as [[Z1 Z2] Z3]; try lia; try assumption; [fold p; lra |]. fold p in Z3. err (p - val (fmul pw pw)) Z4. rewrite <- Z3 in Z4.
  set (m0 := fsub pw (fmul pw pw)) in *. assert (Z5 : - (2 * e) <= val m0 - Dn <= 2 * e) by lra.
  assert (Z6 : 99 / 100 * Dn <= val m0) by lra.
  set (c0 := val dt / val m0). assert (R1 : c0 * val m0 = val dt) by (unfold c0; field; lra).
  assert (R2 : 0 <= c0 <= X).
  { split; [apply div_nonneg; lra |]. assert (C0 : 0 <= c0) by (apply div_nonneg; lra).
    assert (Dq : val dt <= 1 / 4) by lra. clearbody c0 X Dn. clear - C0 Dq R1 Z6 EX HD BX. apply Rnot_lt_le; intros N.
    assert (c0 * (99 / 100 * Dn) <= 1 / 4) by (eapply Rle_trans; [apply Rmult_le_compat_l with (2 := Z6); exact C0 | lra]).
    assert (X * Dn <= c0 * Dn) by (apply Rmult_le_compat_r; lra). lra. }
  destruct (fdiv_ok dt m0 D1) as [Vc Fc]; [lra | fold c0; apply small_ok; lra |]. fold c0 in Vc. set (c := fdiv dt m0) in *.
  set (w := X * e). assert (Ww : 4 * e <= w <= / 100000).
  { assert (4 * e <= X * e) by (apply Rmult_le_compat_r; lra). assert (X * e <= 102 * e) by (apply Rmult_le_compat_r; lra). unfold w. lra. }
  assert (C1 : - w <= val c - c0 <= w) by (rewrite Vc; unfold w; apply err_up; lra).
  assert (C2 : - (2 * (X * w)) <= c0 - X * val dt <= 2 * (X * w)).
  { (* (c0 - X dt) = c0 X (Dn - m0) *)
    replace (c0 - X * val dt) with (c0 * (X * (Dn - val m0))) by (rewrite <- R1, Rmult_minus_distr_l, EX; ring).
    replace (2 * (X * w)) with (X * (X * (2 * e))) by (unfold w; ring). apply prod_in; [lra |]. apply prod_in; lra. }
  assert (Xw : 4 * w <= X * w) by (apply Rmult_le_compat_r; lra).
  assert (C3 : - (9 / 4 * (X * w)) <= val c - X * val dt <= 9 / 4 * (X * w)) by lra.
  assert (C4 : - (9 / 4 * (X * w) * (1 / 2)) <= (val c - X * val dt) * val d <= 9 / 4 * (X * w) * (1 / 2)) by (apply prod_in; lra).
  assert (C5 : - (2 * X * (1 / 2)) <= val c * val d <= 2 * X * (1 / 2)) by (apply prod_in; lra).
  destruct (fmul_ok c d Fc S1) as [Vx Fx]; [apply small_ok; lra |]. set (x := fmul c d) in *.
  assert (C6 : - w <= val x - val c * val d <= w) by (rewrite Vx; unfold w; apply err_up; lra).
  set (k := val dt * (K (val dt) z1 - K (val dt) z2)).
  assert (C7 : - (1 / 4 * e) <= val dt * (val d - (b1 - b2)) <= 1 / 4 * e) by (apply prod_in; lra).
  assert (C8 : - (41 / 4 * e) <= val dt * val d - k <= 41 / 4 * e) by (unfold k; lra).
  assert (C9 : - (X * (41 / 4 * e)) <= X * (val dt * val d - k) <= X * (41 / 4 * e)) by (apply prod_in; lra).
  destruct (fadd_ok y x G1 Fx) as [Vs Fs]; [apply small_ok; lra |].
  assert (C10 : - (2 * X * e) <= rnd (val y + val x) - (val y + val x) <= 2 * X * e) by (apply err_up; lra). rewrite <- Vs in C10.
  rewrite !K_wrap by (try assumption; unfold z1, z2; lra).
  replace (p - p * p) with Dn by (unfold Dn; ring). replace (val dt / Dn) with (X * val dt) by (unfold X; fold Dn; field; lra).
  replace (8 * e * X ^ 2) with (8 * (X * w)) by (unfold w; ring). fold w in G3.
  assert (Ek : X * val dt * (K (val dt) z1 - K (val dt) z2) = X * k) by (unfold k; ring). rewrite Ek.
  apply Rabs_le. unfold w in *. lra.
Qed.
End Skew.

(** The exact waveform by distance from the corners *)
Lemma exact_skew : forall t dt pw : R, 0 < dt < 1 / 4 -> 0 <= t < 1 -> 1 / 100 <= pw <= 99 / 100 -> w_tri2 RPops t dt pw = round_skew pw dt t.
Proof.
  intros t dt pw D T Hp. assert (Sl : slow dt) by (unfold slow; lra). unfold w_tri2. unq. rewrite limits_exact by lra.
  rewrite !K_wrap by (assumption || lra). unfold round_skew. rewrite !circle_dist by lra.
  replace (t + (1 - pw / 2)) with (t + 1 - 1 / 2 * pw) by lra. replace (t + (1 - (1 - pw / 2))) with (t + 1 / 2 * pw) by lra.
  assert (N : 0 < pw * (1 - pw)) by (apply Rmult_lt_0_compat; lra).
  assert (R : forall x, skew_corner pw dt x = dt / (pw - pw * pw) * BB dt x).
  { intros x. unfold skew_corner, rounding_off, BB. destruct (Rlt_dec x dt); field; repeat split; try lra; nra. }
  rewrite !R. fold (K dt (t + 1 - 1 / 2 * pw)) (K dt (t + 1 / 2 * pw)).
  match goal with |- ?a + _ = _ => assert (F : a = skew pw t) end.
  { unfold Rleb, skew. destruct (Rle_dec (2 - pw) (t * 2)); destruct (Rle_dec pw (t * 2)); destruct (Rle_dec t (pw / 2)); destruct (Rle_dec t (1 - pw / 2)); try lra; try (field; lra).
    - replace t with (1 - pw / 2) by lra. field. lra.
    - replace t with (pw / 2) by lra. field. lra. }
  rewrite F. lra.
Qed.
