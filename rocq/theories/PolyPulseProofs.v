(** Proofs for C98: the distance of the rounded triangular pulse from the exact one. *)
From Coq Require Import Reals Lra Lia ZArith.
From Flocq Require Import Core BinarySingleNaN.
From Verif Require Import Base FloatBase PolyModel PolySpec PolyProofs PolyWave PolyFloatSpec PolyFloatProofs PolyNearProofs PolyTriSpec PolyTriProofs PolyTrapProofs PolyVarProofs PolySkewProofs PolyPulseSpec.
Local Open Scope R_scope.

(** The shape, as a function of the phase since the beginning of the pulse, whole turns included *)
Definition tent (w u : R) : R := Rmax 0 (2 - 4 * dist (u - w / 2) / w) - w.
Lemma dist_shift : forall x n y, x = y + IZR n -> dist x = dist y.
Proof. intros x n y H. unfold dist. rewrite (fr_shift x n y H). reflexivity. Qed.
Lemma tent_shift : forall w x n y, x = y + IZR n -> tent w x = tent w y.
Proof. intros w x n y H. unfold tent. rewrite (dist_shift (x - w / 2) n (y - w / 2)) by lra. reflexivity. Qed.
Lemma tent_lip : forall w x y a, 0 < w -> - a <= x - y <= a -> tent w x - tent w y <= 4 * a / w.
Proof.
  intros w x y a W H. unfold tent. pose proof (dist_lip (y - w / 2) (x - w / 2)) as L. assert (A : Rabs (y - w / 2 - (x - w / 2)) <= a) by (apply Rabs_le; lra).
  set (p := dist (x - w / 2)) in *. set (q := dist (y - w / 2)) in *.
  assert (B : 4 * q / w - 4 * p / w <= 4 * a / w).
  { replace (4 * q / w - 4 * p / w) with (4 * (q - p) / w) by (field; lra). apply Rmult_le_compat_r; [apply Rlt_le, Rinv_0_lt_compat; lra | lra]. }
  assert (C : 0 <= 4 * a / w) by (apply Rmult_le_pos; [lra | apply Rlt_le, Rinv_0_lt_compat; lra]).
  unfold Rmax. destruct (Rle_dec 0 (2 - 4 * p / w)); destruct (Rle_dec 0 (2 - 4 * q / w)); lra.
Qed.
Lemma tent_shape : forall w x, 0 < w <= 1 -> 0 <= x < 1 ->
  (if Rle_dec w x then - w else if Rle_dec (2 * w) (4 * x) then 4 - 4 * x / w - w else 4 * x / w - w) = tent w x.
Proof.
  intros w x W H. unfold tent. destruct (Rle_dec w x) as [L | L].
  - rewrite Rmax_left; [lra |]. assert (D : w / 2 <= dist (x - w / 2)) by (unfold dist; rewrite fr_id by lra; unfold Rmin; destruct (Rle_dec _ _); lra).
    set (d := dist (x - w / 2)) in *. assert (2 <= 4 * d / w); [| lra]. apply Rmult_le_reg_r with w; [lra |]. unfold Rdiv. rewrite Rmult_assoc, Rinv_l by lra. lra.
  - rewrite dist0 by lra. assert (Q : 4 * x / w <= 4) by (apply Rmult_le_reg_r with w; [lra |]; unfold Rdiv; rewrite Rmult_assoc, Rinv_l by lra; lra).
    assert (Q0 : 0 <= 4 * x / w) by (apply Rmult_le_pos; [lra | apply Rlt_le, Rinv_0_lt_compat; lra]).
    destruct (Rle_dec (2 * w) (4 * x)) as [L' | L'].
    + rewrite Rabs_pos_eq by lra. replace (2 - 4 * (x - w / 2) / w) with (4 - 4 * x / w) by (field; lra). rewrite Rmax_right by lra. reflexivity.
    + rewrite Rabs_left by lra. replace (2 - 4 * - (x - w / 2) / w) with (4 * x / w) by (field; lra). rewrite Rmax_right by lra. reflexivity.
Qed.

Section Pulse.
Context {prec emax : Z} {I : ieee prec emax}.
Notation fl := (binary_float prec emax).
Notation rnd := (@rnd prec emax).
Notation e := (bpow radix2 (- prec)).
Ltac err x H := let K := fresh in assert (K : Rabs (rnd x - x) <= e) by (apply err2; lra); apply abs_le in K; rename K into H.
Ltac err4 x H := assert (H : - (4 * e) <= rnd x - x <= 4 * e) by (apply err_up; lra).

Variables (fpi ftau : fl) (fsin fcos : fl -> fl).
Notation O := (Fops fpi ftau fsin fcos).

Definition ftent (pw t1 : fl) : fl :=
  if fleb pw t1 then fneg pw
  else if fleb (fmul (q_frac O 2 1) pw) (fmul (q_frac O 4 1) t1) then fsub (fsub (q_frac O 4 1) (fdiv (fmul (q_frac O 4 1) t1) pw)) pw
       else fsub (fdiv (fmul (q_frac O 4 1) t1) pw) pw.
Lemma tent_near : forall pw t1 : fl, fin pw -> phase_ok t1 -> 1 / 100 <= val pw <= 1 ->
  fin (ftent pw t1) /\ -4 <= val (ftent pw t1) <= 4 /\ - (10 * e) <= val (ftent pw t1) - tent (val pw) (val t1) <= 10 * e.
Proof.
  intros pw t1 Fp [T1 T2] Hp. pose proof (e_small (prec := prec) (emax := emax)) as E.
  destruct (lit_int fpi ftau fsin fcos 2) as [F2 V2]; [lia |]. destruct (lit_int fpi ftau fsin fcos 4) as [F4 V4]; [lia |].
  destruct (mul_in (q_frac O 2 1) pw 0 8) as [[A1 A2] A3]; try lia; try assumption; [rewrite V2; lra |]. rewrite V2, two_exact in A3.
  destruct (mul_in (q_frac O 4 1) t1 0 16) as [[B1 B2] B3]; try lia; try assumption; [rewrite V4; lra |]. rewrite V4, four_exact in B3.
  unfold ftent. rewrite !fleb_ok by assumption. rewrite A3, B3. rewrite <- tent_shape by lra.
  set (q := val pw) in *. set (x := val t1) in *.
  destruct (Rle_dec q x) as [L | L]; [rewrite Rle_bool_true by exact L | rewrite Rle_bool_false by lra].
  - rewrite val_fneg. fold q. split; [apply fin_fneg; exact Fp |]. lra.
  - destruct (Rle_dec (2 * q) (4 * x)) as [L' | L']; [rewrite Rle_bool_true by exact L' | rewrite Rle_bool_false by lra].
    + assert (Q : 2 <= 4 * x / q <= 4) by (apply div_range; lra).
      destruct (div_in (fmul (q_frac O 4 1) t1) pw 0 16) as [[C1 C2] C3]; try lia; try assumption; try (fold q; lra); [rewrite B3; fold q; lra |].
      rewrite B3 in C3. fold q in C3. err4 (4 * x / q) C4. rewrite <- C3 in C4. set (d := fdiv (fmul (q_frac O 4 1) t1) pw) in *.
      destruct (sub_in (q_frac O 4 1) d (-1) 9) as [[D1 D2] D3]; try lia; try assumption; [rewrite V4; lra |]. rewrite V4 in D3.
      assert (D4 : - (5 / 4 * (2 * e)) <= rnd (4 - val d) - (4 - val d) <= 5 / 4 * (2 * e)) by (pose proof (err_up (prec := prec) (emax := emax) (5 / 2) (4 - val d) ltac:(lra) ltac:(lra)); lra).
      rewrite <- D3 in D4. set (f := fsub (q_frac O 4 1) d) in *.
      destruct (sub_in f pw (-8) 10) as [[G1 G2] G3]; try lia; try assumption; [fold q; lra |]. fold q in G3.
      assert (G4 : - (5 / 2 * e) <= rnd (val f - q) - (val f - q) <= 5 / 2 * e) by (apply err_up; lra). rewrite <- G3 in G4. split; [exact G1 |]. split; lra.
    + assert (Q : 0 <= 4 * x / q <= 2) by (apply div_range; lra).
      destruct (div_in (fmul (q_frac O 4 1) t1) pw 0 8) as [[C1 C2] C3]; try lia; try assumption; try (fold q; lra); [rewrite B3; fold q; lra |].
      rewrite B3 in C3. fold q in C3. err (4 * x / q) C4. rewrite <- C3 in C4. set (d := fdiv (fmul (q_frac O 4 1) t1) pw) in *.
      destruct (sub_in d pw (-8) 8) as [[G1 G2] G3]; try lia; try assumption; [fold q; lra |]. fold q in G3. err (val d - q) G4. rewrite <- G3 in G4.
      split; [exact G1 |]. split; lra.
Qed.

(** The correction at a corner whose phase is off by [a] *)
Lemma K_off : forall (t1 dt : fl) r zx a, phase_ok t1 -> moving dt -> val t1 = r - IZR (Zfloor r) -> - a <= r - zx <= a ->
  - (5 / 2 * e + a) <= val dt * val (blamp O t1 dt) - val dt * K (val dt) zx <= 5 / 2 * e + a.
Proof.
  intros t1 dt r zx a P M Er A. destruct (ratio_ok dt M) as (Q1 & Q2 & Q3). pose proof (blamp_near fpi ftau fsin fcos t1 dt P M) as B. pose proof M as [[_ D] Dp].
  assert (Sl : slow (val dt)) by (unfold slow; lra).
  assert (Eb : blamp RPops (val t1) (val dt) = K (val dt) r) by (rewrite Er; change (r - IZR (Zfloor r)) with (fr r); apply blamp_BB; exact Sl).
  rewrite Eb in B. apply abs_le in B.
  pose proof (K_lip_abs (val dt) r zx ltac:(lra)) as L1. pose proof (K_lip_abs (val dt) zx r ltac:(lra)) as L2. rewrite Rabs_minus_sym in L2.
  assert (Rabs (r - zx) <= a) by (apply Rabs_le; lra).
  assert (N : - (val dt * (5 / 2 * ratio dt)) <= val dt * (val (blamp O t1 dt) - K (val dt) r) <= val dt * (5 / 2 * ratio dt)) by (apply prod_in; lra).
  lra.
Qed.

Lemma pulse_near : forall t dt pw : fl, phase_ok t -> moving dt -> fin pw -> 1 / 100 <= val pw <= 1 ->
  Rabs (val (w_trip O t dt pw) - w_trip RPops (val t) (val dt) (val pw)) <= 112 * e / val pw.
Proof.
  intros t dt pw T M Fp Hp. pose proof M as [D Dp]. pose proof T as [T1 T2]. pose proof D as [D1 D2]. assert (Sl : slow (val dt)) by (unfold slow; lra).
  pose proof (e_small (prec := prec) (emax := emax)) as E.
  destruct (lit_half fpi ftau fsin fcos) as [Fh Vh]. destruct (lit_34 fpi ftau fsin fcos) as [Fq Vq].
  destruct (lit_int fpi ftau fsin fcos 0) as [F0 V0]; [lia |]. destruct (lit_int fpi ftau fsin fcos 1) as [F1 V1]; [lia |]. destruct (lit_int fpi ftau fsin fcos 2) as [F2 V2]; [lia |].
  unfold w_trip. unq. rewrite !K_wrap by (assumption || lra). cbn [q_add Fops q_opp q_sub q_mul q_div q_leb q_ltb]. unfold Rleb, Rltb.
  rewrite (fltb_ok (q_frac O 0 1) pw) by assumption. rewrite V0, Rlt_bool_true by lra. rewrite wrap_fr by lra.
  set (p := val pw) in *. set (u := val t + 3 / 4 + 1 / 2 * p) in *. pose proof (fr_range u) as Fu.
  destruct (Rlt_dec 0 p) as [_ | N]; [| lra]. rewrite !K_wrap by (assumption || lra).
  (* the phase since the beginning *)
  destruct (mul_in (q_frac O 1 2) pw 0 2) as [[H1 H2] H3]; try lia; try assumption; [rewrite Vh; fold p; lra |]. rewrite Vh in H3. fold p in H3. err (1 / 2 * p) H4. rewrite <- H3 in H4.
  set (h := fmul (q_frac O 1 2) pw) in *.
  destruct (add_in t (q_frac O 3 4) 3 7) as [[A1 A2] A3]; try lia; try assumption; [rewrite Vq; lra |]. rewrite Vq in A3. err (val t + 3 / 4) A4. rewrite <- A3 in A4.
  set (a := fadd t (q_frac O 3 4)) in *.
  assert (Hh : 0 <= val h <= 1 / 2) by lra. assert (Ha : 3 / 4 <= val a <= 7 / 4) by lra.
  destruct (add_in a h 3 9) as [[B1 B2] B3]; try lia; try assumption; [lra |].
  assert (B4 : - (9 / 4 * e) <= rnd (val a + val h) - (val a + val h) <= 9 / 4 * e) by (apply err_up; lra).
  set (r := rnd (val a + val h)) in *.
  destruct (wrap_ok fpi ftau fsin fcos (fadd a h) B1) as [P1 E1]; [lra |]. rewrite B3 in E1. fold r in E1.
  set (t1 := wrap O (fadd a h)) in *. pose proof P1 as [I1 I2].
  assert (Ru : - (17 / 4 * e) <= r - u <= 17 / 4 * e) by (unfold u; lra).
  destruct (tent_near pw t1 Fp P1 Hp) as (Y1 & Y2 & Y3). fold p in Y3. fold (ftent pw t1). set (y := ftent pw t1) in *.
  assert (Eg : (if if Rle_dec p (fr u) then true else false then - p
    else if if Rle_dec (2 * p) (4 * fr u) then true else false then 4 - 4 * fr u / p - p else 4 * fr u / p - p) = tent p u).
  { rewrite (tent_shift p u (Zfloor u) (fr u)) by (unfold fr; lra). rewrite <- tent_shape by lra.
    destruct (Rle_dec p (fr u)); [reflexivity |]. destruct (Rle_dec (2 * p) (4 * fr u)); reflexivity. }
  rewrite Eg. clear Eg. rewrite (tent_shift p (val t1) (- Zfloor r) r) in Y3 by (rewrite E1, opp_IZR; lra).
  pose proof (tent_lip p r u (17 / 4 * e) ltac:(lra) Ru) as L1. pose proof (tent_lip p u r (17 / 4 * e) ltac:(lra) ltac:(lra)) as L2.
  set (X := / p) in *. assert (EX : X * p = 1) by (unfold X; field; lra). assert (BX : 1 <= X <= 100).
  { clearbody X. clear - EX Hp. split; apply Rnot_lt_le; intros N; nra. }
  set (w := X * e). assert (Ww : e <= w <= / 100000).
  { assert (1 * e <= X * e) by (apply Rmult_le_compat_r; lra). assert (X * e <= 100 * e) by (apply Rmult_le_compat_r; lra). unfold w. lra. }
  assert (EL : 4 * (17 / 4 * e) / p = 17 * w) by (unfold w, X; field; lra). rewrite EL in L1, L2.
  (* the corners *)
  destruct (add_in t1 (q_frac O 1 1) 4 8) as [[C1 C2] C3]; try lia; try assumption; [rewrite V1; lra |]. rewrite V1 in C3. err (val t1 + 1) C4. rewrite <- C3 in C4.
  set (b := fadd t1 (q_frac O 1 1)) in *.
  destruct (sub_in b h 2 8) as [[J1 J2] J3]; try lia; try assumption; [lra |]. err (val b - val h) J4.
  destruct (sub_in b pw 0 8) as [[K1 K2] K3]; try lia; try assumption; [fold p; lra |]. fold p in K3. err (val b - p) K4.
  destruct (wrap_ok fpi ftau fsin fcos (fsub b h) J1) as [P2 E2]; [lra |]. rewrite J3 in E2.
  destruct (wrap_ok fpi ftau fsin fcos (fsub b pw) K1) as [P3 E3]; [lra |]. rewrite K3 in E3.
  set (t2 := wrap O (fsub b h)) in *. set (t3 := wrap O (fsub b pw)) in *.
  pose proof (K_off t1 dt r u (17 / 4 * e) P1 M E1 Ru) as N1.
  assert (S2 : K (val dt) (fr u + 1 - 1 / 2 * p) = K (val dt) (val t1 + (u - r) + 1 - 1 / 2 * p)).
  { apply (K_shift _ _ (Zfloor r - Zfloor u)). rewrite minus_IZR. unfold fr. rewrite E1. lra. }
  assert (S3 : K (val dt) (fr u + 1 - p) = K (val dt) (val t1 + (u - r) + 1 - p)).
  { apply (K_shift _ _ (Zfloor r - Zfloor u)). rewrite minus_IZR. unfold fr. rewrite E1. lra. }
  rewrite S2, S3. set (u2 := val t1 + (u - r) + 1 - 1 / 2 * p). set (u3 := val t1 + (u - r) + 1 - p).
  pose proof (K_off t2 dt _ u2 (29 / 4 * e) P2 M E2 ltac:(unfold u2; lra)) as N2.
  pose proof (K_off t3 dt _ u3 (25 / 4 * e) P3 M E3 ltac:(unfold u3; lra)) as N3.
  destruct (blamp_in fpi ftau fsin fcos t1 dt P1 D) as (U1 & U2 & _). destruct (blamp_in fpi ftau fsin fcos t2 dt P2 D) as (U3 & U4 & _). destruct (blamp_in fpi ftau fsin fcos t3 dt P3 D) as (U5 & U6 & _).
  set (b1 := val (blamp O t1 dt)) in *. set (b2 := val (blamp O t2 dt)) in *. set (b3 := val (blamp O t3 dt)) in *.
  destruct (mul_in (q_frac O 2 1) (blamp O t2 dt) 0 4) as [[Q1 Q2] Q3]; try lia; try assumption; [rewrite V2; fold b2; lra |]. rewrite V2, two_exact in Q3. fold b2 in Q3.
  destruct (sub_in (blamp O t1 dt) (fmul (q_frac O 2 1) (blamp O t2 dt)) (-4) 2) as [[G1 G2] G3]; try lia; try assumption; [fold b1; lra |]. fold b1 in G3. rewrite Q3 in G3.
  err (b1 - 2 * b2) G4. rewrite <- G3 in G4. set (f := fsub (blamp O t1 dt) (fmul (q_frac O 2 1) (blamp O t2 dt))) in *.
  destruct (add_in f (blamp O t3 dt) (-4) 4) as [[Z1 Z2] Z3]; try lia; try assumption; [fold b3; lra |]. fold b3 in Z3.
  err (val f + b3) Z4. rewrite <- Z3 in Z4. set (g := fadd f (blamp O t3 dt)) in *.
  set (k := K (val dt) u - 2 * K (val dt) u2 + K (val dt) u3).
  assert (N4 : - (1 / 4 * (2 * e)) <= val dt * (val g - (b1 - 2 * b2 + b3)) <= 1 / 4 * (2 * e)) by (apply prod_in; lra).
  assert (N5 : - (36 * e) <= val dt * (val g - k) <= 36 * e) by (unfold k; lra).
  assert (N6 : - (2 * X * (36 * e)) <= 2 * X * (val dt * (val g - k)) <= 2 * X * (36 * e)) by (apply prod_in; lra).
  (* the factor *)
  destruct (mul_in (q_frac O 2 1) dt 0 2) as [[O1 O2] O3]; try lia; try assumption; [rewrite V2; lra |]. rewrite V2, two_exact in O3.
  set (c0 := 2 * val dt / p). assert (R2 : 0 <= c0 <= X).
  { assert (c0 = X * (2 * val dt)) as -> by (unfold c0, X; field; lra). split; [apply Rmult_le_pos; lra |]. rewrite <- (Rmult_1_r X) at 2. apply Rmult_le_compat_l; lra. }
  destruct (fdiv_ok (fmul (q_frac O 2 1) dt) pw O1) as [Vc Fc]; [fold p; lra | rewrite O3; fold p; fold c0; apply small_ok; lra |]. rewrite O3 in Vc. fold p in Vc. fold c0 in Vc. set (c := fdiv (fmul (q_frac O 2 1) dt) pw) in *.
  assert (R3 : - w <= val c - c0 <= w) by (rewrite Vc; unfold w; apply err_up; lra).
  assert (R4 : - (w * 1) <= (val c - c0) * val g <= w * 1) by (apply prod_in; lra).
  assert (R5 : - (2 * X * 1) <= val c * val g <= 2 * X * 1) by (apply prod_in; lra).
  destruct (fmul_ok c g Fc Z1) as [Vx Fx]; [apply small_ok; lra |]. set (x := fmul c g) in *.
  assert (R6 : - (2 * X * e) <= val x - val c * val g <= 2 * X * e) by (rewrite Vx; apply err_up; lra).
  assert (Xe : X * e <= / 100000) by (unfold w in Ww; lra).
  destruct (fadd_ok y x Y1 Fx) as [Vs Fs]; [apply small_ok; lra |].
  assert (R7 : - (7 * X * e) <= rnd (val y + val x) - (val y + val x) <= 7 * X * e) by (apply err_up; unfold w in *; lra). rewrite <- Vs in R7.
  assert (Ec : c0 * val g - c0 * k = 2 * X * (val dt * (val g - k))) by (unfold c0, X; field; lra).
  replace (112 * e / p) with (112 * w) by (unfold w, X; field; lra). fold k.
  apply Rabs_le. unfold w in *. lra.
Qed.
End Pulse.

(** The exact waveform by distance from the corners *)
Lemma corner_K : forall w dt x, 0 < w -> 0 < dt -> pulse_corner w dt (dist x) = 2 * dt / w * K dt x.
Proof. intros w dt x W D. unfold pulse_corner, K, BB. destruct (Rlt_dec (dist x) dt); field; lra. Qed.
Lemma exact_pulse : forall t dt pw : R, 0 < dt < 1 / 4 -> 0 <= t < 1 -> 0 < pw <= 1 -> w_trip RPops t dt pw = round_pulse pw dt t.
Proof.
  intros t dt pw D T Hp. assert (Sl : slow dt) by (unfold slow; lra). unfold w_trip. unq. rewrite K_wrap by (assumption || lra). rewrite wrap_fr by lra.
  set (u := t + 3 / 4 + 1 / 2 * pw) in *. pose proof (fr_range u) as Fu. unfold Rleb, Rltb. destruct (Rlt_dec 0 pw) as [_ | N]; [| lra].
  rewrite !K_wrap by (assumption || lra). rewrite (K_shift dt (fr u + 1 - 1 / 2 * pw) (- Zfloor u) (t + 3 / 4 + 1)) by (rewrite opp_IZR; unfold fr, u; lra).
  rewrite (K_shift dt (fr u + 1 - pw) (- Zfloor u) (t + 3 / 4 + 1 - 1 / 2 * pw)) by (rewrite opp_IZR; unfold fr, u; lra).
  rewrite (K_shift dt (t + 3 / 4 + 1) 1 (t + 3 / 4)) by lra.
  match goal with |- ?a + _ = _ => assert (F : a = pulse pw t) end.
  { transitivity (tent pw u).
    - rewrite (tent_shift pw u (Zfloor u) (fr u)) by (unfold fr; lra). rewrite <- tent_shape by lra.
      destruct (Rle_dec pw (fr u)); [reflexivity |]. destruct (Rle_dec (2 * pw) (4 * fr u)); reflexivity.
    - unfold tent, pulse. rewrite circle_dist by lra. replace (u - pw / 2) with (t + (1 - 1 / 4)) by (unfold u; lra). reflexivity. }
  rewrite F. unfold round_pulse. assert (B : 0 <= pulse_start pw < 1) by (unfold pulse_start; destruct (Rle_dec (pw / 2) (1 / 4)); lra).
  rewrite !circle_dist by lra. rewrite !corner_K by lra.
  replace (t + (1 - 1 / 4)) with (t + 3 / 4) by lra. rewrite (K_shift dt (t + 3 / 4 + 1 - 1 / 2 * pw) 1 (t + (1 - (1 / 4 + pw / 2)))) by lra.
  assert (S : K dt (t + (1 - pulse_start pw)) = K dt u).
  { unfold pulse_start. destruct (Rle_dec (pw / 2) (1 / 4)); [apply (K_shift dt _ 0); unfold u; lra |]. apply (K_shift dt _ (-1)); unfold u; lra. }
  rewrite S. ring.
Qed.
