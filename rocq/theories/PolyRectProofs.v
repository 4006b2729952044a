(** Proofs for C97: the distance of the rounded rectified sines from the exact ones. *)
From Coq Require Import Reals Lra Lia ZArith.
From Flocq Require Import Core BinarySingleNaN.
From Verif Require Import Base FloatBase PanProofs PolyModel PolySpec PolyProofs PolyWave PolyFloatSpec PolyFloatProofs PolyNearProofs PolyTriProofs PolyTrapProofs PolyVarProofs PolyRectSpec.
Local Open Scope R_scope.

(** [sin] of half a turn is the absolute value outside of the first. *)
Lemma abs_sin : forall x, 0 <= x <= 2 -> sin (fr x * PI) = Rabs (sin (PI * x)).
Proof.
  intros x H. pose proof PI_3_4 as P. destruct (Rlt_le_dec x 1) as [L | L].
  - rewrite fr_id by lra. rewrite (Rmult_comm PI x). rewrite Rabs_pos_eq; [reflexivity |]. apply sin_ge_0; nra.
  - destruct (Rlt_le_dec x 2) as [L' | L'].
    + rewrite (fr_shift x 1 (x - 1)) by lra. rewrite fr_id by lra. replace (PI * x) with ((x - 1) * PI + PI) by ring.
      rewrite neg_sin, Rabs_Ropp, Rabs_pos_eq; [reflexivity |]. apply sin_ge_0; nra.
    + replace x with 2 by lra. rewrite (fr_shift 2 2 0) by lra. rewrite fr_id by lra. rewrite Rmult_0_l, sin_0.
      rewrite (Rmult_comm PI 2), sin_2PI, Rabs_R0. reflexivity.
Qed.

Section Rect.
Context {prec emax : Z} {I : ieee prec emax}.
Notation fl := (binary_float prec emax).
Notation rnd := (@rnd prec emax).
Notation e := (bpow radix2 (- prec)).
Ltac err x H := let K := fresh in assert (K : Rabs (rnd x - x) <= e) by (apply err2; lra); apply abs_le in K; rename K into H.
Ltac err4 x H := assert (H : - (4 * e) <= rnd x - x <= 4 * e) by (apply err_up; lra).

Variables (fpi ftau : fl) (fsin fcos : fl -> fl) (delta : R).
Notation O := (Fops fpi ftau fsin fcos).
Hypothesis G : platform delta fpi ftau fsin.

(** The constants and quotients of them *)
Lemma consts : fin fpi /\ 314 / 100 <= val fpi <= 315 / 100 /\ - (4 * e) <= val fpi - PI <= 4 * e /\
  fin ftau /\ 628 / 100 <= val ftau <= 630 / 100 /\ - (8 * e) <= val ftau - 2 * PI <= 8 * e.
Proof.
  destruct G as (A & B & C & D & _). apply abs_le in B, D. pose proof pi_bounds. pose proof (e_small (prec := prec) (emax := emax)). repeat split; (assumption || lra).
Qed.
Lemma over_pi : forall k : fl, fin k -> -4 <= val k <= 4 -> fin (fdiv k fpi) /\ -2 <= val (fdiv k fpi) <= 2 /\ - (3 * e) <= val (fdiv k fpi) - val k / PI <= 3 * e.
Proof.
  intros k F H. destruct consts as (A & B & C & _). pose proof pi_bounds as P. pose proof (e_small (prec := prec) (emax := emax)) as E.
  assert (Q : -3 / 2 <= val k / val fpi <= 3 / 2).
  { split; apply Rmult_le_reg_r with (val fpi); try lra; unfold Rdiv at 1 2; rewrite ?(Rmult_assoc (val k)), ?Rinv_l by lra; try lra;
    unfold Rdiv; rewrite ?Rmult_assoc, ?Rinv_l by lra; lra. }
  destruct (div_in k fpi (-8) 8) as [[V1 V2] V3]; try lia; try assumption; try lra.
  err (val k / val fpi) V4. rewrite <- V3 in V4. split; [exact V1 |]. split; [lra |].
  assert (D : val k / val fpi - val k / PI = (PI - val fpi) * (val k / val fpi * / PI)) by (field; lra).
  assert (J : 0 <= / PI <= 1 / 3).
  { split; [apply Rlt_le, Rinv_0_lt_compat; lra |]. replace (1 / 3) with (/ 3) by lra. apply Rinv_le_contravar; lra. }
  assert (L : - (3 / 2 * (1 / 3)) <= val k / val fpi * / PI <= 3 / 2 * (1 / 3)) by (apply prod_in; lra).
  assert (M : - (4 * e * (3 / 2 * (1 / 3))) <= (PI - val fpi) * (val k / val fpi * / PI) <= 4 * e * (3 / 2 * (1 / 3))) by (apply prod_in; lra).
  lra.
Qed.
(** The factor of the corners, and a corner *)
Lemma factor : forall dt : fl, moving dt -> fin (fmul ftau dt) /\ 0 <= val (fmul ftau dt) <= 8 / 5 /\ - (3 * e) <= val (fmul ftau dt) - 2 * PI * val dt <= 3 * e.
Proof.
  intros dt [[D1 D2] D3]. destruct consts as (_ & _ & _ & A & B & C). pose proof (e_small (prec := prec) (emax := emax)) as E.
  assert (Q : 0 <= val ftau * val dt <= 158 / 100) by (split; nra).
  destruct (mul_in ftau dt 0 8) as [[V1 V2] V3]; try lia; try assumption; [lra |]. err (val ftau * val dt) V4. rewrite <- V3 in V4.
  assert (M : - (8 * e * (1 / 4)) <= (val ftau - 2 * PI) * val dt <= 8 * e * (1 / 4)) by (apply prod_in; lra).
  split; [exact V1 |]. lra.
Qed.
Lemma corner : forall (c d : R) b k, - (3 * e) <= c - 2 * PI * d <= 3 * e -> 0 <= b <= 1 -> forall a, - a <= d * (b - k) <= a -> 0 <= a ->
  - (3 * e + 63 / 10 * a) <= c * b - 2 * PI * d * k <= 3 * e + 63 / 10 * a.
Proof.
  intros c d b k C B a A A0. pose proof pi_bounds as P. pose proof (e_small (prec := prec) (emax := emax)) as E.
  assert (M : - (3 * e * 1) <= (c - 2 * PI * d) * b <= 3 * e * 1) by (apply prod_in; lra).
  assert (N : - (63 / 10 * a) <= 2 * PI * (d * (b - k)) <= 63 / 10 * a) by (apply prod_in; lra).
  lra.
Qed.

Lemma full_near : forall t dt : fl, phase_ok t -> moving dt ->
  Rabs (val (w_full O t dt) - w_full RPops (val t) (val dt)) <= 80 * e + 2 * delta.
Proof.
  intros t dt T M. pose proof M as [D Dp]. pose proof T as [T1 T2]. pose proof D as [D1 D2]. assert (Sl : slow (val dt)) by (unfold slow; lra).
  pose proof (e_small (prec := prec) (emax := emax)) as E. pose proof pi_bounds as PB. destruct consts as (P1 & P2 & P3 & _).
  destruct (lit_14 fpi ftau fsin fcos) as [Fq Vq]. destruct (lit_int fpi ftau fsin fcos 2) as [F2 V2]; [lia |]. destruct (lit_int fpi ftau fsin fcos 4) as [F4 V4]; [lia |].
  destruct (wrap_add fpi ftau fsin fcos t 1 (q_frac O 1 4) T Fq) as [H1 E1]; [lia | rewrite Vq; lra |]. rewrite Vq in E1.
  unfold w_full. unq. rewrite !K_wrap by (assumption || lra). rewrite wrap_fr by lra. cbn [q_add Fops q_sub q_mul q_div q_pi q_tau q_sin].
  set (t1 := wrap O (fadd t (q_frac O 1 4))) in *. pose proof (K_near fpi ftau fsin fcos t1 dt (val t + 1 / 4) H1 M ltac:(lra) E1) as N1.
  destruct (blamp_in fpi ftau fsin fcos t1 dt H1 D) as (B1 & B2 & _). destruct H1 as [H1 H2].
  (* the sine *)
  assert (X0 : 0 <= val t1 * val fpi <= 32 / 10) by (split; nra).
  destruct (mul_in t1 fpi 0 16) as [[X1 X2] X3]; try lia; try assumption; [lra |]. err4 (val t1 * val fpi) X4. rewrite <- X3 in X4. set (x := fmul t1 fpi) in *.
  destruct G as (_ & _ & _ & _ & Gs). destruct (Gs x X1 ltac:(lra)) as (S1 & S2 & S3). apply abs_le in S3.
  assert (X5 : - (1 * (4 * e)) <= val t1 * (val fpi - PI) <= 1 * (4 * e)) by (apply prod_in; lra).
  pose proof (proj1 (sin_cos_slow (val x) (val t1 * PI))) as X6.
  assert (X7 : Rabs (val x - val t1 * PI) <= 8 * e) by (apply Rabs_le; lra).
  assert (X8 : - (8 * e) <= sin (val x) - sin (val t1 * PI) <= 8 * e) by (apply abs_le; lra).
  err (val t + 1 / 4) X9. assert (Z0 : 0 <= rnd (val t + 1 / 4) <= 2) by lra.
  assert (X10 : - (4 * e) <= sin (val t1 * PI) - sin (fr (val t + 1 / 4) * PI) <= 4 * e).
  { rewrite E1. change (rnd (val t + 1 / 4) - IZR (Zfloor (rnd (val t + 1 / 4)))) with (fr (rnd (val t + 1 / 4))).
    rewrite !abs_sin by lra. apply abs_le. eapply Rle_trans; [apply Rabs_triang_inv2 |]. eapply Rle_trans; [apply sin_cos_slow |].
    rewrite <- Rmult_minus_distr_l. assert (- (4 * e) <= PI * (rnd (val t + 1 / 4) - (val t + 1 / 4)) <= 4 * e) by (apply prod_in; lra). apply Rabs_le. lra. }
  set (s := fsin x) in *. set (sx := sin (fr (val t + 1 / 4) * PI)) in *. clearbody sx.
  destruct (mul_in (q_frac O 2 1) s (-8) 8) as [[M1 M2] M3]; try lia; try assumption; [rewrite V2; lra |]. rewrite V2, two_exact in M3.
  destruct (over_pi (q_frac O 4 1) F4 ltac:(lra)) as (O1 & O2 & O3). rewrite V4 in O3.
  destruct (sub_in (fmul (q_frac O 2 1) s) (fdiv (q_frac O 4 1) fpi) (-16) 16) as [[Y1 Y2] Y3]; try lia; try assumption; [lra |].
  err4 (val (fmul (q_frac O 2 1) s) - val (fdiv (q_frac O 4 1) fpi)) Y4. rewrite <- Y3 in Y4.
  (* the corner *)
  destruct (factor dt M) as (C1 & C2 & C3). set (b := val (blamp O t1 dt)) in *. set (k := K (val dt) (val t + 1 / 4)) in *.
  pose proof (corner _ _ b k C3 ltac:(lra) (7 / 2 * e) N1 ltac:(lra)) as C4.
  assert (C5 : 0 <= val (fmul ftau dt) * b <= 1) by (split; nra).
  destruct (mul_in (fmul ftau dt) (blamp O t1 dt) 0 4) as [[W1 W2] W3]; try lia; try assumption; [fold b; lra |]. fold b in W3.
  err (val (fmul ftau dt) * b) W4. rewrite <- W3 in W4.
  destruct (fadd_ok (fsub (fmul (q_frac O 2 1) s) (fdiv (q_frac O 4 1) fpi)) (fmul (fmul ftau dt) (blamp O t1 dt)) Y1 W1) as [R1 _]; [apply small_ok; lra |].
  assert (R2 : - (6 * e) <= rnd (val (fsub (fmul (q_frac O 2 1) s) (fdiv (q_frac O 4 1) fpi)) + val (fmul (fmul ftau dt) (blamp O t1 dt))) - (val (fsub (fmul (q_frac O 2 1) s) (fdiv (q_frac O 4 1) fpi)) + val (fmul (fmul ftau dt) (blamp O t1 dt))) <= 6 * e) by (apply err_up; lra).
  rewrite <- R1 in R2. apply Rabs_le. lra.
Qed.

Lemma half_near : forall t dt : fl, phase_ok t -> moving dt ->
  Rabs (val (w_half O t dt) - w_half RPops (val t) (val dt)) <= 80 * e + 2 * delta.
Proof.
  intros t dt T M. pose proof M as [D Dp]. pose proof T as [T1 T2]. pose proof D as [D1 D2]. assert (Sl : slow (val dt)) by (unfold slow; lra).
  pose proof (e_small (prec := prec) (emax := emax)) as E. pose proof pi_bounds as PB. destruct consts as (_ & _ & _ & P1 & P2 & P3).
  destruct (lit_half fpi ftau fsin fcos) as [Fh Vh]. destruct (lit_int fpi ftau fsin fcos 2) as [F2 V2]; [lia |].
  destruct (wrap_plus fpi ftau fsin fcos t (q_frac O 1 2) T Fh) as [H1 E1]; [rewrite Vh; lra |]. rewrite Vh in E1.
  assert (E0 : val t = rnd (val t) - IZR (Zfloor (rnd (val t)))).
  { rewrite rnd_val. change (val t - IZR (Zfloor (val t))) with (fr (val t)). symmetry. apply fr_id. exact T2. }
  assert (Kt : blamp RPops (val t) (val dt) = K (val dt) (val t)).
  { rewrite <- (fr_id (val t) T2) at 1. rewrite <- wrap_fr by lra. apply K_wrap; [exact Sl | lra]. }
  unfold w_half. unq. rewrite Kt, !K_wrap by (assumption || lra). cbn [q_add Fops q_sub q_mul q_div q_opp q_ltb q_pi q_tau q_sin]. unfold Rltb.
  set (t2 := wrap O (fadd t (q_frac O 1 2))) in *. pose proof (K_near fpi ftau fsin fcos t2 dt (val t + 1 / 2) H1 M ltac:(lra) E1) as N2.
  pose proof (K_near fpi ftau fsin fcos t dt (val t) T M ltac:(lra) E0) as N1.
  destruct (blamp_in fpi ftau fsin fcos t2 dt H1 D) as (I1 & I2 & _). destruct (blamp_in fpi ftau fsin fcos t dt T D) as (B1 & B2 & _).
  (* the sine *)
  set (y := if fltb t (q_frac O 1 2) then fsub (fmul (q_frac O 2 1) (fsin (fmul t ftau))) (fdiv (q_frac O 2 1) fpi) else fdiv (fneg (q_frac O 2 1)) fpi).
  set (g := if if Rlt_dec (val t) (1 / 2) then true else false then 2 * sin (val t * (2 * PI)) - 2 / PI else - (2) / PI).
  assert (Dl : 0 <= delta).
  { destruct G as (_ & _ & _ & _ & Gs). destruct (Gs fzero eq_refl) as (_ & _ & Q); [cbn; lra |]. eapply Rle_trans; [apply Rabs_pos | exact Q]. }
  assert (Y : fin y /\ -4 <= val y <= 4 /\ - (24 * e + 2 * delta) <= val y - g <= 24 * e + 2 * delta).
  { unfold y, g. rewrite fltb_ok by assumption. rewrite Vh. destruct (Rlt_dec (val t) (1 / 2)) as [L | L].
    - rewrite Rlt_bool_true by exact L. assert (X0 : 0 <= val t * val ftau <= 32 / 10) by (split; nra).
      destruct (mul_in t ftau 0 16) as [[X1 X2] X3]; try lia; try assumption; [lra |]. err4 (val t * val ftau) X4. rewrite <- X3 in X4. set (x := fmul t ftau) in *.
      destruct G as (_ & _ & _ & _ & Gs). destruct (Gs x X1 ltac:(lra)) as (S1 & S2 & S3). apply abs_le in S3.
      assert (X5 : - (1 / 2 * (8 * e)) <= val t * (val ftau - 2 * PI) <= 1 / 2 * (8 * e)) by (apply prod_in; lra).
      pose proof (proj1 (sin_cos_slow (val x) (val t * (2 * PI)))) as X6.
      assert (X7 : Rabs (val x - val t * (2 * PI)) <= 8 * e) by (apply Rabs_le; lra).
      assert (X8 : - (8 * e) <= sin (val x) - sin (val t * (2 * PI)) <= 8 * e) by (apply abs_le; lra).
      set (s := fsin x) in *. destruct (mul_in (q_frac O 2 1) s (-8) 8) as [[M1 M2] M3]; try lia; try assumption; [rewrite V2; lra |]. rewrite V2, two_exact in M3.
      destruct (over_pi (q_frac O 2 1) F2 ltac:(lra)) as (O1 & O2 & O3). rewrite V2 in O3.
      destruct (sub_in (fmul (q_frac O 2 1) s) (fdiv (q_frac O 2 1) fpi) (-16) 16) as [[Y1 Y2] Y3]; try lia; try assumption; [lra |].
      err4 (val (fmul (q_frac O 2 1) s) - val (fdiv (q_frac O 2 1) fpi)) Y4. rewrite <- Y3 in Y4.
      split; [exact Y1 |]. split; lra.
    - rewrite Rlt_bool_false by lra. assert (Fo : fin (fneg (q_frac O 2 1))) by (apply fin_fneg; exact F2).
      assert (Vo : val (fneg (q_frac O 2 1)) = - (2)) by (rewrite val_fneg, V2; reflexivity).
      destruct (over_pi (fneg (q_frac O 2 1)) Fo ltac:(lra)) as (O1 & O2 & O3). rewrite Vo in O3. split; [exact O1 |]. lra. }
  destruct Y as (Y1 & Y2 & Y3). fold y. clearbody y g.
  (* the corners *)
  destruct (factor dt M) as (C1 & C2 & C3). set (b1 := val (blamp O t dt)) in *. set (b2 := val (blamp O t2 dt)) in *.
  destruct (add_in (blamp O t dt) (blamp O t2 dt) 0 4) as [[S1 S2] S3]; try lia; try assumption; [fold b1 b2; lra |]. fold b1 b2 in S3.
  err (b1 + b2) S4. rewrite <- S3 in S4. set (b := fadd (blamp O t dt) (blamp O t2 dt)) in *.
  set (k := K (val dt) (val t) + K (val dt) (val t + 1 / 2)) in *.
  assert (N3 : - (1 / 4 * e) <= val dt * (val b - (b1 + b2)) <= 1 / 4 * e) by (apply prod_in; lra).
  assert (N : - (29 / 4 * e) <= val dt * (val b - k) <= 29 / 4 * e) by (unfold k; lra).
  pose proof (corner _ _ (val b) k C3 ltac:(lra) (29 / 4 * e) N ltac:(lra)) as C4.
  assert (C5 : 0 <= val (fmul ftau dt) * val b <= 8 / 5) by (split; nra).
  destruct (mul_in (fmul ftau dt) b 0 8) as [[W1 W2] W3]; try lia; try assumption; [lra |].
  err (val (fmul ftau dt) * val b) W4. rewrite <- W3 in W4.
  destruct (fadd_ok y (fmul (fmul ftau dt) b) Y1 W1) as [R1 _]; [apply small_ok; lra |].
  assert (R2 : - (6 * e) <= rnd (val y + val (fmul (fmul ftau dt) b)) - (val y + val (fmul (fmul ftau dt) b)) <= 6 * e) by (apply err_up; lra).
  rewrite <- R1 in R2. apply Rabs_le. lra.
Qed.
End Rect.

(** The exact waveforms by distance from the corners *)
Lemma filling_K : forall dt x, 0 < dt -> filling dt (dist x) = 2 * PI * dt * K dt x.
Proof. intros dt x D. unfold filling, K, BB. destruct (Rlt_dec (dist x) dt); [field; lra | ring]. Qed.
Lemma exact_full : forall t dt : R, 0 < dt < 1 / 4 -> 0 <= t < 1 -> w_full RPops t dt = round_full dt t.
Proof.
  intros t dt D T. assert (Sl : slow dt) by (unfold slow; lra). unfold w_full. unq. rewrite K_wrap by (assumption || lra). rewrite wrap_fr by lra.
  rewrite abs_sin by lra. unfold round_full, full_sine. rewrite circle_dist by lra. replace (t + (1 - 3 / 4)) with (t + 1 / 4) by lra.
  rewrite filling_K by lra. reflexivity.
Qed.
Lemma exact_half : forall t dt : R, 0 < dt < 1 / 4 -> 0 <= t < 1 -> w_half RPops t dt = round_half dt t.
Proof.
  intros t dt D T. assert (Sl : slow dt) by (unfold slow; lra). pose proof PI_3_4 as P.
  assert (Kt : blamp RPops t dt = K dt t). { rewrite <- (fr_id t T) at 1. rewrite <- wrap_fr by lra. apply K_wrap; [exact Sl | lra]. }
  unfold w_half. unq. rewrite Kt, K_wrap by (assumption || lra). unfold round_half, half_sine. rewrite !circle_dist by lra. rewrite !filling_K by lra.
  rewrite (K_shift dt (t + (1 - 0)) 1 t) by lra. replace (t + (1 - 1 / 2)) with (t + 1 / 2) by lra. unfold Rltb.
  replace (t * (2 * PI)) with (2 * PI * t) by ring. destruct (Rlt_dec t (1 / 2)) as [L | L].
  - rewrite Rmax_right by (apply sin_ge_0; nra). ring.
  - rewrite Rmax_left; [field; lra |]. apply sin_le_0; nra.
Qed.
