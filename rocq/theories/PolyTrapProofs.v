(** Proofs for C94: the distance of the rounded fixed trapezoid from the exact one. *)
From Coq Require Import Reals Lra Lia ZArith.
From Flocq Require Import Core BinarySingleNaN Mult_error.
From Verif Require Import Base FloatBase PolyModel PolySpec PolyProofs PolyWave PolyFloatSpec PolyFloatProofs PolyNearProofs PolyTriSpec PolyTriProofs PolyTrapSpec.
Local Open Scope R_scope.

Section Trap.
Context {prec emax : Z} {I : ieee prec emax}.
Notation fl := (binary_float prec emax).
Notation rnd := (@rnd prec emax).
Notation e := (bpow radix2 (- prec)).
Ltac err x H := let K := fresh in assert (K : Rabs (rnd x - x) <= e) by (apply err2; first [lra | split; nra]); apply abs_le in K; rename K into H.

Lemma two_exact : forall x : fl, rnd (2 * val x) = 2 * val x.
Proof.
  intros x. apply rnd_format. replace (2 * val x) with (val x * bpow radix2 1) by (change (bpow radix2 1) with 2; ring).
  pose proof (generic_format_B2R prec emax x) as G.
  assert (P : Prec_gt_0 prec) by (unfold Prec_gt_0; destruct I; lia).
  apply (mult_bpow_pos_exact_FLT radix2 (SpecFloat.emin prec emax) prec (val x) 1); [exact G | lia].
Qed.
Lemma rnd_eighth : forall z, (Z.abs z <= 64)%Z -> rnd (IZR z / 8) = IZR z / 8.
Proof.
  intros z Hz. apply rnd_format. replace (SpecFloat.fexp prec emax) with (FLT_exp (SpecFloat.emin prec emax) prec) by reflexivity.
  apply generic_format_FLT. exists (Float radix2 z (-3)).
  - unfold F2R. cbn. lra.
  - cbn. destruct I. apply Z.lt_le_trans with (2 ^ 24)%Z; [lia |]. apply Z.pow_le_mono_r; lia.
  - cbn. unfold SpecFloat.emin. destruct I. lia.
Qed.

Variables (fpi ftau : fl) (fsin fcos : fl -> fl).
Notation O := (Fops fpi ftau fsin fcos).

Lemma lit_eighth : forall z, (0 <= z <= 8)%Z -> fin (q_frac O z 8) /\ val (q_frac O z 8) = IZR z / 8.
Proof.
  intros z Hz. cbn [Fops q_frac]. destruct (fz_small (prec := prec) (emax := emax) z) as [A B]; [cbn; lia |].
  destruct (fz_small (prec := prec) (emax := emax) 8) as [A1 B1]; [cbn; lia |].
  assert (H : 0 <= IZR z <= 8) by (split; apply IZR_le; lia).
  destruct (fdiv_ok (fz z : fl) (fz 8) B) as [V F].
  - rewrite A1. lra.
  - rewrite A, A1. apply (small_fits 0 4); try lia. lra.
  - split; [exact F |]. rewrite V, A, A1. apply rnd_eighth. lia.
Qed.
Lemma wrap_plus : forall t c : fl, phase_ok t -> fin c -> 0 <= val c <= 1 ->
  phase_ok (wrap O (fadd t c)) /\ val (wrap O (fadd t c)) = rnd (val t + val c) - IZR (Zfloor (rnd (val t + val c))).
Proof.
  intros t c [T1 T2] C H. destruct (add_in t c 0 8) as [[A B] V]; try lia; try assumption; [lra |].
  destruct (wrap_ok fpi ftau fsin fcos (fadd t c) A) as [P Q]; [lra |]. split; [exact P |]. rewrite Q, V. reflexivity.
Qed.
(** The naive triangle in the program *)
Lemma fold_near : forall (t y4 : fl), phase_ok t -> fin y4 -> val y4 = 4 * val t ->
  fin (fold_tri O y4) /\ -1 <= val (fold_tri O y4) <= 1 /\ - e <= val (fold_tri O y4) - fold_tri RPops (4 * val t) <= e.
Proof.
  intros t y4 [T1 T2] Y1 Y3. pose proof (bpow_ge_0 radix2 (- prec)) as Ep.
  destruct (lit_int fpi ftau fsin fcos 1) as [F1 V1]; [lia |]. destruct (lit_int fpi ftau fsin fcos 2) as [F2 V2]; [lia |].
  destruct (lit_int fpi ftau fsin fcos 3) as [F3 V3]; [lia |]. destruct (lit_int fpi ftau fsin fcos 4) as [F4 V4]; [lia |].
  unfold fold_tri. unq. unfold Rleb, Rltb. cbn [q_add Fops q_ltb q_leb q_opp q_sub q_mul].
  rewrite fleb_ok, fltb_ok by assumption. rewrite V3, V1, Y3.
  destruct (Rle_dec 3 (4 * val t)) as [L | L].
  - rewrite Rle_bool_true by exact L. destruct (sub_in y4 (q_frac O 4 1) (-4) 0) as [[A B] C]; try lia; try assumption; [rewrite V4; lra |].
    rewrite V4, Y3 in C. err (4 * val t - 4) H. rewrite <- C in H. split; [exact A |]. lra.
  - rewrite Rle_bool_false by lra. destruct (Rlt_dec 1 (4 * val t)) as [L' | L'].
    + rewrite Rlt_bool_true by exact L'. destruct (sub_in (q_frac O 2 1) y4 (-4) 4) as [[A B] C]; try lia; try assumption; [rewrite V2; lra |].
      rewrite V2, Y3 in C. err (2 - 4 * val t) H. rewrite <- C in H. split; [exact A |]. lra.
    + rewrite Rlt_bool_false by lra. split; [exact Y1 |]. lra.
Qed.
(** One pair of corners: the phase [t + c] and half a turn farther *)
Lemma pair_near : forall (t c dt : fl), phase_ok t -> fin c -> 0 <= val c <= 1 -> moving dt ->
  let t1 := wrap O (fadd t c) in let t2 := wrap O (fadd t1 (q_frac O 1 2)) in
  let x := fmul (fmul (q_frac O 4 1) dt) (fsub (blamp O t1 dt) (blamp O t2 dt)) in
  fin x /\ - (1 / 2) <= val x <= 1 / 2 /\
  - (34 * e) <= val x - 4 * val dt * (K (val dt) (val t + val c) - K (val dt) (val t + val c + 1 / 2)) <= 34 * e.
Proof.
  intros t c dt T Fc Vc M t1 t2 x. destruct (ratio_ok dt M) as (Q1 & Q2 & Q3). pose proof M as [D Dp]. pose proof D as [D1 D2].
  destruct (lit_half fpi ftau fsin fcos) as [Fh Vh]. destruct (lit_int fpi ftau fsin fcos 4) as [F4 V4]; [lia |].
  destruct (wrap_plus t c T Fc Vc) as [P1 E1]. fold t1 in P1, E1.
  destruct (wrap_plus t1 (q_frac O 1 2) P1 Fh) as [P2 E2]; [rewrite Vh; lra |]. fold t2 in P2, E2. rewrite Vh in E2.
  pose proof T as [_ T2]. pose proof P1 as [_ T1'].
  pose proof (K_near fpi ftau fsin fcos t1 dt (val t + val c) P1 M ltac:(lra) E1) as N1.
  pose proof (K_near fpi ftau fsin fcos t2 dt (val t1 + 1 / 2) P2 M ltac:(lra) E2) as N2.
  assert (N3 : - e <= val dt * (K (val dt) (val t1 + 1 / 2) - K (val dt) (val t + val c + 1 / 2)) <= e).
  { set (z := val t + val c) in *. assert (G : Rabs (rnd z - z) <= e) by (apply err2; unfold z; lra).
    rewrite (K_shift (val dt) (val t1 + 1 / 2) (- Zfloor (rnd z)) (rnd z + 1 / 2)) by (rewrite opp_IZR; lra).
    pose proof (K_lip_abs (val dt) (rnd z + 1 / 2) (z + 1 / 2) ltac:(lra)) as L1.
    pose proof (K_lip_abs (val dt) (z + 1 / 2) (rnd z + 1 / 2) ltac:(lra)) as L2. rewrite Rabs_minus_sym in L2.
    replace (rnd z + 1 / 2 - (z + 1 / 2)) with (rnd z - z) in L1, L2 by ring. lra. }
  destruct (blamp_in fpi ftau fsin fcos t1 dt P1 D) as (B1 & B2 & _). destruct (blamp_in fpi ftau fsin fcos t2 dt P2 D) as (G1 & G2 & _).
  destruct (mul_in (q_frac O 4 1) dt 0 4) as [[M1 M2] M3]; try lia; try assumption; [rewrite V4; lra |]. rewrite V4, four_exact in M3.
  destruct (sub_in (blamp O t1 dt) (blamp O t2 dt) (-2) 2) as [[S1 S2] S3]; try lia; try assumption; [lra |].
  err (val (blamp O t1 dt) - val (blamp O t2 dt)) H1. rewrite <- S3 in H1.
  unfold x. set (k := fmul (q_frac O 4 1) dt) in *. set (d := fsub (blamp O t1 dt) (blamp O t2 dt)) in *.
  destruct (mul_in k d (-2) 2) as [[C1 C2] C3]; try lia; try assumption; [split; nra |].
  err (val k * val d) H2. rewrite <- C3 in H2. rewrite M3 in H2.
  split; [exact C1 |]. split; [lra |].
  set (b1 := val (blamp O t1 dt)) in *. set (b2 := val (blamp O t2 dt)) in *.
  assert (H4 : - e <= 4 * val dt * (val d - (b1 - b2)) <= e) by (split; nra). lra.
Qed.
Lemma clamp_near : forall y : fl, fin y -> forall g, - (2 * e) <= val y - g <= 2 * e ->
  let c := clampf O y (fneg (q_frac O 1 1)) (q_frac O 1 1) in
  fin c /\ -1 <= val c <= 1 /\ - (2 * e) <= val c - clampf RPops g (-1) 1 <= 2 * e.
Proof.
  intros y Fy g H c. destruct (lit_int fpi ftau fsin fcos 1) as [F1 V1]; [lia |]. pose proof (bpow_ge_0 radix2 (- prec)) as Ep.
  assert (Fn : fin (fneg (q_frac O 1 1))) by (apply fin_fneg; exact F1).
  unfold c, clampf. unq. unfold Rltb. cbn [q_ltb Fops]. rewrite !fltb_ok by assumption. rewrite val_fneg, V1.
  destruct (Rlt_bool_spec (val y) (- (1))) as [A | A].
  - split; [exact Fn |]. rewrite val_fneg, V1. destruct (Rlt_dec g (-1)); [lra |]. destruct (Rlt_dec 1 g); lra.
  - destruct (Rlt_bool_spec 1 (val y)) as [B | B].
    + split; [exact F1 |]. rewrite V1. destruct (Rlt_dec g (-1)); [lra |]. destruct (Rlt_dec 1 g); lra.
    + split; [exact Fy |]. destruct (Rlt_dec g (-1)); [lra |]. destruct (Rlt_dec 1 g); lra.
Qed.

Lemma trap_near : forall t dt : fl, phase_ok t -> moving dt ->
  Rabs (val (w_trap O t dt) - w_trap RPops (val t) (val dt)) <= 72 * e.
Proof.
  intros t dt T M. destruct (ratio_ok dt M) as (Q1 & Q2 & Q3). pose proof M as [D Dp]. pose proof T as [T1 T2]. pose proof D as [D1 D2].
  assert (Sl : slow (val dt)) by (unfold slow; lra).
  destruct (lit_eighth 1) as [Fa Va]; [lia |]. destruct (lit_eighth 3) as [Fb Vb]; [lia |].
  destruct (lit_int fpi ftau fsin fcos 2) as [F2 V2]; [lia |]. destruct (lit_int fpi ftau fsin fcos 4) as [F4 V4]; [lia |].
  destruct (mul_in (q_frac O 4 1) t 0 16) as [[Y1 Y2] Y3]; try lia; try assumption; [rewrite V4; lra |]. rewrite V4, four_exact in Y3.
  destruct (fold_near t _ T Y1 Y3) as (G1 & G2 & G3).
  destruct (mul_in (q_frac O 2 1) (fold_tri O (fmul (q_frac O 4 1) t)) (-8) 8) as [[Z1 Z2] Z3]; try lia; try assumption; [rewrite V2; lra |].
  rewrite V2, two_exact in Z3.
  destruct (clamp_near _ Z1 (2 * fold_tri RPops (4 * val t))) as (C1 & C2 & C3); [lra |].
  destruct (pair_near t (q_frac O 1 8) dt T Fa ltac:(lra) M) as (A1 & A2 & A3). rewrite Va in A3.
  destruct (pair_near t (q_frac O 3 8) dt T Fb ltac:(lra) M) as (B1 & B2 & B3). rewrite Vb in B3.
  unfold w_trap. unq. rewrite !wrap_half by (assumption || lra). rewrite !K_wrap by (assumption || lra).
  cbn [q_add Fops q_opp q_sub q_mul]. replace (- (1)) with (-1) by lra.
  set (c := clampf O _ _ _) in *. set (x := fmul _ _) in A1, A2, A3 |- *. set (x' := fmul _ (fsub (blamp O (wrap O (fadd t (q_frac O 3 8))) dt) _)) in *.
  destruct (add_in c x (-8) 8) as [[S1 S2] S3]; try lia; try assumption; [lra |].
  err (val c + val x) H1. rewrite <- S3 in H1. set (s := fadd c x) in *.
  assert (S4 : - (3 / 2) <= val s <= 3 / 2).
  { destruct (quarters (prec := prec) (emax := emax) (-6) 6 (val c + val x)) as [U1 U2]; try lia; [lra |]. rewrite S3. lra. }
  destruct (add_in s x' (-8) 8) as [[S5 S6] S7]; try lia; try assumption; [lra |].
  err (val s + val x') H2. rewrite <- S7 in H2. apply Rabs_le. lra.
Qed.
End Trap.

(** The exact waveform by distance from the corners *)
Lemma exact_trap : forall t dt : R, 0 < dt < 1 / 4 -> 0 <= t < 1 -> w_trap RPops t dt = round_trapezoid dt t.
Proof.
  intros t dt D T. assert (Sl : slow dt) by (unfold slow; lra). unfold w_trap. unq.
  rewrite !wrap_half by (assumption || lra). rewrite !K_wrap by (assumption || lra).
  unfold round_trapezoid. rewrite !circle_dist by lra. replace (t + (1 - 1 / 8)) with (t + 3 / 8 + 1 / 2) by lra.
  replace (t + (1 - 3 / 8)) with (t + 1 / 8 + 1 / 2) by lra. replace (t + (1 - 5 / 8)) with (t + 3 / 8) by lra. replace (t + (1 - 7 / 8)) with (t + 1 / 8) by lra.
  assert (R : forall x, rounding_off dt x = 4 * dt * BB dt x) by (intros; unfold rounding_off, BB; destruct (Rlt_dec x dt); field; lra).
  rewrite !R. fold (K dt (t + 3 / 8 + 1 / 2)) (K dt (t + 1 / 8 + 1 / 2)) (K dt (t + 3 / 8)) (K dt (t + 1 / 8)).
  assert (F : clampf RPops (2 * fold_tri RPops (4 * t)) (- (1)) 1 = cut_triangle t).
  { unfold cut_triangle, triangle. rewrite circle_dist by lra. replace (t + (1 - 1 / 4)) with (t + 3 / 4) by lra.
    replace (fold_tri RPops (4 * t)) with (1 - 4 * dist (t + 3 / 4)).
    - unfold clampf. unq. unfold Rltb. set (x := 2 * (1 - 4 * dist (t + 3 / 4))). clearbody x.
      unfold Rmax, Rmin. destruct (Rlt_dec x (- (1))); destruct (Rle_dec 1 x); destruct (Rle_dec _ _); try destruct (Rlt_dec 1 x); lra.
    - destruct (Rle_lt_dec t (1 / 4)) as [L | L].
      + rewrite fold_up by lra. rewrite dist1 by lra. rewrite Rabs_left1; lra.
      + destruct (Rle_lt_dec t (3 / 4)) as [N | N].
        * rewrite fold_down by lra. rewrite dist1 by lra. rewrite Rabs_pos_eq; lra.
        * rewrite fold_back by lra. rewrite dist2 by lra. rewrite Rabs_left1; lra. }
  rewrite F. lra.
Qed.
