(** Proofs for C93: the distance of the rounded triangle from the exact one. *)
From Coq Require Import Reals Lra Lia ZArith.
From Flocq Require Import Core BinarySingleNaN Mult_error.
From Verif Require Import Base FloatBase PolyModel PolySpec PolyProofs PolyWave PolyFloatSpec PolyFloatProofs PolyNearProofs PolyTriSpec.
Local Open Scope R_scope.

Section Tri.
Context {prec emax : Z} {I : ieee prec emax}.
Notation fl := (binary_float prec emax).
Notation rnd := (@rnd prec emax).
Notation e := (bpow radix2 (- prec)).
Ltac err x H := let K := fresh in assert (K : Rabs (rnd x - x) <= e) by (apply err2; first [lra | split; nra]); apply abs_le in K; rename K into H.

(** Four times a number is a number. *)
Lemma four_exact : forall x : fl, rnd (4 * val x) = 4 * val x.
Proof.
  intros x. apply rnd_format. replace (4 * val x) with (val x * bpow radix2 2) by (change (bpow radix2 2) with 4; ring).
  pose proof (generic_format_B2R prec emax x) as G.
  assert (P : Prec_gt_0 prec) by (unfold Prec_gt_0; destruct I; lia).
  apply (mult_bpow_pos_exact_FLT radix2 (SpecFloat.emin prec emax) prec (val x) 2); [exact G | lia].
Qed.
(** The cube of the corner correction, as it is rounded *)
Lemma cube_near : forall b k m p o : R, 0 <= b <= 1 -> 0 <= k <= 1 / 2 -> 0 <= m <= 1 -> 0 <= p ->
  - e <= m - b * b <= e -> - e <= k - 1 / 3 <= e -> - e <= p - k * m <= e -> - e <= o - p * b <= e ->
  - (10 / 3 * e) <= o - b * b * b / 3 <= 10 / 3 * e.
Proof.
  intros b k m p o B K M P H1 H2 H3 H4. pose proof (bpow_ge_0 radix2 (- prec)) as E. set (d := e) in *. clearbody d.
  assert (A : - d <= (k - 1 / 3) * m <= d) by (split; nra).
  assert (C : - (7 / 3 * d) <= p - b * b / 3 <= 7 / 3 * d) by lra.
  assert (F : - (7 / 3 * d) <= (p - b * b / 3) * b <= 7 / 3 * d) by (split; nra). lra.
Qed.
Lemma cube_move : forall b q a, 0 <= b <= 1 -> 0 <= q <= 1 -> - a <= b - q <= a -> - a <= b * b * b / 3 - q * q * q / 3 <= a.
Proof.
  intros b q a B Q H. destruct (Rle_lt_dec b q) as [L | L].
  - pose proof (cube_lip q b Q ltac:(lra)). pose proof (cube_mono b q ltac:(lra) ltac:(lra)). lra.
  - pose proof (cube_lip b q B ltac:(lra)). pose proof (cube_mono q b ltac:(lra) ltac:(lra)). lra.
Qed.

Variables (fpi ftau : fl) (fsin fcos : fl -> fl).
Notation O := (Fops fpi ftau fsin fcos).

Lemma blamp_near : forall t dt : fl, phase_ok t -> moving dt ->
  Rabs (val (blamp O t dt) - blamp RPops (val t) (val dt)) <= 5 / 2 * ratio dt.
Proof.
  intros t dt T M. destruct (ratio_ok dt M) as (Q1 & Q2 & Q3). pose proof M as [D Dp]. pose proof D as [D1 D2]. pose proof T as [T1 T2].
  destruct (lit_int fpi ftau fsin fcos 0) as [F0 V0]; [lia |]. destruct (lit_int fpi ftau fsin fcos 1) as [F1 V1]; [lia |].
  destruct (lit_int fpi ftau fsin fcos 3) as [F3 V3]; [lia |].
  destruct (high_test fpi ftau fsin fcos t dt T D) as (H1 & H2 & H3).
  destruct (div_in (q_frac O 1 1) (q_frac O 3 1) 0 2) as [[P1 P2] P3]; try lia; try assumption; try (rewrite ?V1, ?V3; lra).
  destruct (div_in (fneg (q_frac O 1 1)) (q_frac O 3 1) (-2) 0) as [[N1 N2] N3]; try lia; try (apply fin_fneg; assumption); try (rewrite ?val_fneg, ?V1, ?V3; lra).
  rewrite V1, V3 in P3. rewrite val_fneg, V1, V3 in N3.
  err (1 / 3) T3. assert (T3' : - e <= rnd (- (1) / 3) + 1 / 3 <= e) by (replace (- (1) / 3) with (- (1 / 3)) by field; rewrite rnd_opp; lra).
  rewrite <- P3 in T3. rewrite <- N3 in T3'.
  unfold blamp, square_number. unq. unfold Rltb. cbn [Fops q_ltb q_sub q_div q_mul q_opp q_add].
  destruct (fltb t dt) eqn:L.
  - apply fltb_true in L; [| exact T1 | exact D1]. destruct (Rlt_dec (val t) (val dt)) as [L' | L']; [| lra].
    destruct (low_arg fpi ftau fsin fcos t dt T D L) as [A B].
    assert (R1 : 0 <= val t / val dt <= 1).
    { split; [apply Rmult_le_pos; [lra | left; apply Rinv_0_lt_compat; lra] |]. apply Rmult_le_reg_r with (val dt); [lra |].
      unfold Rdiv. rewrite Rmult_assoc, Rinv_l by lra. lra. }
    destruct (div_in t dt 0 4) as [[X1 X2] X3]; try lia; try assumption; try lra.
    destruct (sub_in (fdiv t dt) (q_frac O 1 1) (-4) 0) as [_ Y3]; try lia; try assumption; [rewrite V1; lra |]. rewrite V1 in Y3.
    set (b := fsub (fdiv t dt) (q_frac O 1 1)) in *. set (k := fdiv (fneg (q_frac O 1 1)) (q_frac O 3 1)) in *.
    destruct (mul_in b b 0 4) as [[Z1 Z2] Z3]; try lia; try assumption; [split; nra |]. set (m := fmul b b) in *.
    destruct (mul_in k m (-2) 0) as [[W1 W2] W3]; try lia; try assumption; [split; nra |]. set (p := fmul k m) in *.
    destruct (mul_in p b 0 2) as [[U1 U2] U3]; try lia; try assumption; [split; nra |].
    err (val t / val dt) G1. err (val (fdiv t dt) - 1) G2. err (val b * val b) G3. err (val k * val m) G4. err (val p * val b) G5.
    rewrite <- Z3 in G3. rewrite <- W3 in G4. rewrite <- U3 in G5. rewrite X3 in *. rewrite <- Y3 in G2.
    set (o := fmul p b) in *. set (q := val t / val dt) in *.
    assert (C : - (10 / 3 * e) <= val o - (- val b) * (- val b) * (- val b) / 3 <= 10 / 3 * e).
    { apply (cube_near _ (- val k) (val m) (- val p)); lra. }
    assert (E : - (2 * e) <= (- val b) * (- val b) * (- val b) / 3 - (1 - q) * (1 - q) * (1 - q) / 3 <= 2 * e).
    { apply cube_move; lra. }
    apply Rabs_le. replace ((- (1) / 3) * ((q - 1) * (q - 1)) * (q - 1)) with ((1 - q) * (1 - q) * (1 - q) / 3) by field. lra.
  - apply fltb_false in L; [| exact T1 | exact D1]. destruct (Rlt_dec (val t) (val dt)) as [L' | L']; [lra |].
    destruct (fltb (fsub (q_frac O 1 1) dt) t) eqn:K.
    + apply fltb_true in K; [| exact H1 | exact T1]. assert (N := H2 K).
      destruct (Rlt_dec (1 - val dt) (val t)) as [N' | N']; [| lra].
      destruct (high_arg fpi ftau fsin fcos t dt T D N) as [A B].
      assert (R1 : 0 <= (val t - 1) / val dt + 1 <= 1).
      { assert (P5 : - 1 <= (val t - 1) / val dt) by (apply Rmult_le_reg_r with (val dt); [lra |]; unfold Rdiv; rewrite Rmult_assoc, Rinv_l by lra; lra).
        assert (P6 : (val t - 1) / val dt <= 0) by (apply Rmult_le_reg_r with (val dt); [lra |]; unfold Rdiv; rewrite Rmult_assoc, Rinv_l by lra; lra).
        lra. }
      destruct (sub_in t (q_frac O 1 1) (-4) 0) as [[W1 W2] W3]; try lia; try assumption; [rewrite V1; lra |]. rewrite V1 in W3.
      set (u := fsub t (q_frac O 1 1)) in *.
      assert (L2 : - val dt <= val u) by (rewrite W3; rewrite <- (rnd_val dt), <- rnd_opp; apply rnd_le; lra).
      assert (R2 : -1 <= val u / val dt <= 0).
      { split; (apply Rmult_le_reg_r with (val dt); [lra |]; unfold Rdiv; rewrite Rmult_assoc, Rinv_l by lra; lra). }
      destruct (div_in u dt (-4) 0) as [[X1 X2] X3]; try lia; try assumption; try lra.
      destruct (add_in (fdiv u dt) (q_frac O 1 1) 0 4) as [_ Y3]; try lia; try assumption; [rewrite V1; lra |]. rewrite V1 in Y3.
      set (b := fadd (fdiv u dt) (q_frac O 1 1)) in *. set (k := fdiv (q_frac O 1 1) (q_frac O 3 1)) in *.
      destruct (mul_in b b 0 4) as [[Z1 Z2] Z3]; try lia; try assumption; [split; nra |]. set (m := fmul b b) in *.
      destruct (mul_in k m 0 2) as [[W4 W5] W6]; try lia; try assumption; [split; nra |]. set (p := fmul k m) in *.
      destruct (mul_in p b 0 2) as [[U1 U2] U3]; try lia; try assumption; [split; nra |].
      assert (G0 : Rabs (rnd (val t - 1) - (val t - 1)) <= e) by (apply err2; lra). rewrite <- W3 in G0.
      apply (quot _ _ (val dt) Dp) in G0. change (e / val dt) with (ratio dt) in G0. apply abs_le in G0.
      err (val u / val dt) G1. err (val (fdiv u dt) + 1) G2. err (val b * val b) G3. err (val k * val m) G4. err (val p * val b) G5.
      rewrite <- Z3 in G3. rewrite <- W6 in G4. rewrite <- U3 in G5. rewrite X3 in *. rewrite <- Y3 in G2.
      set (o := fmul p b) in *. set (q := (val t - 1) / val dt) in *. set (q' := val u / val dt) in *.
      assert (C : - (10 / 3 * e) <= val o - val b * val b * val b / 3 <= 10 / 3 * e) by (apply (cube_near _ (val k) (val m) (val p)); lra).
      assert (E : - (3 / 2 * ratio dt) <= val b * val b * val b / 3 - (q + 1) * (q + 1) * (q + 1) / 3 <= 3 / 2 * ratio dt).
      { apply cube_move; lra. }
      apply Rabs_le. replace ((1 / 3) * ((q + 1) * (q + 1)) * (q + 1)) with ((q + 1) * (q + 1) * (q + 1) / 3) by field. lra.
    + apply fltb_false in K; [| exact H1 | exact T1]. rewrite V0.
      destruct (Rlt_dec (1 - val dt) (val t)) as [N' | N'].
      * destruct (sub_in (q_frac O 1 1) dt 3 4) as [_ W3]; try lia; try assumption; [rewrite V1; lra |]. rewrite V1 in W3. rewrite W3 in K.
        assert (G0 : Rabs (rnd (1 - val dt) - (1 - val dt)) <= e) by (apply err2; lra). apply abs_le in G0.
        assert (S1 : 0 <= (val t - 1) / val dt + 1).
        { replace ((val t - 1) / val dt + 1) with ((val t - (1 - val dt)) / val dt) by (field; lra). apply div_nonneg; lra. }
        assert (S2 : (val t - 1) / val dt + 1 <= ratio dt).
        { replace ((val t - 1) / val dt + 1) with ((val t - (1 - val dt)) / val dt) by (field; lra). unfold ratio. apply div_le; lra. }
        assert (S3 : (val t - 1) / val dt + 1 <= 1).
        { assert ((val t - 1) / val dt <= 0) by (apply Rmult_le_reg_r with (val dt); [lra |]; unfold Rdiv; rewrite Rmult_assoc, Rinv_l by lra; lra). lra. }
        set (w := (val t - 1) / val dt + 1) in *. clearbody w.
        assert (C : - w <= w * w * w / 3 - 0 * 0 * 0 / 3 <= w) by (apply cube_move; lra).
        replace ((1 / 3) * (w * w) * w) with (w * w * w / 3) by field. apply Rabs_le. lra.
      * rewrite Rminus_diag_eq by reflexivity. rewrite Rabs_R0. lra.
Qed.
(** The correction at a rounded phase, times the step *)
Lemma K_near : forall (t1 dt : fl) z, phase_ok t1 -> moving dt -> 0 <= z <= 2 -> val t1 = rnd z - IZR (Zfloor (rnd z)) ->
  - (7 / 2 * e) <= val dt * (val (blamp O t1 dt) - K (val dt) z) <= 7 / 2 * e.
Proof.
  intros t1 dt z P M Z E. destruct (ratio_ok dt M) as (Q1 & Q2 & Q3). pose proof (blamp_near t1 dt P M) as B.
  pose proof M as [[_ D] Dp]. assert (Sl : slow (val dt)) by (unfold slow; lra).
  assert (Eb : blamp RPops (val t1) (val dt) = K (val dt) (rnd z)).
  { rewrite E. change (rnd z - IZR (Zfloor (rnd z))) with (fr (rnd z)). apply blamp_BB. exact Sl. }
  rewrite Eb in B. apply abs_le in B.
  assert (G : Rabs (rnd z - z) <= e) by (apply err2; lra).
  pose proof (K_lip_abs (val dt) (rnd z) z ltac:(lra)) as L1. pose proof (K_lip_abs (val dt) z (rnd z) ltac:(lra)) as L2. rewrite Rabs_minus_sym in L2.
  set (y := val (blamp O t1 dt)) in *. set (k := K (val dt) z) in *. set (k' := K (val dt) (rnd z)) in *. clearbody y k k'.
  set (r := ratio dt) in *. clearbody r. set (d := val dt) in *. clearbody d.
  assert (U1 : 0 <= d * (y - k' + 5 / 2 * r)) by (apply Rmult_le_pos; lra). assert (U2 : 0 <= d * (5 / 2 * r - (y - k'))) by (apply Rmult_le_pos; lra). lra.
Qed.

Lemma tri_near : forall t dt : fl, phase_ok t -> moving dt ->
  Rabs (val (w_tri O t dt) - w_tri RPops (val t) (val dt)) <= 32 * e.
Proof.
  intros t dt T M. destruct (ratio_ok dt M) as (Q1 & Q2 & Q3). pose proof M as [D Dp]. pose proof T as [T1 T2]. pose proof D as [D1 D2].
  assert (Sl : slow (val dt)) by (unfold slow; lra).
  destruct (lit_14 fpi ftau fsin fcos) as [Fq Vq]. destruct (lit_34 fpi ftau fsin fcos) as [Ft Vt].
  destruct (lit_int fpi ftau fsin fcos 1) as [F1 V1]; [lia |]. destruct (lit_int fpi ftau fsin fcos 2) as [F2 V2]; [lia |].
  destruct (lit_int fpi ftau fsin fcos 3) as [F3 V3]; [lia |]. destruct (lit_int fpi ftau fsin fcos 4) as [F4 V4]; [lia |].
  destruct (wrap_add fpi ftau fsin fcos t 1 (q_frac O 1 4) T Fq) as [P1 E1]; [lia | rewrite Vq; lra |]. rewrite Vq in E1.
  destruct (wrap_add fpi ftau fsin fcos t 3 (q_frac O 3 4) T Ft) as [P2 E2]; [lia | rewrite Vt; lra |]. rewrite Vt in E2.
  unfold w_tri, fold_tri. unq. rewrite !K_wrap by (assumption || lra). unfold Rleb, Rltb. cbn [q_add Fops q_ltb q_leb q_opp q_sub q_mul].
  set (t1 := wrap O (fadd t (q_frac O 1 4))) in *. set (t2 := wrap O (fadd t (q_frac O 3 4))) in *.
  pose proof (K_near t1 dt (val t + 1 / 4) P1 M ltac:(lra) E1) as N1. pose proof (K_near t2 dt (val t + 3 / 4) P2 M ltac:(lra) E2) as N2.
  destruct (blamp_in fpi ftau fsin fcos t1 dt P1 D) as (B1 & B2 & _). destruct (blamp_in fpi ftau fsin fcos t2 dt P2 D) as (G1 & G2 & _).
  destruct (mul_in t (q_frac O 4 1) 0 16) as [[Y1 Y2] Y3]; try lia; try assumption; [rewrite V4; lra |].
  rewrite V4, (Rmult_comm (val t) 4), four_exact in Y3.
  destruct (mul_in (q_frac O 4 1) dt 0 4) as [[M1 M2] M3]; try lia; try assumption; [rewrite V4; lra |]. rewrite V4, four_exact in M3.
  destruct (sub_in (blamp O t1 dt) (blamp O t2 dt) (-2) 2) as [[S1 S2] S3]; try lia; try assumption; [lra |].
  err (val (blamp O t1 dt) - val (blamp O t2 dt)) H1. rewrite <- S3 in H1.
  set (c := fmul (q_frac O 4 1) dt) in *. set (d := fsub (blamp O t1 dt) (blamp O t2 dt)) in *.
  destruct (mul_in c d (-4) 4) as [[C1 C2] C3]; try lia; try assumption; [split; nra |].
  err (val c * val d) H2. rewrite <- C3 in H2. rewrite M3 in H2.
  set (y4 := fmul t (q_frac O 4 1)) in *.
  set (y := if fleb (q_frac O 3 1) y4 then fsub y4 (q_frac O 4 1) else if fltb (q_frac O 1 1) y4 then fsub (q_frac O 2 1) y4 else y4).
  set (g := if if Rle_dec 3 (val t * 4) then true else false then val t * 4 - 4 else if if Rlt_dec 1 (val t * 4) then true else false then 2 - val t * 4 else val t * 4).
  pose proof (bpow_ge_0 radix2 (- prec)) as Ep.
  assert (Y : fin y /\ -1 <= val y <= 1 /\ - e <= val y - g <= e).
  { unfold y, g. rewrite fleb_ok, fltb_ok by assumption. rewrite V3, V1, Y3. rewrite (Rmult_comm (val t) 4).
    destruct (Rle_dec 3 (4 * val t)) as [L | L].
    - rewrite Rle_bool_true by exact L. destruct (sub_in y4 (q_frac O 4 1) (-4) 0) as [[A B] C]; try lia; try assumption; [rewrite V4; lra |].
      rewrite V4, Y3 in C. err (4 * val t - 4) H. rewrite <- C in H. split; [exact A |]. lra.
    - rewrite Rle_bool_false by lra. destruct (Rlt_dec 1 (4 * val t)) as [L' | L'].
      + rewrite Rlt_bool_true by exact L'. destruct (sub_in (q_frac O 2 1) y4 (-4) 4) as [[A B] C]; try lia; try assumption; [rewrite V2; lra |].
        rewrite V2, Y3 in C. err (2 - 4 * val t) H. rewrite <- C in H. split; [exact A |]. lra.
      + rewrite Rlt_bool_false by lra. split; [exact Y1 |]. lra. }
  destruct Y as (Yf & Yr & Yn). clearbody y g.
  destruct (add_in y (fmul c d) (-8) 8) as [_ Z3]; try lia; try assumption; [lra |].
  err (val y + val (fmul c d)) H3. rewrite <- Z3 in H3.
  set (k1 := K (val dt) (val t + 1 / 4)) in *. set (k2 := K (val dt) (val t + 3 / 4)) in *.
  set (b1 := val (blamp O t1 dt)) in *. set (b2 := val (blamp O t2 dt)) in *.
  assert (H4 : - e <= 4 * val dt * (val d - (b1 - b2)) <= e) by (split; nra).
  apply Rabs_le. lra.
Qed.
End Tri.

(** The exact waveform by distance from the corners *)
Lemma circle_dist : forall t c : R, 0 <= t < 1 -> 0 <= c < 1 -> circle t c = dist (t + (1 - c)).
Proof.
  intros t c T C. unfold circle, dist. destruct (Rle_lt_dec c t) as [L | L].
  - rewrite (fr_shift (t + (1 - c)) 1 (t - c)) by (cbn; lra). rewrite fr_id by lra. rewrite Rabs_pos_eq by lra. reflexivity.
  - rewrite fr_id by lra. rewrite Rabs_left1 by lra. rewrite Rmin_comm. f_equal; lra.
Qed.
Lemma exact_tri : forall t dt : R, 0 < dt < 1 / 4 -> 0 <= t < 1 -> w_tri RPops t dt = round_triangle dt t.
Proof.
  intros t dt D T. assert (Sl : slow dt) by (unfold slow; lra). unfold w_tri. unq. rewrite !K_wrap by (assumption || lra).
  unfold round_triangle. rewrite !circle_dist by lra. replace (t + (1 - 1 / 4)) with (t + 3 / 4) by lra. replace (t + (1 - 3 / 4)) with (t + 1 / 4) by lra.
  assert (R : forall x, rounding_off dt x = 4 * dt * BB dt x) by (intros; unfold rounding_off, BB; destruct (Rlt_dec x dt); field; lra).
  rewrite !R. change (BB dt (dist (t + 1 / 4))) with (K dt (t + 1 / 4)). change (BB dt (dist (t + 3 / 4))) with (K dt (t + 3 / 4)).
  unfold triangle. rewrite circle_dist by lra. replace (t + (1 - 1 / 4)) with (t + 3 / 4) by lra.
  assert (F : fold_tri RPops (t * 4) = 1 - 4 * dist (t + 3 / 4)).
  { rewrite Rmult_comm. destruct (Rle_lt_dec t (1 / 4)) as [L | L].
    - rewrite fold_up by lra. rewrite dist1 by lra. rewrite Rabs_left1; lra.
    - destruct (Rle_lt_dec t (3 / 4)) as [M | M].
      + rewrite fold_down by lra. rewrite dist1 by lra. rewrite Rabs_pos_eq; lra.
      + rewrite fold_back by lra. rewrite dist2 by lra. rewrite Rabs_left1; lra. }
  rewrite F. lra.
Qed.
