(** Proofs for C90: the distance of the rounded sawtooth, ramp and square from the exact ones. *)
From Coq Require Import Reals Lra Lia ZArith.
From Flocq Require Import Core BinarySingleNaN.
From Verif Require Import Base FloatBase PolyModel PolySpec PolyProofs PolyWave PolyFloatSpec PolyFloatProofs.
Local Open Scope R_scope.

Section Near.
Context {prec emax : Z} {I : ieee prec emax}.
Notation fl := (binary_float prec emax).
Notation rnd := (@rnd prec emax).
Notation e := (bpow radix2 (- prec)).

Lemma err2 : forall x, -2 <= x <= 2 -> Rabs (rnd x - x) <= e.
Proof.
  assert (P : forall x, 0 <= x <= 2 -> Rabs (rnd x - x) <= e).
  { intros x H. destruct (Rlt_le_dec x 2) as [L | L]; [apply two_error; lra |].
    replace x with 2 by lra. rewrite (rnd_int 2) by (cbn; lia). rewrite Rminus_diag_eq by reflexivity. rewrite Rabs_R0. apply bpow_ge_0. }
  intros x H. destruct (Rle_lt_dec 0 x) as [L | L]; [apply P; lra |].
  specialize (P (- x)). rewrite rnd_opp in P. replace (- rnd x - - x) with (- (rnd x - x)) in P by ring. rewrite Rabs_Ropp in P. apply P. lra.
Qed.
Lemma abs_le : forall x a, Rabs x <= a -> - a <= x <= a.
Proof. intros x a H. apply Rabs_le_inv. exact H. Qed.
Ltac err x H := let K := fresh in assert (K : Rabs (rnd x - x) <= e) by (apply err2; first [lra | split; nra]); apply abs_le in K; rename K into H.

Variables (fpi ftau : fl) (fsin fcos : fl -> fl).
Notation O := (Fops fpi ftau fsin fcos).
(** A step strictly between zero and a quarter *)
Definition moving (dt : fl) : Prop := slow_step dt /\ 0 < val dt.
Definition ratio (dt : fl) : R := e / val dt.
Lemma ratio_ok : forall dt, moving dt -> 0 < ratio dt /\ e = ratio dt * val dt /\ 4 * e <= ratio dt.
Proof.
  intros dt [[D1 D2] D3]. pose proof (bpow_gt_0 radix2 (- prec)) as E. assert (Q : 0 < ratio dt) by (apply Rdiv_lt_0_compat; assumption).
  assert (W : e = ratio dt * val dt) by (unfold ratio; field; lra). split; [exact Q |]. split; [exact W |]. nra.
Qed.
Lemma quot : forall x y d, 0 < d -> Rabs (x - y) <= e -> Rabs (x / d - y / d) <= e / d.
Proof.
  intros x y d D H. replace (x / d - y / d) with ((x - y) * / d) by (unfold Rdiv; ring). rewrite Rabs_mult, (Rabs_pos_eq (/ d)).
  - apply Rmult_le_compat_r; [| exact H]. left. apply Rinv_0_lt_compat. exact D.
  - left. apply Rinv_0_lt_compat. exact D.
Qed.

Lemma blep_near : forall t dt : fl, phase_ok t -> moving dt ->
  Rabs (val (blep O t dt) - blep RPops (val t) (val dt)) <= 4 * ratio dt.
Proof.
  intros t dt T M. destruct (ratio_ok dt M) as (Q1 & Q2 & Q3). pose proof M as [D Dp]. pose proof D as [D1 D2]. pose proof T as [T1 T2].
  destruct (lit_int fpi ftau fsin fcos 0) as [F0 V0]; [lia |]. destruct (lit_int fpi ftau fsin fcos 1) as [F1 V1]; [lia |].
  destruct (high_test fpi ftau fsin fcos t dt T D) as (H1 & H2 & H3).
  unfold blep, square_number. unq. unfold Rltb. cbn [Fops q_ltb q_sub q_div q_mul q_opp q_add].
  destruct (fltb t dt) eqn:L.
  - apply fltb_true in L; [| exact T1 | exact D1]. destruct (Rlt_dec (val t) (val dt)) as [L' | L']; [| lra].
    destruct (low_arg fpi ftau fsin fcos t dt T D L) as [A B].
    assert (R1 : 0 <= val t / val dt <= 1).
    { split; [apply Rmult_le_pos; [lra | left; apply Rinv_0_lt_compat; lra] |]. apply Rmult_le_reg_r with (val dt); [lra |].
      unfold Rdiv. rewrite Rmult_assoc, Rinv_l by lra. lra. }
    destruct (div_in t dt 0 4) as [[X1 X2] X3]; try lia; try assumption; try lra.
    destruct (sub_in (fdiv t dt) (q_frac O 1 1) (-4) 0) as [_ Y3]; try lia; try assumption; [rewrite V1; lra |]. rewrite V1 in Y3.
    set (b := fsub (fdiv t dt) (q_frac O 1 1)) in *.
    destruct (mul_in b b 0 4) as [_ Z3]; try lia; try assumption; [split; nra |].
    err (val t / val dt) G1. err (val (fdiv t dt) - 1) G2. err (val b * val b) G3.
    rewrite val_fneg, Z3. rewrite X3 in *. rewrite <- Y3 in G2. set (q := val t / val dt) in *. set (a := rnd q) in *.
    assert (- (2 * e) <= val b - (q - 1) <= 2 * e) by lra. apply Rabs_le. clear - G3 B R1 Q3 Q1 H. split; nra.
  - apply fltb_false in L; [| exact T1 | exact D1]. destruct (Rlt_dec (val t) (val dt)) as [L' | L']; [lra |].
    destruct (fltb (fsub (q_frac O 1 1) dt) t) eqn:K.
    + apply fltb_true in K; [| exact H1 | exact T1]. assert (N := H2 K).
      destruct (Rlt_dec (1 - val dt) (val t)) as [N' | N']; [| lra].
      destruct (high_arg fpi ftau fsin fcos t dt T D N) as [A B].
      assert (R1 : 0 <= (val t - 1) / val dt + 1 <= 1).
      { assert (P1 : - 1 <= (val t - 1) / val dt) by (apply Rmult_le_reg_r with (val dt); [lra |]; unfold Rdiv; rewrite Rmult_assoc, Rinv_l by lra; lra).
        assert (P2 : (val t - 1) / val dt <= 0) by (apply Rmult_le_reg_r with (val dt); [lra |]; unfold Rdiv; rewrite Rmult_assoc, Rinv_l by lra; lra).
        lra. }
      destruct (sub_in t (q_frac O 1 1) (-4) 0) as [[W1 W2] W3]; try lia; try assumption; [rewrite V1; lra |]. rewrite V1 in W3.
      set (u := fsub t (q_frac O 1 1)) in *.
      assert (L2 : - val dt <= val u) by (rewrite W3; rewrite <- (rnd_val dt), <- rnd_opp; apply rnd_le; lra).
      assert (R2 : -1 <= val u / val dt <= 0).
      { split; (apply Rmult_le_reg_r with (val dt); [lra |]; unfold Rdiv; rewrite Rmult_assoc, Rinv_l by lra; lra). }
      destruct (div_in u dt (-4) 0) as [[X1 X2] X3]; try lia; try assumption; try lra.
      destruct (add_in (fdiv u dt) (q_frac O 1 1) 0 4) as [_ Y3]; try lia; try assumption; [rewrite V1; lra |]. rewrite V1 in Y3.
      set (b := fadd (fdiv u dt) (q_frac O 1 1)) in *.
      destruct (mul_in b b 0 4) as [_ Z3]; try lia; try assumption; [split; nra |].
      assert (G0 : Rabs (rnd (val t - 1) - (val t - 1)) <= e) by (apply err2; lra). rewrite <- W3 in G0.
      apply (quot _ _ (val dt) Dp) in G0. change (e / val dt) with (ratio dt) in G0. apply abs_le in G0.
      err (val u / val dt) G1. err (val (fdiv u dt) + 1) G2. err (val b * val b) G3.
      rewrite Z3. rewrite X3 in *. rewrite <- Y3 in G2. set (q := (val t - 1) / val dt) in *. set (q' := val u / val dt) in *. set (a := rnd q') in *.
      assert (- (3 / 2 * ratio dt) <= val b - (q + 1) <= 3 / 2 * ratio dt) by lra. apply Rabs_le. clear - G3 B R1 Q3 Q1 H. split; nra.
    + apply fltb_false in K; [| exact H1 | exact T1]. rewrite V0.
      destruct (Rlt_dec (1 - val dt) (val t)) as [N' | N'].
      * destruct (sub_in (q_frac O 1 1) dt 3 4) as [_ W3]; try lia; try assumption; [rewrite V1; lra |]. rewrite V1 in W3. rewrite W3 in K.
        assert (G0 : Rabs (rnd (1 - val dt) - (1 - val dt)) <= e) by (apply err2; lra). apply abs_le in G0.
        assert (P1 : 0 <= (val t - 1) / val dt + 1).
        { replace ((val t - 1) / val dt + 1) with ((val t - (1 - val dt)) / val dt) by (field; lra). apply div_nonneg; lra. }
        assert (P2 : (val t - 1) / val dt + 1 <= ratio dt).
        { replace ((val t - 1) / val dt + 1) with ((val t - (1 - val dt)) / val dt) by (field; lra). unfold ratio. apply div_le; lra. }
        assert (P3 : (val t - 1) / val dt + 1 <= 1).
        { assert ((val t - 1) / val dt <= 0) by (apply Rmult_le_reg_r with (val dt); [lra |]; unfold Rdiv; rewrite Rmult_assoc, Rinv_l by lra; lra). lra. }
        set (w := (val t - 1) / val dt + 1) in *. clearbody w. apply Rabs_le. split; nra.
      * rewrite Rminus_diag_eq by reflexivity. rewrite Rabs_R0. lra.
Qed.

Lemma fold_floor : forall x, x - IZR (Zfloor x) = fr x. Proof. reflexivity. Qed.
(** [HH] moves by at most 2/dt times the rounding of the phase. *)
Lemma HH_near : forall dt z z', moving dt -> Rabs (z' - z) <= e -> Rabs (HH (val dt) z' - HH (val dt) z) <= 2 * ratio dt /\
  Rabs ((2 * z' - HH (val dt) z') - (2 * z - HH (val dt) z)) <= 2 * ratio dt.
Proof.
  intros dt z z' M H. destruct (ratio_ok dt M) as (Q1 & Q2 & Q3). destruct M as [[D1 D2] D3].
  assert (Es : e <= 1 / 2) by (change (1 / 2) with (1 * / 2); rewrite Rmult_1_l; change (/ 2) with (bpow radix2 (-1)); apply bpow_le; destruct I; lia).
  assert (A : forall x y, x <= y <= x + e -> 0 <= HH (val dt) y - HH (val dt) x <= 2 * ratio dt).
  { intros x y L. pose proof (HH_lip (val dt) x y ltac:(lra) ltac:(lra)) as Q. set (h := HH (val dt) y - HH (val dt) x) in *. clearbody h. split; nra. }
  apply abs_le in H. destruct (Rle_lt_dec z z') as [L | L].
  - specialize (A z z' ltac:(lra)). split; apply Rabs_le; lra.
  - specialize (A z' z ltac:(lra)). split; apply Rabs_le; lra.
Qed.

Lemma saw_near : forall t dt : fl, phase_ok t -> moving dt ->
  Rabs (val (w_saw O t dt) - w_saw RPops (val t) (val dt)) <= 7 * ratio dt.
Proof.
  intros t dt T M. destruct (ratio_ok dt M) as (Q1 & Q2 & Q3). pose proof M as [D Dp]. pose proof T as [T1 T2].
  destruct (lit_half fpi ftau fsin fcos) as [Fh Vh]. destruct (lit_int fpi ftau fsin fcos 1) as [F1 V1]; [lia |]. destruct (lit_int fpi ftau fsin fcos 2) as [F2 V2]; [lia |].
  destruct (wrap_add fpi ftau fsin fcos t 2 (q_frac O 1 2) T Fh) as [P Pv]; [lia | rewrite Vh; lra |]. rewrite Vh in Pv.
  pose proof (saw_in fpi ftau fsin fcos t dt T D) as S.
  unfold w_saw in *. unq. rewrite wrap_fr by lra. cbn [q_add q_sub q_mul Fops] in *.
  set (t1 := wrap O (fadd t (q_frac O 1 2))) in *.
  pose proof (blep_near t1 dt P M) as B. destruct (blep_in fpi ftau fsin fcos t1 dt P D) as [B1 _]. destruct P as [P1 P2].
  destruct (mul_in (q_frac O 2 1) t1 0 8) as [[A1 A2] A3]; try lia; try assumption; [rewrite V2; lra |]. rewrite V2 in A3.
  destruct (sub_in (q_frac O 2 1) (q_frac O 2 1) 0 0) as [_ _]; try lia; try assumption; [rewrite V2; lra |].
  destruct (sub_in (fmul (q_frac O 2 1) t1) (q_frac O 1 1) (-4) 4) as [[C1 C2] C3]; try lia; try assumption; [rewrite V1; lra |]. rewrite V1 in C3.
  set (n := fsub (fmul (q_frac O 2 1) t1) (q_frac O 1 1)) in *.
  assert (Bd : -1 <= val (blep O t1 dt) <= 1).
  { destruct (blep_in fpi ftau fsin fcos t1 dt (conj P1 P2) D) as [_ [[? ?] | [[? ?] | ?]]]; lra. }
  destruct (sub_in n (blep O t1 dt) (-8) 8) as [_ E3]; try lia; try assumption; [lra |].
  err (2 * val t1) G1. err (val (fmul (q_frac O 2 1) t1) - 1) G2. err (val n - val (blep O t1 dt)) G3.
  rewrite <- A3 in G1. rewrite <- C3 in G2. rewrite E3. apply abs_le in B.
  assert (G0 : Rabs (rnd (val t + 1 / 2) - (val t + 1 / 2)) <= e) by (apply err2; lra).
  destruct (HH_near dt _ _ M G0) as [_ N]. apply abs_le in N. unfold HH in N. rewrite fold_floor in Pv. rewrite <- Pv in N.
  set (z' := rnd (val t + 1 / 2)) in *. set (z := val t + 1 / 2) in *.
  assert (Ez : z' = val t1 + IZR (Zfloor z')) by (rewrite Pv; unfold fr; lra).
  assert (Ef : z = fr z + IZR (Zfloor z)) by (unfold fr; lra).
  apply Rabs_le. lra.
Qed.
Lemma ramp_near : forall t dt : fl, phase_ok t -> moving dt ->
  Rabs (val (w_ramp O t dt) - w_ramp RPops (val t) (val dt)) <= 5 * ratio dt.
Proof.
  intros t dt T M. destruct (ratio_ok dt M) as (Q1 & Q2 & Q3). pose proof M as [D Dp]. pose proof T as [T1 T2].
  destruct (lit_int fpi ftau fsin fcos 1) as [F1 V1]; [lia |]. destruct (lit_int fpi ftau fsin fcos 2) as [F2 V2]; [lia |].
  destruct (wrap_ok fpi ftau fsin fcos t T1) as [P Pv]; [lra |]. rewrite floor_0 in Pv by lra. rewrite Rminus_0_r in Pv.
  unfold w_ramp in *. unq. rewrite wrap_fr by lra. rewrite fr_id by lra. cbn [q_add q_sub q_mul Fops] in *.
  set (t1 := wrap O t) in *.
  pose proof (blep_near t1 dt P M) as B. pose proof (blep_in fpi ftau fsin fcos t1 dt P D) as [B1 B2]. destruct P as [P1 P2].
  assert (Bd : -1 <= val (blep O t1 dt) <= 1) by (destruct B2 as [[? ?] | [[? ?] | ?]]; lra).
  destruct (mul_in (q_frac O 2 1) t1 0 8) as [[A1 A2] A3]; try lia; try assumption; [rewrite V2; lra |]. rewrite V2 in A3.
  destruct (sub_in (q_frac O 1 1) (fmul (q_frac O 2 1) t1) (-4) 4) as [[C1 C2] C3]; try lia; try assumption; [rewrite V1; lra |]. rewrite V1 in C3.
  set (n := fsub (q_frac O 1 1) (fmul (q_frac O 2 1) t1)) in *.
  destruct (add_in n (blep O t1 dt) (-8) 8) as [_ E3]; try lia; try assumption; [lra |].
  err (2 * val t1) G1. err (1 - val (fmul (q_frac O 2 1) t1)) G2. err (val n + val (blep O t1 dt)) G3.
  rewrite <- A3 in G1. rewrite <- C3 in G2. rewrite E3. apply abs_le in B. rewrite Pv in *. apply Rabs_le. lra.
Qed.
Lemma square_near : forall t dt : fl, phase_ok t -> moving dt -> ~ (val t < 1 / 2 /\ rnd (val t + 1 / 2) = 1) ->
  Rabs (val (w_sqr O t dt) - w_sqr RPops (val t) (val dt)) <= 11 * ratio dt.
Proof.
  intros t dt T M X. destruct (ratio_ok dt M) as (Q1 & Q2 & Q3). pose proof M as [D Dp]. pose proof T as [T1 T2].
  destruct (lit_half fpi ftau fsin fcos) as [Fh Vh]. destruct (lit_int fpi ftau fsin fcos 1) as [F1 V1]; [lia |].
  destruct (wrap_add fpi ftau fsin fcos t 2 (q_frac O 1 2) T Fh) as [P Pv]; [lia | rewrite Vh; lra |]. rewrite Vh in Pv.
  destruct (square_wave fpi ftau fsin fcos t dt T D) as [_ Sq].
  unfold w_sqr in *. unq. rewrite wrap_fr by lra. cbn [q_add q_sub q_mul q_opp q_ltb Fops] in *. unfold Rltb.
  set (t2 := wrap O (fadd t (q_frac O 1 2))) in *.
  pose proof (blep_near t dt T M) as B. pose proof (blep_near t2 dt P M) as B'.
  destruct (blep_in fpi ftau fsin fcos t dt T D) as [B1 B2]. destruct (blep_in fpi ftau fsin fcos t2 dt P D) as [G1 G2].
  assert (Bd : -1 <= val (blep O t dt) <= 1) by (destruct B2 as [[? ?] | [[? ?] | ?]]; lra).
  assert (Gd : -1 <= val (blep O t2 dt) <= 1) by (destruct G2 as [[? ?] | [[? ?] | ?]]; lra).
  destruct (sub_in (blep O t dt) (blep O t2 dt) (-8) 8) as [[S1 S2] S3]; try lia; try assumption; [lra |].
  err (val (blep O t dt) - val (blep O t2 dt)) H1. rewrite <- S3 in H1. set (d := fsub (blep O t dt) (blep O t2 dt)) in *.
  assert (G0 : Rabs (rnd (val t + 1 / 2) - (val t + 1 / 2)) <= e) by (apply err2; lra).
  destruct (HH_near dt _ _ M G0) as [N _]. apply abs_le in N. unfold HH in N. rewrite fold_floor in Pv. rewrite <- Pv in N.
  apply abs_le in B. apply abs_le in B'.
  assert (Fl : Zfloor (rnd (val t + 1 / 2)) = Zfloor (val t + 1 / 2)).
  { destruct (Rlt_le_dec (val t) (1 / 2)) as [L | L].
    - assert (Rg : IZR 2 / 4 <= rnd (val t + 1 / 2) <= IZR 4 / 4) by (apply quarters; try lia; lra).
      destruct (Rle_lt_or_eq_dec _ _ (proj2 Rg)) as [Lt | Eq]; [| exfalso; apply X; split; lra]. rewrite !floor_0 by lra. reflexivity.
    - assert (Rg : IZR 4 / 4 <= rnd (val t + 1 / 2) <= IZR 6 / 4) by (apply quarters; try lia; lra). rewrite !floor_1 by lra. reflexivity. }
  rewrite Fl in N.
  set (y := if fltb t (q_frac O 1 2) then q_frac O 1 1 else fneg (q_frac O 1 1)) in *.
  assert (Y : fin y /\ val y = if Rlt_dec (val t) (1 / 2) then 1 else -1).
  { unfold y. rewrite fltb_ok by assumption. rewrite Vh. destruct (Rlt_dec (val t) (1 / 2)) as [L | L].
    - rewrite Rlt_bool_true by exact L. split; assumption.
    - rewrite Rlt_bool_false by lra. split; [apply fin_fneg; exact F1 | rewrite val_fneg, V1; reflexivity]. }
  destruct Y as [Y1 Y2]. destruct (add_in y d (-12) 12) as [_ E3]; try lia; try assumption; [rewrite Y2; destruct (Rlt_dec _ _); lra |].
  assert (Sm : -1 <= val (fadd y d) <= 1).
  { destruct Sq as [Sq | (Z1 & Z2 & _)]; [apply Rabs_le_inv in Sq; exact Sq | exfalso; apply X; split; assumption]. }
  assert (Yd : -2 <= val y + val d <= 2).
  { destruct (Rle_lt_dec (-2) (val y + val d)) as [U | U]; [destruct (Rle_lt_dec (val y + val d) 2) as [V | V] |]; [lra | |]; exfalso.
    - assert (IZR 8 / 4 <= rnd (val y + val d)) by (rewrite <- (rnd_quarter 8) by (cbn; lia); apply rnd_le; lra). lra.
    - assert (rnd (val y + val d) <= IZR (-8) / 4) by (rewrite <- (rnd_quarter (-8)) by (cbn; lia); apply rnd_le; lra). lra. }
  err (val y + val d) H2. rewrite <- E3 in H2. rewrite Y2 in H2. destruct (Rlt_dec (val t) (1 / 2)); apply Rabs_le; lra.
Qed.
End Near.
