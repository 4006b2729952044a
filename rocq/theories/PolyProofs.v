From Coq Require Import Reals Lra Lia.
From Flocq Require Import Core BinarySingleNaN.
From Verif Require Import Base FloatBase FloatMore PolyModel PolySpec AllpassProofs.
Local Open Scope R_scope.

(** * The phase *)
Section Phase.
Context {prec emax : Z} {I : ieee prec emax}.
Notation fl := (binary_float prec emax).
Notation fx := (SpecFloat.fexp prec emax).

Lemma fexp_FLT : forall e, fx e = FLT_exp (SpecFloat.emin prec emax) prec e. Proof. reflexivity. Qed.

(** Subtracting the integral part of a number that is not negative is exact. *)
Lemma frac_format : forall x : fl, 0 <= val x -> generic_format radix2 fx (val x - IZR (Zfloor (val x))).
Proof.
  intros x H. destruct (Rlt_or_le (val x) 1) as [L | L].
  { replace (Zfloor (val x)) with 0%Z by (symmetry; apply Zfloor_imp; cbn; lra). rewrite Rminus_0_r. apply generic_format_B2R. }
  pose proof (generic_format_B2R prec emax x) as G. change (B2R x) with (val x) in G.
  assert (N : val x <> 0) by lra.
  unfold generic_format in G. set (e := cexp radix2 fx (val x)) in *. set (m := Ztrunc (scaled_mantissa radix2 fx (val x))) in *.
  assert (Bm : (Z.abs m < 2 ^ prec)%Z).
  { pose proof (generic_format_B2R prec emax x) as G2. change (B2R x) with (val x) in G2.
    pose proof (scaled_mantissa_lt_bpow radix2 fx (val x)) as S.
    apply lt_IZR. rewrite abs_IZR. unfold m.
    assert (Es : IZR (Ztrunc (scaled_mantissa radix2 fx (val x))) = scaled_mantissa radix2 fx (val x)).
    { symmetry. apply scaled_mantissa_generic. exact G2. }
    rewrite Es. eapply Rlt_le_trans; [apply S |].
    change (2 ^ prec)%Z with (radix_val radix2 ^ prec)%Z. rewrite IZR_Zpower by (destruct I; lia).
    apply bpow_le. unfold cexp, SpecFloat.fexp. lia. }
  destruct (Z_le_gt_dec 0 e) as [E | E].
  - assert (Q : val x = IZR (m * 2 ^ e)).
    { rewrite G. unfold F2R. cbn [Fnum Fexp]. rewrite mult_IZR. f_equal.
      change (2 ^ e)%Z with (radix_val radix2 ^ e)%Z. rewrite IZR_Zpower by exact E. reflexivity. }
    rewrite Q. rewrite Zfloor_IZR. rewrite Rminus_diag_eq by reflexivity. apply generic_format_0.
  - set (fl0 := Zfloor (val x)).
    assert (Q : val x - IZR fl0 = F2R (Float radix2 (m - fl0 * 2 ^ (- e)) e)).
    { rewrite G at 1. unfold F2R. cbn [Fnum Fexp]. rewrite minus_IZR, mult_IZR.
      change (2 ^ (- e))%Z with (radix_val radix2 ^ (- e))%Z. rewrite IZR_Zpower by lia.
      rewrite Rmult_minus_distr_r. rewrite Rmult_assoc, <- bpow_plus. replace (- e + e)%Z with 0%Z by lia. cbn [bpow]. ring. }
    assert (P0 : 0 < bpow radix2 e) by apply bpow_gt_0.
    assert (F1 : IZR fl0 <= val x < IZR fl0 + 1) by (split; [apply Zfloor_lb | apply Zfloor_ub]).
    rewrite Q. apply generic_format_FLT. eexists; [reflexivity | | ]; cbn [Fnum Fexp].
    + assert (Hx : val x = IZR m * bpow radix2 e) by exact G.
      assert (D : 0 <= IZR (m - fl0 * 2 ^ (- e)) <= IZR m).
      { assert (D1 : 0 <= IZR (m - fl0 * 2 ^ (- e)) * bpow radix2 e <= IZR m * bpow radix2 e).
        { change (IZR (m - fl0 * 2 ^ (- e)) * bpow radix2 e) with (F2R (Float radix2 (m - fl0 * 2 ^ (- e)) e)). rewrite <- Q, <- Hx.
          assert (0 <= IZR fl0). { apply IZR_le. apply Zfloor_lub. cbn. lra. } lra. }
        split; [apply Rmult_le_reg_r with (bpow radix2 e); lra | apply Rmult_le_reg_r with (bpow radix2 e); lra]. }
      destruct D as [D1 D2]. apply le_IZR in D1. apply le_IZR in D2. change (radix_val radix2) with 2%Z. lia.
    + unfold e, cexp, SpecFloat.fexp. lia.
Qed.
Lemma Btrunc_eq : forall x : fl, Btrunc x = Ztrunc (val x).
Proof.
  intros x. pose proof (ieee_lt (prec := prec) (emax := emax)) as H0.
  assert (P : Prec_lt_emax prec emax) by exact H0.
  pose proof (@Btrunc_correct prec emax P x) as E. unfold round, F2R, scaled_mantissa, cexp, FIX_exp in E. cbn [Fnum Fexp] in E.
  change (bpow radix2 0) with 1 in E. cbn [Z.opp] in E. change (bpow radix2 0) with 1 in E. rewrite !Rmult_1_r in E.
  apply eq_IZR in E. exact E.
Qed.
Lemma floor_format : forall x : fl, 0 <= val x -> generic_format radix2 fx (IZR (Zfloor (val x))).
Proof.
  intros x H. destruct (Z_lt_le_dec (Zfloor (val x)) (2 ^ prec)) as [L | L].
  - assert (0 <= Zfloor (val x))%Z by (apply Zfloor_lub; exact H).
    apply generic_format_FLT. exists (Float radix2 (Zfloor (val x)) 0); cbn [Fnum Fexp].
    + unfold F2R. cbn. ring.
    + change (radix_val radix2) with 2%Z. lia.
    + unfold SpecFloat.emin. destruct I. lia.
  - (* a number this large is an integer *)
    assert (V : bpow radix2 prec <= val x).
    { apply Rle_trans with (IZR (Zfloor (val x))); [| apply Zfloor_lb]. rewrite <- IZR_Zpower by (destruct I; lia). apply IZR_le. exact L. }
    assert (P0 : 0 < bpow radix2 prec) by apply bpow_gt_0.
    pose proof (generic_format_B2R prec emax x) as G. change (B2R x) with (val x) in G.
    assert (E : (0 <= cexp radix2 fx (val x))%Z).
    { unfold cexp. assert (M : (prec + 1 <= mag radix2 (val x))%Z).
      { replace (prec + 1)%Z with (mag radix2 (bpow radix2 prec) : Z) by (rewrite mag_bpow; reflexivity). apply mag_le; assumption. }
      unfold SpecFloat.fexp. lia. }
    assert (Q : val x = IZR (Ztrunc (scaled_mantissa radix2 fx (val x)) * 2 ^ cexp radix2 fx (val x))).
    { unfold generic_format in G. rewrite G at 1. unfold F2R. cbn [Fnum Fexp]. rewrite mult_IZR. f_equal.
      change (2 ^ cexp radix2 fx (val x))%Z with (radix_val radix2 ^ cexp radix2 fx (val x))%Z. rewrite IZR_Zpower by exact E. reflexivity. }
    replace (IZR (Zfloor (val x))) with (val x); [exact G |]. rewrite Q. rewrite Zfloor_IZR. reflexivity.
Qed.
Lemma ftrunc_ok : forall x : fl, fin x -> 0 <= val x -> fin (ftrunc x) /\ val (ftrunc x) = IZR (Zfloor (val x)).
Proof.
  intros x F H. assert (N : 0 <= IZR (Zfloor (val x)) <= val x).
  { split; [apply IZR_le; apply Zfloor_lub; exact H | apply Zfloor_lb]. }
  destruct x as [s | s | | s m e B]; try discriminate F.
  - split; [reflexivity |]. cbn. change 0 with (IZR 0) at 2. rewrite Zfloor_IZR. reflexivity.
  - set (x := B754_finite s m e B : fl) in *.
    change (ftrunc x) with (binary_normalize prec emax _ _ mode_NE (Btrunc x) 0 s).
    pose proof (binary_normalize_correct prec emax _ _ mode_NE (Btrunc x) 0 s) as C. cbv zeta in C.
    rewrite Btrunc_eq in *. rewrite Ztrunc_floor in * by exact H.
    assert (E : F2R (Float radix2 (Zfloor (val x)) 0) = IZR (Zfloor (val x))) by (unfold F2R; cbn; ring).
    change (round_mode mode_NE) with ZnearestE in C. rewrite E in C.
    rewrite round_generic in C by (typeclasses eauto || apply floor_format; exact H).
    rewrite Rlt_bool_true in C.
    + destruct C as (C1 & C2 & _). split; assumption.
    + rewrite Rabs_pos_eq by lra. eapply Rle_lt_trans; [apply N |]. eapply Rle_lt_trans; [apply Rle_abs |]. apply (val_top x).
Qed.
(** [t -= t.trunc()] *)
Lemma wrap_ok : forall fpi ftau fsin fcos (x : fl), fin x -> 0 <= val x ->
  phase_ok (wrap (Fops fpi ftau fsin fcos) x) /\ val (wrap (Fops fpi ftau fsin fcos) x) = val x - IZR (Zfloor (val x)).
Proof.
  intros fpi ftau fsin fcos x F H. unfold wrap. cbn [Fops q_sub q_trunc].
  destruct (ftrunc_ok x F H) as [F1 V1].
  assert (N : 0 <= val x - IZR (Zfloor (val x)) < 1) by (pose proof (Zfloor_lb (val x)); pose proof (Zfloor_ub (val x)); lra).
  assert (R : @rnd prec emax (val x - val (ftrunc x)) = val x - IZR (Zfloor (val x))).
  { rewrite V1. apply rnd_format. apply frac_format. exact H. }
  destruct (fsub_ok x (ftrunc x) F F1) as [A B].
  - rewrite R. apply below_top with 0%Z; [destruct I; lia |]. cbn [bpow]. rewrite Rabs_pos_eq; lra.
  - unfold phase_ok. rewrite A, R. repeat split; try exact B; lra.
Qed.

Definition poly_ok (s : poly fl) : Prop :=
  phase_ok (p_t s) /\ (fin (p_sr s) /\ 1 <= val (p_sr s)) /\
  (fin (p_dt s) /\ 0 <= val (p_dt s) <= bpow radix2 100) /\ (fin (p_hz s) /\ 0 <= val (p_hz s) <= bpow radix2 100).
Lemma div_ok : forall x y : fl, fin x -> 0 <= val x <= bpow radix2 100 -> 1 <= val y ->
  fin (fdiv x y) /\ 0 <= val (fdiv x y) <= bpow radix2 100.
Proof.
  intros x y F H G.
  assert (D : 0 <= val x / val y <= bpow radix2 100).
  { split.
    - apply Rmult_le_pos; [lra |]. apply Rlt_le. apply Rinv_0_lt_compat. lra.
    - apply Rle_trans with (val x); [| lra]. unfold Rdiv. rewrite <- (Rmult_1_r (val x)) at 2. apply Rmult_le_compat_l; [lra |].
      rewrite <- Rinv_1. apply Rinv_le_contravar; lra. }
  destruct (fdiv_ok x y F) as [A B]; [lra | |].
  - apply fits with 100%Z; [destruct I; lia |]. rewrite Rabs_pos_eq; lra.
  - split; [exact B |]. rewrite A. apply rnd_between; [apply rnd_0 | apply rnd_bpow; lia | exact D].
Qed.
Lemma step_ok : forall fpi ftau fsin fcos s (o : poly_op fl), poly_ok s -> op_ok o ->
  poly_ok (fst (poly_step (Fops fpi ftau fsin fcos) s o)).
Proof.
  intros fpi ftau fsin fcos s o (T & (S1 & S2) & (D1 & D2) & (H1 & H2)) G.
  destruct o; cbn [poly_step fst op_ok] in *; try contradiction.
  - destruct G as [G1 G2]. unfold poly_init. cbn [with_sr p_dt p_hz].
    match goal with |- poly_ok (if ?b then _ else _) => destruct b end.
    + unfold set_freq, set_dt, with_sr. cbn. destruct (div_ok (p_hz s) sr H1 H2 G2). unfold poly_ok; cbn. tauto.
    + unfold poly_ok, with_sr; cbn. tauto.
  - destruct G as [G1 G2]. destruct (div_ok hz (p_sr s) G1 G2 S2). unfold poly_ok, set_freq, set_dt; cbn. tauto.
  - unfold poly_ok; cbn. tauto.
  - unfold poly_ok; cbn. tauto.
  - unfold poly_ok, set_dt; cbn. tauto.
  - destruct G as [G1 [G2 G3]]. unfold sync. cbn [Fops q_leb q_frac q_sub q_trunc].
    destruct (fz_small (prec := prec) (emax := emax) 0) as [Z1 Z2]; [cbn; lia |].
    destruct (fz_small (prec := prec) (emax := emax) 1) as [O1 O2]; [cbn; lia |].
    assert (Zz : val (fdiv (fz 0) (fz 1) : fl) = 0 /\ fin (fdiv (fz 0) (fz 1) : fl)).
    { destruct (fdiv_ok (fz 0 : fl) (fz 1)) as [A B]; [exact Z2 | rewrite O1; lra | |].
      - rewrite Z1. unfold Rdiv. rewrite Rmult_0_l, rnd_0, Rabs_R0. unfold top. apply bpow_gt_0.
      - rewrite A, Z1. unfold Rdiv. rewrite Rmult_0_l, rnd_0. split; [reflexivity | exact B]. }
    destruct Zz as [Zz1 Zz2]. rewrite fleb_ok by assumption. rewrite Zz1, Rle_bool_true by exact G2.
    destruct (wrap_ok fpi ftau fsin fcos phase G1 G2) as [W _]. unfold wrap in W. cbn [Fops q_sub q_trunc] in W.
    unfold poly_ok, with_t; cbn [p_t p_sr p_dt p_hz]. tauto.
  - destruct T as [T1 T2]. unfold inc. cbn [Fops q_add].
    assert (Bd : 0 <= val (p_t s) + val (p_dt s) <= bpow radix2 101).
    { split; [lra |]. replace (bpow radix2 101) with (2 * bpow radix2 100) by (change 101%Z with (1 + 100)%Z; rewrite bpow_plus; reflexivity).
      assert (1 <= bpow radix2 100) by (change 1 with (bpow radix2 0); apply bpow_le; lia). lra. }
    destruct (fadd_ok (p_t s) (p_dt s) T1 D1) as [A B].
    { apply fits with 101%Z; [destruct I; lia |]. rewrite Rabs_pos_eq; lra. }
    assert (P : 0 <= val (fadd (p_t s) (p_dt s))) by (rewrite A; rewrite <- (@rnd_0 prec emax); apply rnd_le; lra).
    destruct (wrap_ok fpi ftau fsin fcos (fadd (p_t s) (p_dt s)) B P) as [W _].
    unfold poly_ok, with_t; cbn [p_t p_sr p_dt p_hz]. tauto.
Qed.
Lemma run_ok : forall fpi ftau fsin fcos l (s : poly fl), poly_ok s -> Forall op_ok l ->
  poly_ok (poly_run (Fops fpi ftau fsin fcos) s l).
Proof.
  intros fpi ftau fsin fcos. induction l as [| o l IH]; intros s H G; [exact H |].
  inversion G; subst. cbn [poly_run]. apply IH; [apply step_ok |]; assumption.
Qed.

(** * Drift *)
Lemma two_error : forall x, 0 <= x < 2 -> Rabs (@rnd prec emax x - x) <= bpow radix2 (- prec).
Proof.
  intros x Hx. destruct (Req_dec x 0) as [-> | N].
  - rewrite rnd_0, Rminus_0_r, Rabs_R0. apply bpow_ge_0.
  - eapply Rle_trans; [apply error_le_half_ulp; exact (FLT_exp_valid (SpecFloat.emin prec emax) prec) |].
    rewrite ulp_neq_0 by exact N. unfold cexp.
    assert (M : (mag radix2 x <= 1)%Z) by (apply mag_le_bpow; [exact N | change (bpow radix2 1) with 2; rewrite Rabs_pos_eq; lra]).
    replace (/ 2) with (bpow radix2 (-1)) by reflexivity. rewrite <- bpow_plus. apply bpow_le.
    unfold SpecFloat.fexp, SpecFloat.emin. destruct I. lia.
Qed.
Lemma inc_step : forall fpi ftau fsin fcos (s : poly fl), phase_ok (p_t s) -> fin (p_dt s) -> 0 <= val (p_dt s) < 1 ->
  let s' := inc (Fops fpi ftau fsin fcos) s in
  phase_ok (p_t s') /\ exists k, Rabs (val (p_t s') - (val (p_t s) + val (p_dt s) - IZR k)) <= bpow radix2 (- prec).
Proof.
  intros fpi ftau fsin fcos s [T1 T2] D1 D2 s'.
  destruct (fadd_ok (p_t s) (p_dt s) T1 D1) as [A B].
  { apply fits with 1%Z; [destruct I; lia |]. change (bpow radix2 1) with 2. rewrite Rabs_pos_eq; lra. }
  assert (P : 0 <= val (fadd (p_t s) (p_dt s))) by (rewrite A; rewrite <- (@rnd_0 prec emax); apply rnd_le; lra).
  destruct (wrap_ok fpi ftau fsin fcos (fadd (p_t s) (p_dt s)) B P) as [W V].
  split; [exact W |]. exists (Zfloor (val (fadd (p_t s) (p_dt s)))). unfold s', inc. cbn [with_t p_t]. unfold Fops at 2. cbn [q_add].
  rewrite V. rewrite A at 1.
  replace (rnd (val (p_t s) + val (p_dt s)) - IZR (Zfloor (val (fadd (p_t s) (p_dt s)))) -
    (val (p_t s) + val (p_dt s) - IZR (Zfloor (val (fadd (p_t s) (p_dt s)))))) with
    (@rnd prec emax (val (p_t s) + val (p_dt s)) - (val (p_t s) + val (p_dt s))) by ring.
  apply two_error. lra.
Qed.
Lemma drift : forall fpi ftau fsin fcos n (s : poly fl), phase_ok (p_t s) -> fin (p_dt s) -> 0 <= val (p_dt s) < 1 ->
  exists k, Rabs (val (p_t (poly_run (Fops fpi ftau fsin fcos) s (repeat PSample n))) - (val (p_t s) + INR n * val (p_dt s) - IZR k))
    <= INR n * bpow radix2 (- prec).
Proof.
  intros fpi ftau fsin fcos. induction n as [| n IH]; intros s T D1 D2.
  - exists 0%Z. cbn [repeat poly_run INR]. rewrite Rmult_0_l, Rmult_0_l. replace (val (p_t s) - (val (p_t s) + 0 - 0)) with 0 by ring. rewrite Rabs_R0. lra.
  - cbn [repeat poly_run poly_step fst]. destruct (inc_step fpi ftau fsin fcos s T D1 D2) as [T' [k Hk]].
    destruct (IH (inc (Fops fpi ftau fsin fcos) s) T' D1 D2) as [m Hm].
    exists (k + m)%Z. rewrite plus_IZR, S_INR. change (p_dt (inc (Fops fpi ftau fsin fcos) s)) with (p_dt s) in Hm.
    set (a := val (p_t (inc (Fops fpi ftau fsin fcos) s))) in *. set (b := val (p_t (poly_run _ _ _))) in *.
    replace (b - (val (p_t s) + (INR n + 1) * val (p_dt s) - (IZR k + IZR m))) with
      ((b - (a + INR n * val (p_dt s) - IZR m)) + (a - (val (p_t s) + val (p_dt s) - IZR k))) by ring.
    eapply Rle_trans; [apply Rabs_triang |]. lra.
Qed.
Lemma init_ok : forall fpi ftau fsin fcos w (freq sr : fl), fin freq -> 0 <= val freq <= bpow radix2 100 -> fin sr -> 1 <= val sr ->
  poly_ok (fst (poly_step (Fops fpi ftau fsin fcos) (poly_new (Fops fpi ftau fsin fcos) w freq) (PInit sr))).
Proof.
  intros fpi ftau fsin fcos w freq sr F1 F2 S1 S2. cbn [poly_step fst]. unfold poly_init, poly_new. cbn [with_sr p_dt p_hz Fops q_frac].
  destruct (fz_small (prec := prec) (emax := emax) 0) as [Z1 Z2]; [cbn; lia |].
  destruct (fz_small (prec := prec) (emax := emax) 1) as [O1 O2]; [cbn; lia |].
  assert (Zz : val (fdiv (fz 0) (fz 1) : fl) = 0 /\ fin (fdiv (fz 0) (fz 1) : fl)).
  { destruct (fdiv_ok (fz 0 : fl) (fz 1)) as [A B]; [exact Z2 | rewrite O1; lra | |].
    - rewrite Z1. unfold Rdiv. rewrite Rmult_0_l, rnd_0, Rabs_R0. unfold top. apply bpow_gt_0.
    - rewrite A, Z1. unfold Rdiv. rewrite Rmult_0_l, rnd_0. split; [reflexivity | exact B]. }
  destruct Zz as [Zz1 Zz2]. set (z := fdiv (fz 0) (fz 1) : fl) in *. clearbody z.
  pose proof (bpow_ge_0 radix2 100) as Bp.
  match goal with |- poly_ok (if ?b then _ else _) => destruct b end.
  - destruct (div_ok freq sr F1 F2 S2). unfold set_freq, set_dt, with_sr, poly_ok, phase_ok. cbn. rewrite Zz1. repeat split; tauto || lra.
  - unfold poly_ok, phase_ok, with_sr. cbn. rewrite Zz1. repeat split; tauto || lra.
Qed.
End Phase.
