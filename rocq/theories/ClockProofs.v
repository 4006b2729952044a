From Coq Require Import Reals Lra.
From Flocq Require Import Core BinarySingleNaN Sterbenz Mult_error.
From Verif Require Import Base FloatBase FloatMore AllpassSpec AllpassProofs NoiseSpec NoiseProofs ClockModel ClockSpec.
Local Open Scope R_scope.

Section Clock.
Context {prec emax : Z} {I : ieee prec emax}.
Notation fl := (binary_float prec emax).
Notation rnd := (@rnd prec emax).

Lemma pe : (24 <= prec < emax)%Z /\ (128 <= emax)%Z.
Proof. pose proof (ieee_prec (prec := prec) (emax := emax)). pose proof (ieee_emax (prec := prec) (emax := emax)). pose proof (ieee_lt (prec := prec) (emax := emax)). lia. Qed.
(** Rounding errors below a power of two *)
Lemma rnd_off : forall x k, (-100 <= k)%Z -> 0 <= x < bpow radix2 k -> Rabs (rnd x - x) <= bpow radix2 (k - prec - 1).
Proof.
  intros x k Hk Hx. pose proof pe. destruct (Req_dec x 0) as [-> | N].
  - rewrite rnd_0, Rminus_0_r, Rabs_R0. apply bpow_ge_0.
  - eapply Rle_trans; [apply error_le_half_ulp; exact (FLT_exp_valid (SpecFloat.emin prec emax) prec) |].
    rewrite ulp_neq_0 by exact N. unfold cexp.
    assert (M : (mag radix2 x <= k)%Z) by (apply mag_le_bpow; [exact N | rewrite Rabs_pos_eq; lra]).
    replace (/ 2) with (bpow radix2 (-1)) by reflexivity. rewrite <- bpow_plus. apply bpow_le.
    unfold SpecFloat.fexp, SpecFloat.emin. lia.
Qed.
Lemma rnd_off_le : forall x k, (-100 <= k)%Z -> 0 <= x <= bpow radix2 k -> Rabs (rnd x - x) <= bpow radix2 (k - prec - 1).
Proof.
  intros x k Hk Hx. destruct (Req_dec x (bpow radix2 k)) as [-> | N]; [| apply rnd_off; [exact Hk | lra]].
  rewrite rnd_bpow by lia. unfold Rminus. rewrite Rplus_opp_r, Rabs_R0. apply bpow_ge_0.
Qed.
Lemma int_ok : forall z, rnd (IZR z) = IZR z -> (Z.abs z <= 2 ^ 53)%Z -> fin (fz z : fl) /\ val (fz z : fl) = IZR z.
Proof.
  intros z E H. pose proof pe. destruct (fz_ok (prec := prec) (emax := emax) z) as [A B].
  { rewrite E. apply below_top with 53%Z; [lia |]. pose proof (grid_size z 0 53 H ltac:(lia)) as G. change (bpow radix2 0) with 1 in G. rewrite Rmult_1_r in G. exact G. }
  split; [exact B |]. rewrite A. exact E.
Qed.
Lemma rnd_small : forall z, (Z.abs z <= 2 ^ prec)%Z -> rnd (IZR z) = IZR z.
Proof. intros z H. pose proof (rnd_grid (prec := prec) (emax := emax) z 0 H ltac:(lia)) as E. change (bpow radix2 0) with 1 in E. rewrite Rmult_1_r in E. exact E. Qed.
Lemma trunc_floor : forall (x : fl), 0 <= val x -> Btrunc x = Zfloor (val x).
Proof.
  intros x P. pose proof (trunc_le x P) as [_ [_ [A B]]]. pose proof (Zfloor_lb (val x)) as L. pose proof (Zfloor_ub (val x)) as U.
  assert (IZR (Btrunc x) < IZR (Zfloor (val x) + 1)) by (rewrite plus_IZR; lra).
  assert (IZR (Zfloor (val x)) < IZR (Btrunc x + 1)) by (rewrite plus_IZR; lra). apply lt_IZR in H. apply lt_IZR in H0. lia.
Qed.
(** The fractional part is exact *)
Lemma part_exact : forall (x : fl), fin x -> 0 <= val x < bpow radix2 32 ->
  let z := Zfloor (val x) in Btrunc x = z /\ fin (part x) /\ val (part x) = val x - IZR z.
Proof.
  intros x Fx [Px Lx] z. pose proof pe as PE. assert (z0 : (0 <= z)%Z) by (apply Zfloor_lub; exact Px).
  pose proof (Zfloor_lb (val x)) as L. pose proof (Zfloor_ub (val x)) as U. fold z in L, U.
  assert (zl : (z < 2 ^ 32)%Z) by (apply lt_IZR; change (IZR (2 ^ 32)) with (bpow radix2 32); lra).
  assert (T : Btrunc x = z) by (apply trunc_floor; exact Px).
  assert (E : rnd (val x - IZR z) = val x - IZR z /\ rnd (IZR z) = IZR z).
  { assert (G : FLT_format radix2 (SpecFloat.emin prec emax) prec (val x)) by (apply FLT_format_generic; [red; lia | exact (generic_format_B2R prec emax x)]).
    destruct G as [[M e] V MB EB]. cbn [Fnum Fexp] in MB, EB. unfold F2R in V. cbn [Fnum Fexp] in V. set (v := val x) in *.
    destruct (Z_lt_le_dec e 0) as [Ne | Pe].
    + (* a fraction with the same exponent *)
      assert (W : v - IZR z = IZR (M - z * 2 ^ (- e)) * bpow radix2 e).
      { change (2 ^ (- e))%Z with (radix2 ^ (- e))%Z. rewrite minus_IZR, mult_IZR, (IZR_Zpower radix2 (- e)) by lia. rewrite Rmult_minus_distr_r, Rmult_assoc, <- bpow_plus.
        replace (- e + e)%Z with 0%Z by lia. change (bpow radix2 0) with 1. rewrite <- V. ring. }
      assert (P : 0 < bpow radix2 e) by apply bpow_gt_0.
      split.
      * rewrite W. apply rnd_format. apply (generic_format_FLT radix2 (SpecFloat.emin prec emax) prec).
        exists (Float radix2 (M - z * 2 ^ (- e)) e); [reflexivity | | exact EB]. cbn [Fnum].
        assert (Q0 : 0 <= IZR (M - z * 2 ^ (- e))) by (apply Rmult_le_reg_r with (bpow radix2 e); [exact P |]; rewrite <- W; lra).
        apply le_IZR in Q0. assert (Q1 : (M - z * 2 ^ (- e) <= M)%Z) by (assert (0 <= z * 2 ^ (- e))%Z by (apply Z.mul_nonneg_nonneg; [exact z0 | apply Z.pow_nonneg; lia]); lia).
        clear - Q0 Q1 MB. change (Z.pow_pos 2) with (Z.pow_pos 2) in *. lia.
      * apply rnd_small. rewrite Z.abs_eq by exact z0. apply le_IZR. apply Rle_trans with (1 := L). rewrite V.
        change (2 ^ prec)%Z with (radix2 ^ prec)%Z. rewrite (IZR_Zpower radix2 prec) by lia.
        assert (M0 : 0 <= IZR M) by (apply Rmult_le_reg_r with (bpow radix2 e); [exact P | rewrite <- V; lra]). apply le_IZR in M0.
        rewrite Z.abs_eq in MB by exact M0. apply IZR_lt in MB. rewrite (IZR_Zpower radix2 prec) in MB by lia.
        assert (bpow radix2 e <= 1) by (change 1 with (bpow radix2 0); apply bpow_le; lia). apply IZR_le in M0.
        apply Rle_trans with (IZR M * 1); [apply Rmult_le_compat_l; lra | lra].
    + (* a whole number *)
      assert (W : v = IZR (M * 2 ^ e)) by (change (2 ^ e)%Z with (radix2 ^ e)%Z; rewrite mult_IZR, (IZR_Zpower radix2 e) by exact Pe; exact V).
      assert (Z1 : z = (M * 2 ^ e)%Z) by (unfold z; rewrite W; apply Zfloor_IZR).
      assert (Z2 : v = IZR z) by (rewrite W, Z1; reflexivity). split.
      * rewrite Z2. unfold Rminus. rewrite Rplus_opp_r. apply rnd_0.
      * rewrite <- Z2. apply rnd_val. }
  destruct E as [E E2]. split; [exact T |]. destruct (int_ok z E2 ltac:(lia)) as [Fz Vz].
  assert (Ef : part x = fsub x (fz z)) by (unfold part; unfold fin in Fx; rewrite Fx, T; reflexivity). rewrite Ef.
  destruct (fsub_ok x (fz z) Fx Fz) as [A B]; [rewrite Vz, E; apply below_top with 0%Z; [lia |]; change (bpow radix2 0) with 1; rewrite Rabs_pos_eq by lra; lra |].
  split; [exact B |]. rewrite A, Vz. exact E.
Qed.
Lemma part_less : forall (x : fl), fin x -> 0 <= val x < bpow radix2 32 -> 0 <= val (part x) <= 1 - bpow radix2 (- prec).
Proof.
  intros x Fx Hx. pose proof pe as PE. destruct (part_exact x Fx Hx) as (_ & _ & V). pose proof (Zfloor_lb (val x)) as L. pose proof (Zfloor_ub (val x)) as U.
  split; [rewrite V; lra |].
  assert (E : pred radix2 (SpecFloat.fexp prec emax) 1 = 1 - bpow radix2 (- prec)).
  { change 1 with (bpow radix2 0). rewrite pred_bpow. f_equal. f_equal. unfold SpecFloat.fexp, SpecFloat.emin. lia. }
  rewrite <- E. apply pred_ge_gt; [exact (FLT_exp_valid _ _) | apply generic_format_B2R | change 1 with (bpow radix2 0); apply bpow_format; lia |].
  change (B2R (part x)) with (val (part x)). rewrite V. lra.
Qed.
Lemma to_u32_fin : forall x : fl, fin x -> to_u32 x = Z.to_N (Z.min (Btrunc x) (2 ^ 32 - 1)).
Proof. intros x F. destruct x as [s | s | | s m e B]; try (exfalso; unfold fin in F; discriminate F); reflexivity. Qed.

Variables T K : Z.
Hypothesis HC : clock T K.
Lemma Tb : (2 ^ (K - 1) < T < 2 ^ K)%Z /\ (K <= 31)%Z /\ (29 <= K)%Z.
Proof using HC. destruct HC as [[-> ->] | [-> ->]]; unfold second_tesimals, beat_tesimals; lia. Qed.
Lemma T_ok : fin (fz T : fl) /\ val (fz T : fl) = IZR T.
Proof using HC.
  apply int_ok; [| destruct HC as [[-> ->] | [-> ->]]; unfold second_tesimals, beat_tesimals; lia]. pose proof pe.
  assert (P : (2 ^ 24 <= 2 ^ prec)%Z) by (apply Z.pow_le_mono_r; lia).
  destruct HC as [[-> _] | [-> _]].
  - replace (IZR second_tesimals) with (IZR 275625 * bpow radix2 10) by (change (bpow radix2 10) with 1024; unfold second_tesimals; lra). apply rnd_grid; lia.
  - replace (IZR beat_tesimals) with (IZR 45045 * bpow radix2 15) by (change (bpow radix2 15) with 32768; unfold beat_tesimals; lra). apply rnd_grid; lia.
Qed.
Lemma T_real : bpow radix2 (K - 1) < IZR T < bpow radix2 K.
Proof using HC. destruct Tb as [[A B] C]. rewrite <- !(IZR_Zpower radix2) by lia. split; apply IZR_lt; assumption. Qed.
(** The number of tesimals *)
Lemma ticks_of_part : forall (x : fl), fin x -> 0 <= val x < bpow radix2 32 ->
  let y := fmul (part x) (fz T) in fin y /\ val y = rnd (val (part x) * IZR T) /\ 0 <= val y < IZR T /\ Rabs (val y - val (part x) * IZR T) <= bpow radix2 (K - prec - 1).
Proof using HC.
  intros x Fx Hx y. pose proof pe as PE. destruct (part_exact x Fx Hx) as (_ & Ff & _). pose proof (part_less x Fx Hx) as [f0 f1].
  destruct T_ok as [FT VT]. pose proof T_real as [T0 T1]. destruct Tb as (_ & K1 & K2). pose proof (bpow_gt_0 radix2 (K - 1)) as B0. pose proof (bpow_gt_0 radix2 (- prec)) as B1.
  set (f := part x) in *. assert (P0 : 0 <= val f * IZR T) by (apply Rmult_le_pos; lra).
  assert (P1 : val f * IZR T <= IZR T - bpow radix2 (- prec) * IZR T).
  { replace (IZR T - bpow radix2 (- prec) * IZR T) with ((1 - bpow radix2 (- prec)) * IZR T) by ring. apply Rmult_le_compat_r; lra. }
  assert (P2 : bpow radix2 (K - prec - 1) < bpow radix2 (- prec) * IZR T).
  { replace (K - prec - 1)%Z with (- prec + (K - 1))%Z by lia. rewrite bpow_plus. apply Rmult_lt_compat_l; lra. }
  pose proof (bpow_gt_0 radix2 (K - prec - 1)) as B2.
  assert (P3 : 0 <= val f * IZR T < bpow radix2 K) by lra.
  pose proof (rnd_off _ K ltac:(lia) P3) as R1.
  destruct (fmul_ok f (fz T) Ff FT) as [V F]; [rewrite VT; apply fits with K; [lia |]; rewrite Rabs_pos_eq by lra; lra |].
  fold y in V, F. rewrite VT in V. split; [exact F |]. split; [exact V |]. rewrite <- V in R1. split; [| exact R1].
  split; [rewrite V; rewrite <- (@rnd_0 prec emax); apply rnd_le; exact P0 |]. apply Rabs_le_inv in R1. lra.
Qed.
Lemma from_parts : forall (x : fl), fin x -> 0 <= val x < bpow radix2 32 ->
  from_float T x = (Z.to_N (Zfloor (val x)), Z.to_N (Zfloor (val (fmul (part x) (fz T) : fl)))) /\ (0 <= Zfloor (val x) < 2 ^ 32)%Z /\ (0 <= Zfloor (val (fmul (part x) (fz T) : fl)) < T)%Z.
Proof using HC.
  intros x Fx Hx. destruct (ticks_of_part x Fx Hx) as (Fy & _ & [Y0 Y1] & _). destruct (part_exact x Fx Hx) as (Tx & _ & _).
  assert (A : (0 <= Zfloor (val x) < 2 ^ 32)%Z).
  { split; [apply Zfloor_lub; apply Hx |]. apply lt_IZR. change (IZR (2 ^ 32)) with (bpow radix2 32). eapply Rle_lt_trans; [apply Zfloor_lb | apply Hx]. }
  assert (B : (0 <= Zfloor (val (fmul (part x) (fz T) : fl)) < T)%Z).
  { split; [apply Zfloor_lub; exact Y0 |]. apply lt_IZR. eapply Rle_lt_trans; [apply Zfloor_lb | exact Y1]. }
  split; [| split; assumption]. unfold from_float. rewrite !to_u32_fin by assumption. rewrite Tx, (trunc_floor _ Y0).
  destruct Tb as ((_ & T1) & K1 & _). assert (2 ^ K <= 2 ^ 31)%Z by (apply Z.pow_le_mono_r; lia). f_equal; f_equal; lia.
Qed.
(** * From a float *)
Lemma from_ok : forall (x : fl), fin x -> 0 <= val x < bpow radix2 32 -> let t := from_float T x in
  normal T t /\ - bpow radix2 (K - prec - 1) <= (val x - exact T t) * IZR T < 1 + bpow radix2 (K - prec - 1).
Proof using HC.
  intros x Fx Hx t. destruct (from_parts x Fx Hx) as (E & Z1 & Z2). unfold t. rewrite E. destruct (ticks_of_part x Fx Hx) as (_ & _ & _ & R). apply Rabs_le_inv in R.
  destruct (part_exact x Fx Hx) as (_ & _ & V). pose proof T_real as [T0 _]. pose proof (bpow_gt_0 radix2 (K - 1)) as B0.
  set (y := fmul (part x) (fz T) : fl) in *. split; [unfold normal, U32; cbn [fst snd]; lia |]. unfold exact. cbn [fst snd]. rewrite !Z2N.id by lia.
  pose proof (Zfloor_lb (val y)) as L. pose proof (Zfloor_ub (val y)) as U.
  replace ((val x - (IZR (Zfloor (val x)) + IZR (Zfloor (val y)) / IZR T)) * IZR T) with ((val x - IZR (Zfloor (val x))) * IZR T - IZR (Zfloor (val y))) by (field; lra).
  rewrite <- V. lra.
Qed.
Lemma from_monotone : forall (x y : fl), fin x -> fin y -> 0 <= val x -> val x <= val y -> val y < bpow radix2 32 -> (ticks T (from_float T x) <= ticks T (from_float T y))%Z.
Proof using HC.
  intros x y Fx Fy Px L Uy. destruct (from_parts x Fx ltac:(lra)) as (Ex & X1 & X2). destruct (from_parts y Fy ltac:(lra)) as (Ey & Y1 & Y2).
  rewrite Ex, Ey. unfold ticks. cbn [fst snd]. rewrite !Z2N.id by lia. pose proof (Zfloor_le _ _ L) as Z1.
  destruct (Z.eq_dec (Zfloor (val x)) (Zfloor (val y))) as [E | N]; [| nia].
  rewrite E. apply Zplus_le_compat_l. apply Zfloor_le. destruct (ticks_of_part x Fx ltac:(lra)) as (_ & Vx & _). destruct (ticks_of_part y Fy ltac:(lra)) as (_ & Vy & _).
  rewrite Vx, Vy. apply rnd_le. destruct (part_exact x Fx ltac:(lra)) as (_ & _ & Wx). destruct (part_exact y Fy ltac:(lra)) as (_ & _ & Wy). rewrite Wx, Wy, E.
  pose proof T_real as [T0 _]. pose proof (bpow_gt_0 radix2 (K - 1)). apply Rmult_le_compat_r; lra.
Qed.
(** * To a float *)
Local Notation slack := (reading_error prec).
Lemma sub_ok : forall k, (0 <= k < T)%Z -> fin (fz k : fl) /\ 0 <= val (fz k : fl) <= IZR T /\ val (fz k : fl) = rnd (IZR k) /\ Rabs (val (fz k : fl) - IZR k) <= bpow radix2 (K - prec - 1).
Proof using HC.
  intros k Hk. pose proof pe as PE. pose proof T_real as [T0 T1]. destruct Tb as (_ & K1 & K2). destruct T_ok as [FT VT].
  assert (A : 0 <= IZR k < IZR T) by (split; [apply IZR_le | apply IZR_lt]; lia). pose proof (rnd_off (IZR k) K ltac:(lia) ltac:(lra)) as R.
  assert (B : 0 <= rnd (IZR k) <= IZR T).
  { split; [rewrite <- (@rnd_0 prec emax); apply rnd_le; lra |]. rewrite <- VT. rewrite <- (rnd_val (fz T)). apply rnd_le. rewrite VT. lra. }
  destruct (fz_ok (prec := prec) (emax := emax) k) as [V F].
  { apply below_top with K; [lia |]. rewrite Rabs_pos_eq; lra. }
  rewrite V. split; [exact F |]. split; [exact B |]. split; [reflexivity | exact R].
Qed.
Lemma quot_ok : forall k, (0 <= k < T)%Z -> let q := fdiv (fz k) (fz T) : fl in
  fin q /\ 0 <= val q <= 1 /\ val q = rnd (rnd (IZR k) / IZR T) /\ Rabs (val q - IZR k / IZR T) <= bpow radix2 (1 - prec).
Proof using HC.
  intros k Hk q. pose proof pe as PE. destruct (sub_ok k Hk) as (Fk & Bk & Vk & Ek). destruct T_ok as [FT VT]. pose proof T_real as [T0 T1]. pose proof (bpow_gt_0 radix2 (K - 1)) as T2.
  assert (I0 : 0 < / IZR T) by (apply Rinv_0_lt_compat; lra).
  assert (A : 0 <= val (fz k : fl) / IZR T <= 1).
  { split; [apply Rmult_le_pos; lra |]. apply Rmult_le_reg_r with (IZR T); [lra |]. unfold Rdiv. rewrite Rmult_assoc, Rinv_l by lra. lra. }
  pose proof (rnd_off_le _ 0 ltac:(lia) A) as R. destruct (fdiv_ok (fz k) (fz T) Fk) as [V F]; [rewrite VT; lra | rewrite VT; apply fits with 0%Z; [lia |]; change (bpow radix2 0) with 1; rewrite Rabs_pos_eq; lra |].
  fold q in V, F. rewrite VT in V. split; [exact F |]. split; [| split].
  - rewrite V. split; [rewrite <- (@rnd_0 prec emax) | rewrite <- (@rnd_1 prec emax _)]; apply rnd_le; lra.
  - rewrite V, Vk. reflexivity.
  - rewrite <- V in R. replace (val q - IZR k / IZR T) with ((val q - val (fz k : fl) / IZR T) + (val (fz k : fl) - IZR k) * / IZR T) by (field; lra).
    eapply Rle_trans; [apply Rabs_triang |]. rewrite Rabs_mult, (Rabs_pos_eq (/ IZR T)) by lra.
    assert (J : / IZR T <= bpow radix2 (1 - K)).
    { replace (1 - K)%Z with (- (K - 1))%Z by lia. rewrite bpow_opp. apply Rinv_le; lra. }
    assert (M : Rabs (val (fz k : fl) - IZR k) * / IZR T <= bpow radix2 (- prec)).
    { replace (- prec)%Z with ((K - prec - 1) + (1 - K))%Z by lia. rewrite bpow_plus. apply Rmult_le_compat; [apply Rabs_pos | lra | exact Ek | exact J]. }
    replace (1 - prec)%Z with (- prec + 1)%Z by lia. rewrite bpow_plus. change (bpow radix2 1) with 2.
    assert (bpow radix2 (0 - prec - 1) <= bpow radix2 (- prec)) by (apply bpow_le; lia). lra.
Qed.
Lemma whole_ok : forall W w, (0 <= W <= prec)%Z -> (W <= 32)%Z -> (0 <= w < 2 ^ W)%Z -> fin (fz w : fl) /\ val (fz w : fl) = IZR w /\ rnd (IZR w) = IZR w /\ 0 <= IZR w <= bpow radix2 W - 1.
Proof.
  intros W w HW H32 Hw. pose proof pe as PE. assert (2 ^ W <= 2 ^ 32)%Z by (apply Z.pow_le_mono_r; lia). assert (2 ^ W <= 2 ^ prec)%Z by (apply Z.pow_le_mono_r; lia).
  assert (E : rnd (IZR w) = IZR w) by (apply rnd_small; lia). destruct (int_ok w E ltac:(lia)) as [F V]. split; [exact F |]. split; [exact V |]. split; [exact E |].
  rewrite <- (IZR_Zpower radix2 W) by lia. change (radix2 ^ W)%Z with (2 ^ W)%Z. rewrite <- minus_IZR. split; apply IZR_le; lia.
Qed.
Lemma to_parts : forall W t, (0 <= W <= prec)%Z -> (W <= 32)%Z -> (Z.of_N (fst t) < 2 ^ W)%Z -> (Z.of_N (snd t) < T)%Z ->
  let v := to_float T t : fl in let q := fdiv (fz (Z.of_N (snd t))) (fz T) : fl in
  fin v /\ val v = rnd (IZR (Z.of_N (fst t)) + val q) /\ 0 <= val v <= bpow radix2 W.
Proof using HC.
  intros W t HW H32 Hw Hk v q. pose proof pe as PE. destruct (whole_ok W _ HW H32 (conj (N2Z.is_nonneg _) Hw)) as (Fw & Vw & Rw & Bw).
  destruct (quot_ok _ (conj (N2Z.is_nonneg _) Hk)) as (Fq & Bq & _ & _). fold q in Fq, Bq.
  assert (A : 0 <= IZR (Z.of_N (fst t)) + val q <= bpow radix2 W) by lra.
  assert (B : 0 <= rnd (IZR (Z.of_N (fst t)) + val q) <= bpow radix2 W) by (apply rnd_between; [apply rnd_0 | apply rnd_bpow; lia | exact A]).
  destruct (fadd_ok _ _ Fw Fq) as [V F]; [rewrite Vw; apply below_top with W; [lia |]; rewrite Rabs_pos_eq; lra |]. rewrite Vw in V.
  change (fadd (fz (Z.of_N (fst t))) q) with v in V, F. split; [exact F |]. split; [exact V |]. rewrite V. exact B.
Qed.
Lemma to_ok : forall W t, (0 <= W <= prec)%Z -> (W <= 32)%Z -> (Z.of_N (fst t) < 2 ^ W)%Z -> (Z.of_N (snd t) < T)%Z ->
  let v := to_float T t : fl in fin v /\ 0 <= val v <= bpow radix2 W /\ Rabs (val v - exact T t) <= slack W.
Proof using HC.
  intros W t HW H32 Hw Hk v. destruct (to_parts W t HW H32 Hw Hk) as (F & V & B). fold v in F, V, B. split; [exact F |]. split; [exact B |].
  destruct (whole_ok W _ HW H32 (conj (N2Z.is_nonneg _) Hw)) as (_ & _ & _ & Bw). destruct (quot_ok _ (conj (N2Z.is_nonneg _) Hk)) as (_ & Bq & _ & Eq).
  set (q := fdiv (fz (Z.of_N (snd t))) (fz T) : fl) in *. pose proof (rnd_off_le (IZR (Z.of_N (fst t)) + val q) W ltac:(lia) ltac:(lra)) as R. rewrite <- V in R.
  unfold exact, reading_error. apply Rabs_le_inv in R. apply Rabs_le_inv in Eq. apply Rabs_le. lra.
Qed.
Lemma to_monotone : forall s t, (32 <= prec)%Z -> normal T s -> normal T t -> (ticks T s <= ticks T t)%Z -> val (to_float T s : fl) <= val (to_float T t : fl).
Proof using HC.
  intros s t P [S1 S2] [T1 T2] L. unfold U32 in S1, T1.
  destruct (to_parts 32 s ltac:(lia) ltac:(lia) ltac:(lia) S2) as (_ & Vs & _). destruct (to_parts 32 t ltac:(lia) ltac:(lia) ltac:(lia) T2) as (_ & Vt & _).
  destruct (quot_ok _ (conj (N2Z.is_nonneg _) S2)) as (_ & Bs & Qs & _). destruct (quot_ok _ (conj (N2Z.is_nonneg _) T2)) as (_ & Bt & Qt & _).
  rewrite Vs, Vt. apply rnd_le. unfold ticks in L. destruct (Z.eq_dec (Z.of_N (fst s)) (Z.of_N (fst t))) as [E | N].
  - rewrite E in *. apply Rplus_le_compat_l. rewrite Qs, Qt. apply rnd_le. pose proof T_real as [T3 _]. pose proof (bpow_gt_0 radix2 (K - 1)).
    apply Rmult_le_compat_r; [left; apply Rinv_0_lt_compat; lra |]. apply rnd_le. apply IZR_le. lia.
  - assert (G : (Z.of_N (fst s) + 1 <= Z.of_N (fst t))%Z) by nia. apply IZR_le in G. rewrite plus_IZR in G. lra.
Qed.
(** * There and back *)
Lemma back_near : forall W t, (0 <= W <= prec)%Z -> (W <= 31)%Z -> (Z.of_N (fst t) < 2 ^ W)%Z -> (Z.of_N (snd t) < T)%Z ->
  let u := from_float T (to_float T t : fl) in normal T u /\
  - bpow radix2 (K - prec - 1) - IZR T * slack W <= IZR (ticks T t - ticks T u) < 1 + bpow radix2 (K - prec - 1) + IZR T * slack W.
Proof using HC.
  intros W t HW H31 Hw Hk u. destruct (to_ok W t HW ltac:(lia) Hw Hk) as (F & B & E). set (v := to_float T t : fl) in *.
  assert (B32 : bpow radix2 W < bpow radix2 32) by (apply bpow_lt; lia). destruct (from_ok v F ltac:(lra)) as [N R]. fold u in N, R. split; [exact N |].
  pose proof T_real as [T0 _]. pose proof (bpow_gt_0 radix2 (K - 1)) as P.
  assert (X : forall s, IZR (ticks T s) = exact T s * IZR T) by (intros s; unfold ticks, exact; rewrite plus_IZR, mult_IZR; field; lra).
  rewrite minus_IZR, !X. replace (exact T t * IZR T - exact T u * IZR T) with ((val v - exact T u) * IZR T - (val v - exact T t) * IZR T) by ring.
  apply Rabs_le_inv in E. assert (A : - slack W * IZR T <= (val v - exact T t) * IZR T <= slack W * IZR T) by (split; apply Rmult_le_compat_r; lra). lra.
Qed.
(** * What is lost *)
Lemma loss_exact : forall x : fl, (32 <= prec)%Z -> fin x -> 0 <= val x < bpow radix2 32 ->
  let t := fst (with_loss T x) in let e := snd (with_loss T x) in t = from_float T x /\ fin e /\ val (to_float T t : fl) + val e = val x /\ val (fadd (to_float T t) e) = val x.
Proof using HC.
  intros x HP Fx Hx t e. pose proof pe as PE. destruct (from_parts x Fx Hx) as (E & Z1 & Z2). destruct (ticks_of_part x Fx Hx) as (_ & Vy & By & Ry). destruct (part_exact x Fx Hx) as (_ & _ & Vp).
  set (w := Zfloor (val x)) in *. set (y := fmul (part x) (fz T) : fl) in *. set (k := Zfloor (val y)) in *.
  assert (Et : t = (Z.to_N w, Z.to_N k)) by exact E.
  destruct (to_parts 32 t ltac:(lia) ltac:(lia)) as (Fv & Vv & Bv); [rewrite Et; cbn [fst]; lia | rewrite Et; cbn [snd]; lia |].
  set (v := to_float T t : fl) in *. rewrite Et in Vv. cbn [fst snd] in Vv. rewrite !Z2N.id in Vv by lia.
  destruct (quot_ok k Z2) as (_ & Bq & Vq & _). set (q := fdiv (fz k) (fz T) : fl) in *.
  destruct Tb as ((_ & TK) & K1 & K2). assert (T32 : (2 ^ K <= 2 ^ prec)%Z) by (apply Z.pow_le_mono_r; lia).
  rewrite (rnd_small k) in Vq by lia.
  pose proof (Zfloor_lb (val x)) as L. pose proof (Zfloor_ub (val x)) as U. fold w in L, U.
  pose proof (Zfloor_lb (val y)) as Ly. pose proof (Zfloor_ub (val y)) as Uy. fold k in Ly, Uy.
  pose proof T_real as [T0 _]. pose proof (bpow_gt_0 radix2 (K - 1)) as P. assert (I0 : 0 < / IZR T) by (apply Rinv_0_lt_compat; lra).
  assert (G : rnd (val x - val v) = val x - val v).
  { apply rnd_format. destruct (Z.eq_dec w 0) as [W0 | W0].
    - rewrite W0 in *. rewrite Rplus_0_l, rnd_val in Vv. rewrite Rminus_0_r in Vp. rewrite Vp in *. rewrite Vv. destruct (Z.eq_dec k 0) as [k0 | k0].
      + rewrite Vq, k0. unfold Rdiv. rewrite Rmult_0_l, rnd_0, Rminus_0_r. apply generic_format_B2R.
      + assert (k1 : 1 <= IZR k) by (apply IZR_le; lia).
        assert (X1 : val x * IZR T < IZR k + 1).
        { apply Rnot_le_lt. intros C. apply (rnd_le (prec := prec) (emax := emax)) in C. rewrite <- plus_IZR in C. rewrite (rnd_small (k + 1)) in C by lia. rewrite plus_IZR in C. lra. }
        assert (X2 : IZR k - / 4 <= val x * IZR T).
        { apply Rabs_le_inv in Ry. assert (bpow radix2 (K - prec - 1) <= bpow radix2 (-2)) by (apply bpow_le; lia). change (bpow radix2 (-2)) with (/ 4) in H. lra. }
        assert (x0 : 0 < val x) by (apply Rmult_lt_reg_r with (IZR T); lra).
        assert (M : (-100 <= mag radix2 (val x))%Z).
        { assert (A : bpow radix2 (-100) <= val x).
          { apply Rmult_le_reg_r with (IZR T); [lra |]. apply Rle_trans with (/ 2); [| lra].
            apply Rle_trans with (bpow radix2 (-100) * bpow radix2 K); [apply Rmult_le_compat_l; [apply bpow_ge_0 | apply Rlt_le, T_real] |].
            rewrite <- bpow_plus. change (/ 2) with (bpow radix2 (-1)). apply bpow_le. lia. }
          apply mag_ge_bpow. rewrite Rabs_pos_eq by lra. eapply Rle_trans; [| exact A]. apply bpow_le. lia. }
        assert (Gx : forall e, (-1 <= e)%Z -> generic_format radix2 (SpecFloat.fexp prec emax) (val x * bpow radix2 e)).
        { intros d Hd. apply (mult_bpow_exact_FLT radix2 (SpecFloat.emin prec emax) prec); [apply generic_format_B2R |]. unfold SpecFloat.emin. lia. }
        assert (H1 : val x * / 2 <= val q).
        { rewrite Vq. replace (val x * / 2) with (rnd (val x * bpow radix2 (-1))) by (rewrite (rnd_format _ (Gx (-1)%Z ltac:(lia))); reflexivity). apply rnd_le.
          change (bpow radix2 (-1)) with (/ 2). apply Rmult_le_reg_r with (IZR T); [lra |]. unfold Rdiv. rewrite Rmult_assoc, (Rmult_assoc (IZR k)), Rinv_l by lra. lra. }
        assert (H2 : val q <= 2 * val x).
        { rewrite Vq. replace (2 * val x) with (rnd (val x * bpow radix2 1)) by (rewrite (rnd_format _ (Gx 1%Z ltac:(lia))); change (bpow radix2 1) with 2; ring). apply rnd_le.
          change (bpow radix2 1) with 2. apply Rmult_le_reg_r with (IZR T); [lra |]. unfold Rdiv. rewrite (Rmult_assoc (IZR k)), Rinv_l by lra. lra. }
        apply sterbenz; [exact (FLT_exp_valid _ _) | exact (FLT_exp_monotone _ _) | apply generic_format_B2R | apply generic_format_B2R |].
        change (B2R x) with (val x). change (B2R q) with (val q). lra.
    - assert (w1 : 1 <= IZR w) by (apply IZR_le; lia). assert (2 ^ 32 <= 2 ^ prec)%Z by (apply Z.pow_le_mono_r; lia).
      assert (V1 : IZR w <= val v <= IZR w + 1).
      { rewrite Vv. rewrite <- plus_IZR. apply rnd_between; [apply rnd_small; lia | apply rnd_small; lia |]. rewrite plus_IZR. lra. }
      apply sterbenz; [exact (FLT_exp_valid _ _) | exact (FLT_exp_monotone _ _) | apply generic_format_B2R | apply generic_format_B2R |].
      change (B2R x) with (val x). change (B2R v) with (val v). lra. }
  destruct (fsub_ok x v Fx Fv) as [Ve Fe].
  { rewrite G. apply below_top with 32%Z; [lia |]. apply Rabs_le. lra. }
  change (fsub x v) with e in Ve, Fe. rewrite G in Ve. split; [reflexivity |]. split; [exact Fe |]. split; [rewrite Ve; ring |].
  assert (S : val v + val e = val x) by (rewrite Ve; ring).
  destruct (fadd_ok v e Fv Fe) as [Vs _]; [rewrite S, rnd_val; apply val_top |]. rewrite Vs, S. apply rnd_val.
Qed.
(** * Scaling *)
Lemma scale_near : forall W V t (r : fl), (0 <= W <= prec)%Z -> (W <= 32)%Z -> (0 <= V <= 31)%Z -> (Z.of_N (fst t) < 2 ^ W)%Z -> (Z.of_N (snd t) < T)%Z ->
  fin r -> 0 <= val r -> (exact T t + slack W) * val r <= bpow radix2 V ->
  let u := scale T t r in normal T u /\
  Rabs (exact T u - exact T t * val r) <= (1 + bpow radix2 (K - prec - 1)) / IZR T + bpow radix2 (V - prec - 1) + slack W * val r.
Proof using HC.
  intros W V t r HW H32 HV Hw Hk Fr r0 HM u. pose proof pe as PE. destruct (to_ok W t HW H32 Hw Hk) as (F & B & E). set (v := to_float T t : fl) in *. apply Rabs_le_inv in E.
  assert (Q : (exact T t - slack W) * val r <= val v * val r <= (exact T t + slack W) * val r) by (split; apply Rmult_le_compat_r; lra).
  assert (P0 : 0 <= val v * val r) by (apply Rmult_le_pos; lra).
  pose proof (rnd_off_le (val v * val r) V ltac:(lia) ltac:(lra)) as R.
  destruct (fmul_ok v r F Fr) as [Vp Fp]; [apply fits with V; [lia |]; rewrite Rabs_pos_eq; lra |].
  set (p := fmul v r : fl) in *. assert (Pb : 0 <= val p <= bpow radix2 V) by (rewrite Vp; apply rnd_between; [apply rnd_0 | apply rnd_bpow; lia | lra]).
  assert (B32 : bpow radix2 V < bpow radix2 32) by (apply bpow_lt; lia). destruct (from_ok p Fp ltac:(lra)) as [N D]. change (from_float T p) with u in N, D. split; [exact N |].
  pose proof T_real as [T0 _]. pose proof (bpow_gt_0 radix2 (K - 1)) as P. assert (I0 : 0 < / IZR T) by (apply Rinv_0_lt_compat; lra).
  assert (D' : - ((1 + bpow radix2 (K - prec - 1)) / IZR T) <= val p - exact T u <= (1 + bpow radix2 (K - prec - 1)) / IZR T).
  { split; apply Rmult_le_reg_r with (IZR T); try lra; unfold Rdiv; rewrite ?Ropp_mult_distr_l_reverse, Rmult_assoc, Rinv_l by lra; lra. }
  rewrite <- Vp in R. apply Rabs_le_inv in R. apply Rabs_le. lra.
Qed.
End Clock.

(** * f64 *)
Section Double.
Notation f64 := (binary_float 53 1024).
Notation rnd := (@rnd 53 1024).
Variables T K : Z.
Hypothesis HC : clock T K.
Lemma back_double : forall t, (Z.of_N (fst t) < 2 ^ (52 - K))%Z -> (Z.of_N (snd t) < T)%Z ->
  let u := from_float T (to_float T t : f64) in normal T u /\ (ticks T u = ticks T t \/ ticks T u = ticks T t - 1)%Z.
Proof using HC.
  intros t Hw Hk u. destruct (Tb T K HC) as (_ & K1 & K2). pose proof (T_real T K HC) as [T0 T1]. pose proof (bpow_gt_0 radix2 (K - 1)) as P.
  destruct (back_near (prec := 53) (emax := 1024) T K HC (52 - K) t ltac:(lia) ltac:(lia) Hw Hk) as [N [A B]]. fold u in N, A, B. split; [exact N |].
  assert (S : IZR T * reading_error 53 (52 - K) <= / 4 + / 1048576).
  { unfold reading_error. rewrite Rmult_plus_distr_l. apply Rplus_le_compat.
    - apply Rle_trans with (bpow radix2 K * bpow radix2 (52 - K - 53 - 1)); [apply Rmult_le_compat_r; [apply bpow_ge_0 | lra] |]. rewrite <- bpow_plus.
      change (/ 4) with (bpow radix2 (-2)). apply bpow_le. lia.
    - apply Rle_trans with (bpow radix2 K * bpow radix2 (1 - 53)); [apply Rmult_le_compat_r; [apply bpow_ge_0 | lra] |]. rewrite <- bpow_plus.
      change (/ 1048576) with (bpow radix2 (-20)). apply bpow_le. lia. }
  assert (E : bpow radix2 (K - 53 - 1) <= bpow radix2 (-20)) by (apply bpow_le; lia). change (bpow radix2 (-20)) with (/ 1048576) in E.
  assert (L : IZR (-1) < IZR (ticks T t - ticks T u)) by lra. assert (U : IZR (ticks T t - ticks T u) < IZR 2) by lra. apply lt_IZR in L. apply lt_IZR in U. lia.
Qed.
End Double.

(** * Durations *)
Section Duration.
Notation f64 := (binary_float 53 1024).
Notation rnd := (@rnd 53 1024).
Lemma pow2_not_3 : forall n k, (0 <= n)%Z -> (2 ^ n = 3 * k)%Z -> False.
Proof.
  intros n k Hn. revert k. pattern n. apply Zlt_0_ind; [| exact Hn]. clear n Hn. intros n IH Hn k E. destruct (Z.eq_dec n 0) as [-> | N].
  - change (2 ^ 0)%Z with 1%Z in E. lia.
  - replace n with (Z.succ (n - 1)) in E by lia. rewrite Z.pow_succ_r in E by lia. apply (IH (n - 1)%Z ltac:(lia) (2 ^ (n - 1) - k)%Z). lia.
Qed.
(** the factor, a little less than 0.28224 *)
Lemma factor_ok : let c := fdiv (fz second_tesimals) (fz 1000000000) : f64 in fin c /\ 882 / 3125 * (1 - / 3 * bpow radix2 (-53)) <= val c < 882 / 3125.
Proof.
  intros c. assert (F : is_finite c = true) by (vm_compute; reflexivity). split; [exact F |].
  assert (V : val c = IZR 5084383835316195 * bpow radix2 (-54)).
  { unfold val. rewrite <- SF2R_B2SF. replace (B2SF c) with (SpecFloat.S754_finite false 5084383835316195 (-54)) by (vm_compute; reflexivity). reflexivity. }
  rewrite V. change (bpow radix2 (-54)) with (/ 18014398509481984). change (bpow radix2 (-53)) with (/ 9007199254740992). lra.
Qed.
Lemma duration_ok : forall secs nanos, (nanos < 1000000000)%N -> of_duration secs nanos = ((secs mod U32)%N, (nanos * 282240000 / 1000000000)%N).
Proof.
  intros secs nanos Hn. unfold of_duration. f_equal. destruct factor_ok as [Fc Bc]. set (c := fdiv (fz second_tesimals) (fz 1000000000) : f64) in *.
  set (n := Z.of_N nanos). assert (n0 : (0 <= n < 1000000000)%Z) by (unfold n; lia). assert (nr : 0 <= IZR n <= 999999999) by (split; apply IZR_le; lia).
  destruct (int_ok (prec := 53) (emax := 1024) n (rnd_small (prec := 53) (emax := 1024) n ltac:(lia)) ltac:(lia)) as [Fn Vn].
  change (bpow radix2 (-53)) with (/ 9007199254740992) in Bc.
  assert (Bl : IZR n * (882 / 3125 * (1 - / 3 * / 9007199254740992)) <= IZR n * val c) by (apply Rmult_le_compat_l; lra).
  assert (Bu : IZR n * val c <= IZR n * (882 / 3125)) by (apply Rmult_le_compat_l; lra).
  assert (P0 : 0 <= IZR n * val c) by (apply Rmult_le_pos; lra).
  assert (P1 : 0 <= IZR n * val c < bpow radix2 29) by (change (bpow radix2 29) with 536870912; lra).
  pose proof (rnd_off (prec := 53) (emax := 1024) _ 29 ltac:(lia) P1) as R. change (bpow radix2 (29 - 53 - 1)) with (/ 33554432) in R. apply Rabs_le_inv in R.
  destruct (fmul_ok (fz n) c Fn Fc) as [Vy Fy]; [rewrite Vn; apply fits with 29%Z; [lia |]; rewrite Rabs_pos_eq; lra |]. rewrite Vn in Vy.
  set (y := fmul (fz n) c : f64) in *. assert (y0 : 0 <= val y) by (rewrite Vy; rewrite <- (@rnd_0 53 1024); apply rnd_le; exact P0).
  set (k := (n * 882 / 3125)%Z). pose proof (Z.div_mod (n * 882) 3125 ltac:(lia)) as DM. fold k in DM. pose proof (Z.mod_pos_bound (n * 882) 3125 ltac:(lia)) as MB. set (m := (n * 882 mod 3125)%Z) in *.
  assert (DR : IZR n * 882 = 3125 * IZR k + IZR m) by (rewrite <- !mult_IZR, <- plus_IZR; f_equal; exact DM).
  assert (k0 : (0 <= k < 2 ^ 29)%Z) by lia.
  assert (Up : val y < IZR k + 1).
  { assert (m1 : IZR m <= 3124) by (apply IZR_le; lia). rewrite <- Vy in R. lra. }
  assert (Lo : IZR k <= val y).
  { destruct (Z.eq_dec m 0) as [m0 | m0].
    - destruct (Z.eq_dec k 0) as [-> | k1]; [exact y0 |]. rewrite m0, Rplus_0_r in DR.
      assert (K3 : exists j, k = (3 * j)%Z) by (exists (k / 3)%Z; apply Z.div_exact; [lia |]; rewrite m0 in DM; assert (E3 : (3 * (n * 294) = 3125 * k)%Z) by lia; clear - E3; pose proof (Z.div_mod k 3 ltac:(lia)); pose proof (Z.mod_pos_bound k 3 ltac:(lia)); lia).
      assert (kr : 0 < IZR k) by (apply IZR_lt; lia). set (e := mag radix2 (IZR k) : Z).
      assert (Me : bpow radix2 (e - 1) <= IZR k < bpow radix2 e) by (destruct (mag radix2 (IZR k)) as [e' He'] eqn:Q; cbn in e; subst e; pose proof (He' ltac:(lra)) as G; rewrite Rabs_pos_eq in G by lra; exact G).
      assert (e1 : (1 <= e)%Z).
      { assert (0 < e)%Z; [| lia]. apply (lt_bpow radix2). apply Rle_lt_trans with (IZR k); [| apply Me]. change (bpow radix2 0) with 1. apply IZR_le. lia. }
      assert (e29 : (e <= 29)%Z).
      { assert (e - 1 < 29)%Z; [| lia]. apply (lt_bpow radix2). eapply Rle_lt_trans; [apply Me |]. change (bpow radix2 29) with (IZR (2 ^ 29)). apply IZR_lt. lia. }
      assert (Fk : generic_format radix2 (SpecFloat.fexp 53 1024) (IZR k)) by (pose proof (rnd_small (prec := 53) (emax := 1024) k ltac:(lia)) as E; rewrite <- E; apply generic_format_round; [exact (FLT_exp_valid _ _) | typeclasses eauto]).
      assert (Pk : pred radix2 (SpecFloat.fexp 53 1024) (IZR k) = IZR k - bpow radix2 (e - 53)).
      { rewrite pred_eq_pos by lra. unfold pred_pos. rewrite Req_bool_false.
        - rewrite ulp_neq_0 by lra. unfold cexp. fold e. f_equal. f_equal. unfold SpecFloat.fexp, SpecFloat.emin. lia.
        - fold e. intros Q. destruct K3 as [j J]. rewrite <- (IZR_Zpower radix2) in Q by lia. apply eq_IZR in Q. apply (pow2_not_3 (e - 1) j); [lia |]. change (2 ^ (e - 1))%Z with (radix2 ^ (e - 1))%Z. lia. }
      rewrite Vy. unfold FloatBase.rnd. apply round_N_ge_midp; [exact (FLT_exp_valid _ _) | exact Fk |]. rewrite Pk.
      assert (Q : IZR k * (/ 3 * / 9007199254740992) < bpow radix2 (e - 53) / 2).
      { replace (e - 53)%Z with (e + (-53))%Z by lia. rewrite bpow_plus. change (bpow radix2 (-53)) with (/ 9007199254740992). lra. }
      assert (Kn : IZR n * (882 / 3125) = IZR k) by lra.
      replace (IZR n * (882 / 3125 * (1 - / 3 * / 9007199254740992))) with (IZR n * (882 / 3125) * (1 - / 3 * / 9007199254740992)) in Bl by ring. rewrite Kn in Bl. lra.
    - assert (m1 : 1 <= IZR m) by (apply IZR_le; lia). rewrite <- Vy in R. lra. }
  assert (Fl : Zfloor (val y) = k) by (apply Zfloor_imp; rewrite plus_IZR; lra).
  rewrite (to_u32_fin y Fy), (trunc_floor y y0), Fl.
  assert (E : (nanos * 282240000 / 1000000000 = nanos * 882 / 3125)%N) by (replace (nanos * 282240000)%N with (nanos * 882 * 320000)%N by lia; replace 1000000000%N with (3125 * 320000)%N by lia; apply N.div_mul_cancel_r; lia).
  rewrite E. apply N2Z.inj. rewrite Z2N.id by lia. rewrite N2Z.inj_div, N2Z.inj_mul. change (Z.of_N 882) with 882%Z. change (Z.of_N 3125) with 3125%Z. fold n. fold k. lia.
Qed.
End Duration.
(** * f32 factors *)
Lemma widen_ok : forall x : binary_float 24 128, fin x -> fin (widen x) /\ val (widen x) = val x.
Proof.
  intros x Fx. destruct x as [s | s | | s m e b]; try discriminate Fx; [split; reflexivity |]. cbn [widen].
  pose proof (binary_normalize_correct 53 1024 _ _ mode_NE (cond_Zopp s (Zpos m)) e s) as C. cbv zeta in C.
  set (v := B754_finite s m e b : binary_float 24 128) in *.
  change (F2R {| Fnum := cond_Zopp s (Zpos m); Fexp := e |}) with (val v) in C.
  change (round radix2 (SpecFloat.fexp 53 1024) (round_mode mode_NE) (val v)) with (@rnd 53 1024 (val v)) in C.
  assert (E : @rnd 53 1024 (val v) = val v).
  { apply rnd_format. pose proof (generic_format_B2R 24 128 v) as G.
    apply (generic_inclusion_mag radix2 (SpecFloat.fexp 24 128)); [| exact G]. intros _. unfold SpecFloat.fexp, SpecFloat.emin. lia. }
  rewrite E in C. rewrite Rlt_bool_true in C.
  - destruct C as (C1 & C2 & _). split; [exact C2 | exact C1].
  - pose proof (abs_B2R_lt_emax 24 128 v) as G. eapply Rlt_trans; [exact G |]. apply bpow_lt. lia.
Qed.
