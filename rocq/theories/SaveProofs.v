From Coq Require Import Reals Lra.
From Flocq Require Import Core BinarySingleNaN.
From Verif Require Import Base FloatBase FloatMore NoiseShapeProofs OscModel SaveModel.
Local Open Scope R_scope.

(** * Whole numbers *)
Definition limited (z : Z) : Z := Z.max (-32768) (Z.min 32767 z).
Lemma limited_le : forall a b, (a <= b)%Z -> (limited a <= limited b)%Z.
Proof. intros a b H. unfold limited. lia. Qed.
Lemma trunc_near : forall x, Rabs (IZR (Ztrunc x) - x) < 1 /\ Rabs (IZR (Ztrunc x)) <= Rabs x.
Proof.
  assert (G : forall x, 0 <= x -> 0 <= IZR (Ztrunc x) <= x /\ x < IZR (Ztrunc x) + 1).
  { intros x P. rewrite Ztrunc_floor by exact P. pose proof (Zfloor_lb x). pose proof (Zfloor_ub x). assert (0 <= Zfloor x)%Z by (apply Zfloor_lub; exact P).
    split; [split; [apply IZR_le; assumption | assumption] | assumption]. }
  intros x. destruct (Rle_dec 0 x) as [P | P].
  - destruct (G x P) as [[A B] C]. rewrite (Rabs_pos_eq (IZR _)) by exact A. rewrite (Rabs_pos_eq x) by exact P. split; [apply Rabs_def1; lra | exact B].
  - destruct (G (- x) ltac:(lra)) as [[A B] C]. rewrite Ztrunc_opp, opp_IZR in A, B, C. rewrite (Rabs_left1 (IZR _)) by lra. rewrite (Rabs_left1 x) by lra. split; [apply Rabs_def1; lra | lra].
Qed.
Lemma trunc_f32 : forall x : f32, Btrunc x = Ztrunc (val x).
Proof.
  intros x. pose proof (@Btrunc_correct 24 128 (ieee_ltm 24 128 ieee_f32) x) as E. unfold round, F2R, scaled_mantissa, cexp, FIX_exp in E. cbn [Fnum Fexp] in E.
  change (bpow radix2 (- 0)) with 1 in E. change (bpow radix2 0) with 1 in E. rewrite !Rmult_1_r in E. apply eq_IZR in E. exact E.
Qed.

Section Save.
Context {prec emax : Z} {I : ieee prec emax}.
Local Notation fl := (binary_float prec emax).
Local Notation rnd := (@FloatBase.rnd prec emax).
Local Notation rnd32 := (@FloatBase.rnd 24 128).

Lemma narrow_ok : forall x : fl, fin x -> Rabs (rnd32 (val x)) < @top 128 -> fin (narrow x) /\ val (narrow x) = rnd32 (val x).
Proof.
  intros x Fx Vx. destruct x as [s | s | | s m e b]; try discriminate Fx.
  - split; [reflexivity |]. change (val (B754_zero s : fl)) with 0. rewrite rnd_0. reflexivity.
  - cbn [narrow]. pose proof (binary_normalize_correct 24 128 (ieee_gt0 24 128 ieee_f32) (ieee_ltm 24 128 ieee_f32) mode_NE (cond_Zopp s (Zpos m)) e s) as C. cbv zeta in C.
    change (F2R {| Fnum := cond_Zopp s (Zpos m); Fexp := e |}) with (val (B754_finite s m e b : fl)) in C.
    change (round radix2 (SpecFloat.fexp 24 128) (round_mode mode_NE) (val (B754_finite s m e b : fl))) with (rnd32 (val (B754_finite s m e b : fl))) in C.
    rewrite Rlt_bool_true in C by exact Vx. destruct C as (C1 & C2 & _). split; [exact C2 | exact C1].
Qed.
(** The amplitude before it becomes a whole number *)
Definition amp (v : R) : R := rnd32 (rnd (v * 32767)).
Lemma amp_le : forall a b, a <= b -> amp a <= amp b.
Proof. intros a b H. unfold amp. apply rnd_le, rnd_le. lra. Qed.
Lemma amp_opp : forall a, amp (- a) = - amp a.
Proof. intros a. unfold amp. replace (- a * 32767) with (- (a * 32767)) by ring. rewrite !rnd_opp. reflexivity. Qed.
Lemma amp_int : forall z, (Z.abs z <= 2 ^ 24)%Z -> amp (IZR z / 32767) = IZR z.
Proof. intros z H. unfold amp. replace (IZR z / 32767 * 32767) with (IZR z) by field. rewrite !rnd_int by exact H. reflexivity. Qed.
Lemma amp_near : forall v, Rabs v <= 1 -> Rabs (amp v) <= 32767 /\ Rabs (amp v - v * 32767) <= / 512.
Proof.
  intros v H. pose proof (ieee_prec (prec := prec) (emax := emax)) as Hp. apply Rabs_le_inv in H.
  assert (A : -32767 <= amp v <= 32767).
  { pose proof (amp_int 32767 ltac:(lia)) as U. pose proof (amp_int (-32767) ltac:(lia)) as L. pose proof (amp_le v (32767 / 32767) ltac:(lra)). pose proof (amp_le (-32767 / 32767) v ltac:(lra)). lra. }
  split; [apply Rabs_le; lra |]. unfold amp in *.
  assert (E0 : Rabs (v * 32767) <= bpow radix2 15) by (change (bpow radix2 15) with 32768; apply Rabs_le; lra).
  assert (E1 : Rabs (rnd (v * 32767) - v * 32767) <= / 1024).
  { eapply Rle_trans; [apply (pow_error 15); [lia | exact E0] |]. change (/ 1024) with (bpow radix2 (-10)). apply bpow_le. lia. }
  assert (E2 : Rabs (rnd (v * 32767)) <= bpow radix2 15) by (apply rnd_bound; [lia | exact E0]).
  assert (E3 : Rabs (rnd32 (rnd (v * 32767)) - rnd (v * 32767)) <= / 1024).
  { change (/ 1024) with (bpow radix2 (15 - 24 - 1)). apply (pow_error (prec := 24) (emax := 128) 15); [lia | exact E2]. }
  apply Rabs_le_inv in E1. apply Rabs_le_inv in E3. apply Rabs_le. lra.
Qed.
Lemma saved_is : forall x : fl, fin x -> Rabs (val x) <= bpow radix2 100 -> saved x = limited (Ztrunc (amp (val x))).
Proof.
  intros x F V. pose proof (ieee_emax (prec := prec) (emax := emax)) as He. destruct (fz_small (prec := prec) (emax := emax) 32767 ltac:(lia)) as [Vm Fm].
  assert (B : Rabs (val x * 32767) <= bpow radix2 115).
  { rewrite Rabs_mult. rewrite (Rabs_pos_eq 32767) by lra. replace (bpow radix2 115) with (bpow radix2 100 * 32768) by (change 32768 with (bpow radix2 15); rewrite <- bpow_plus; reflexivity).
    pose proof (Rabs_pos (val x)). nra. }
  destruct (fmul_ok x (fz 32767) F Fm) as [Vy Fy]; [rewrite Vm; apply fits with 115%Z; [lia | exact B] |]. rewrite Vm in Vy.
  assert (B' : Rabs (rnd (val x * 32767)) <= bpow radix2 115) by (apply rnd_bound; [lia | exact B]).
  destruct (narrow_ok (fmul x (fz 32767)) Fy) as [Fz Vz]; [rewrite Vy; apply (fits (prec := 24)) with 115%Z; [lia | exact B'] |]. rewrite Vy in Vz. fold (amp (val x)) in Vz.
  unfold saved. rewrite <- Vz, <- trunc_f32. destruct (narrow (fmul x (fz 32767))) as [s | s | | s m e b]; try discriminate Fz; reflexivity.
Qed.
Lemma saved_near : forall x : fl, fin x -> Rabs (val x) <= 1 -> Rabs (IZR (saved x) - val x * 32767) < 1 + / 512 /\ (-32767 <= saved x <= 32767)%Z /\ saved x = Ztrunc (amp (val x)).
Proof.
  intros x F V. assert (V' : Rabs (val x) <= bpow radix2 100) by (eapply Rle_trans; [exact V |]; change 1 with (bpow radix2 0); apply bpow_le; lia).
  rewrite (saved_is x F V'). destruct (amp_near (val x) V) as [A E]. destruct (trunc_near (amp (val x))) as [T S].
  assert (Z : (-32767 <= Ztrunc (amp (val x)) <= 32767)%Z).
  { apply Rabs_le_inv in A. assert (Rabs (IZR (Ztrunc (amp (val x)))) <= 32767) by (eapply Rle_trans; [exact S |]; apply Rabs_le; lra). apply Rabs_le_inv in H. split; apply le_IZR; lra. }
  replace (limited (Ztrunc (amp (val x)))) with (Ztrunc (amp (val x))) by (unfold limited; lia). split; [| split; [exact Z | reflexivity]].
  apply Rabs_def2 in T. apply Rabs_le_inv in E. apply Rabs_def1; lra.
Qed.
End Save.
