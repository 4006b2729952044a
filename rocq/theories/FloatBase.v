(** IEEE-754 binary floating point numbers (Flocq) as the model of [f32] and [f64], and the facts used about them.
    Rounding is to nearest, ties to even (Rust's arithmetic). One NaN stands for all NaNs (its payload is not modelled). *)
From Coq Require Import ZArith Reals Lra Lia.
From Flocq Require Import Core BinarySingleNaN.
Local Open Scope R_scope.

(** The formats for which the results are proved: at least the precision and range of [f32]. *)
Class ieee (prec emax : Z) := mk_ieee { ieee_prec : (24 <= prec)%Z; ieee_emax : (128 <= emax)%Z; ieee_lt : (prec < emax)%Z }.
Global Instance ieee_gt0 prec emax (H : ieee prec emax) : Prec_gt_0 prec.
Proof. destruct H. red. lia. Qed.
Global Instance ieee_ltm prec emax (H : ieee prec emax) : Prec_lt_emax prec emax.
Proof. destruct H. red. lia. Qed.
Global Instance ieee_f32 : ieee 24 128. Proof. split; reflexivity || discriminate. Defined.
Global Instance ieee_f64 : ieee 53 1024. Proof. split; reflexivity || discriminate. Defined.

Section Ops.
Context {prec emax : Z} {I : ieee prec emax}.
Notation fl := (binary_float prec emax).
Definition fadd (x y : fl) : fl := Bplus mode_NE x y.
Definition fsub (x y : fl) : fl := Bminus mode_NE x y.
Definition fmul (x y : fl) : fl := Bmult mode_NE x y.
Definition fdiv (x y : fl) : fl := Bdiv mode_NE x y.
Definition fneg (x : fl) : fl := Bopp x.
Definition fabs (x : fl) : fl := Babs x.
Definition fzero : fl := B754_zero false.
Definition fone : fl := Bone.
(** An integer converted to a float ([as f32] / [as f64]), and [m * 2^e] *)
Definition fz (z : Z) : fl := binary_normalize prec emax _ _ mode_NE z 0 false.
Definition fze (m e : Z) : fl := binary_normalize prec emax _ _ mode_NE m e false.
Definition fltb (x y : fl) : bool := Bltb x y.
Definition fleb (x y : fl) : bool := Bleb x y.
Definition feqb (x y : fl) : bool := Beqb x y.
Definition val (x : fl) : R := B2R x.
Definition fin (x : fl) : Prop := is_finite x = true.

Definition rnd (x : R) : R := round radix2 (SpecFloat.fexp prec emax) ZnearestE x.
Definition top : R := bpow radix2 emax.

Lemma rnd_le : forall x y, x <= y -> rnd x <= rnd y.
Proof. intros. unfold rnd. apply round_le; [typeclasses eauto | typeclasses eauto | assumption]. Qed.
Lemma rnd_val : forall x : fl, rnd (val x) = val x.
Proof. intros. unfold rnd. apply round_generic; [typeclasses eauto |]. apply generic_format_B2R. Qed.
Lemma rnd_0 : rnd 0 = 0.
Proof. unfold rnd. apply round_0. typeclasses eauto. Qed.
Lemma rnd_opp : forall x, rnd (- x) = - rnd x.
Proof. intros. unfold rnd. apply round_NE_opp. Qed.
Lemma rnd_abs : forall x, rnd (Rabs x) = Rabs (rnd x).
Proof. intros. unfold rnd. apply round_NE_abs. typeclasses eauto. Qed.
Lemma rnd_format : forall x, generic_format radix2 (SpecFloat.fexp prec emax) x -> rnd x = x.
Proof. intros. unfold rnd. apply round_generic; [typeclasses eauto | assumption]. Qed.
Lemma bpow_format : forall k, (-126 <= k)%Z -> generic_format radix2 (SpecFloat.fexp prec emax) (bpow radix2 k).
Proof.
  intros k Hk. apply generic_format_bpow. unfold SpecFloat.fexp, SpecFloat.emin. destruct I. lia.
Qed.
Lemma rnd_bpow : forall k, (-126 <= k)%Z -> rnd (bpow radix2 k) = bpow radix2 k.
Proof. intros. apply rnd_format. apply bpow_format. assumption. Qed.
Lemma rnd_1 : rnd 1 = 1.
Proof. change 1 with (bpow radix2 0). apply rnd_bpow. lia. Qed.
Lemma rnd_int : forall z, (Z.abs z <= 2 ^ 24)%Z -> rnd (IZR z) = IZR z.
Proof.
  intros z Hz. apply rnd_format.
  replace (SpecFloat.fexp prec emax) with (FLT_exp (SpecFloat.emin prec emax) prec) by reflexivity.
  destruct (Z.eq_dec (Z.abs z) (2 ^ 24)) as [E | N].
  - assert (Q : generic_format radix2 (FLT_exp (SpecFloat.emin prec emax) prec) (bpow radix2 24)) by (apply bpow_format; lia).
    replace (IZR (Z.abs z)) with (bpow radix2 24) in * by (rewrite E; reflexivity).
    destruct (Z.abs_eq_or_opp z) as [K | K]; rewrite K in E.
    + rewrite E. exact Q.
    + replace z with (- 2 ^ 24)%Z by lia. rewrite opp_IZR. apply generic_format_opp. exact Q.
  - apply generic_format_FLT. exists (Float radix2 z 0).
    + unfold F2R. cbn. ring.
    + cbn. destruct I. apply Z.lt_le_trans with (2 ^ 24)%Z; [lia |]. apply Z.pow_le_mono_r; lia.
    + cbn. unfold SpecFloat.emin. destruct I. lia.
Qed.
Lemma rnd_bound : forall x k, (-126 <= k)%Z -> Rabs x <= bpow radix2 k -> Rabs (rnd x) <= bpow radix2 k.
Proof. intros x k Hk H. rewrite <- rnd_abs. rewrite <- (rnd_bpow k Hk). apply rnd_le. exact H. Qed.
Lemma rnd_between : forall a b x, rnd a = a -> rnd b = b -> a <= x <= b -> a <= rnd x <= b.
Proof. intros a b x Ha Hb H. split; [rewrite <- Ha | rewrite <- Hb]; apply rnd_le; lra. Qed.
Lemma below_top : forall x k, (k < emax)%Z -> Rabs x <= bpow radix2 k -> Rabs x < top.
Proof. intros. eapply Rle_lt_trans; [eassumption |]. unfold top. apply bpow_lt. assumption. Qed.
Lemma fits : forall x k, (-126 <= k < emax)%Z -> Rabs x <= bpow radix2 k -> Rabs (rnd x) < top.
Proof. intros x k Hk H. apply below_top with k; [lia |]. apply rnd_bound; [lia | exact H]. Qed.
Lemma val_top : forall x : fl, Rabs (val x) < top.
Proof. intros. apply abs_B2R_lt_emax. Qed.

Lemma val_fzero : val fzero = 0. Proof. reflexivity. Qed.
Lemma fin_fzero : fin fzero. Proof. reflexivity. Qed.
Lemma val_fone : val fone = 1. Proof. apply Bone_correct. Qed.
Lemma fin_fone : fin fone. Proof. apply is_finite_Bone. Qed.

Lemma fadd_ok : forall x y, fin x -> fin y -> Rabs (rnd (val x + val y)) < top ->
  val (fadd x y) = rnd (val x + val y) /\ fin (fadd x y).
Proof.
  intros x y Hx Hy H. pose proof (Bplus_correct prec emax _ _ mode_NE x y Hx Hy) as C.
  rewrite Rlt_bool_true in C by exact H. destruct C as (C1 & C2 & _). split; assumption.
Qed.
Lemma fsub_ok : forall x y, fin x -> fin y -> Rabs (rnd (val x - val y)) < top ->
  val (fsub x y) = rnd (val x - val y) /\ fin (fsub x y).
Proof.
  intros x y Hx Hy H. pose proof (Bminus_correct prec emax _ _ mode_NE x y Hx Hy) as C.
  rewrite Rlt_bool_true in C by exact H. destruct C as (C1 & C2 & _). split; assumption.
Qed.
Lemma fmul_ok : forall x y, fin x -> fin y -> Rabs (rnd (val x * val y)) < top ->
  val (fmul x y) = rnd (val x * val y) /\ fin (fmul x y).
Proof.
  intros x y Hx Hy H. pose proof (Bmult_correct prec emax _ _ mode_NE x y) as C.
  rewrite Rlt_bool_true in C by exact H. destruct C as (C1 & C2 & _). split; [exact C1 |].
  unfold fin, fmul in *. rewrite C2, Hx, Hy. reflexivity.
Qed.
Lemma fdiv_ok : forall x y, fin x -> val y <> 0 -> Rabs (rnd (val x / val y)) < top ->
  val (fdiv x y) = rnd (val x / val y) /\ fin (fdiv x y).
Proof.
  intros x y Hx Hy H. pose proof (Bdiv_correct prec emax _ _ mode_NE x y Hy) as C.
  rewrite Rlt_bool_true in C by exact H. destruct C as (C1 & C2 & _). split; [exact C1 |].
  unfold fin, fdiv in *. rewrite C2. exact Hx.
Qed.
Lemma fze_ok : forall m e, Rabs (rnd (IZR m * bpow radix2 e)) < top ->
  val (fze m e) = rnd (IZR m * bpow radix2 e) /\ fin (fze m e).
Proof.
  intros m e H. pose proof (binary_normalize_correct prec emax _ _ mode_NE m e false) as C.
  change (F2R (Float radix2 m e)) with (IZR m * bpow radix2 e) in C. cbv zeta in C.
  unfold rnd in H. change (round_mode mode_NE) with ZnearestE in C.
  rewrite Rlt_bool_true in C by exact H. destruct C as (C1 & C2 & _). split; assumption.
Qed.
Lemma fz_ok : forall z, Rabs (rnd (IZR z)) < top -> val (fz z) = rnd (IZR z) /\ fin (fz z).
Proof.
  intros z H. pose proof (fze_ok z 0) as C. change (bpow radix2 0) with 1 in C. rewrite Rmult_1_r in C. apply C. exact H.
Qed.
Lemma fz_small : forall z, (Z.abs z <= 2 ^ 24)%Z -> val (fz z) = IZR z /\ fin (fz z).
Proof.
  intros z H. destruct (fz_ok z) as [A B].
  - apply fits with 24%Z; [destruct I; lia |]. rewrite <- abs_IZR. change (bpow radix2 24) with (IZR (2 ^ 24)). apply IZR_le. exact H.
  - split; [rewrite A; apply rnd_int; exact H | exact B].
Qed.
Lemma val_fneg : forall x, val (fneg x) = - val x. Proof. intros. apply B2R_Bopp. Qed.
Lemma fin_fneg : forall x, fin x -> fin (fneg x). Proof. intros. unfold fin, fneg. rewrite is_finite_Bopp. assumption. Qed.
Lemma val_fabs : forall x, val (fabs x) = Rabs (val x). Proof. intros. apply B2R_Babs. Qed.
Lemma fin_fabs : forall x, fin x -> fin (fabs x). Proof. intros. unfold fin, fabs. rewrite is_finite_Babs. assumption. Qed.

Lemma fltb_ok : forall x y, fin x -> fin y -> fltb x y = Rlt_bool (val x) (val y).
Proof. intros. apply Bltb_correct; assumption. Qed.
Lemma fleb_ok : forall x y, fin x -> fin y -> fleb x y = Rle_bool (val x) (val y).
Proof. intros. apply Bleb_correct; assumption. Qed.
Lemma feqb_ok : forall x y, fin x -> fin y -> feqb x y = Req_bool (val x) (val y).
Proof. intros. apply Beqb_correct; assumption. Qed.
Lemma fltb_true : forall x y, fin x -> fin y -> fltb x y = true -> val x < val y.
Proof. intros x y Hx Hy H. rewrite fltb_ok in H by assumption. destruct (Rlt_bool_spec (val x) (val y)); [assumption | discriminate]. Qed.
Lemma fltb_false : forall x y, fin x -> fin y -> fltb x y = false -> val y <= val x.
Proof. intros x y Hx Hy H. rewrite fltb_ok in H by assumption. destruct (Rlt_bool_spec (val x) (val y)); [discriminate | assumption]. Qed.
Lemma fleb_true : forall x y, fin x -> fin y -> fleb x y = true -> val x <= val y.
Proof. intros x y Hx Hy H. rewrite fleb_ok in H by assumption. destruct (Rle_bool_spec (val x) (val y)); [assumption | discriminate]. Qed.
Lemma fleb_false : forall x y, fin x -> fin y -> fleb x y = false -> val y < val x.
Proof. intros x y Hx Hy H. rewrite fleb_ok in H by assumption. destruct (Rle_bool_spec (val x) (val y)); [discriminate | assumption]. Qed.
End Ops.
Notation f32 := (binary_float 24 128).
Notation f64 := (binary_float 53 1024).
