(** More facts about floating point numbers: values that are not negative (and not NaN), the unit interval. *)
From Coq Require Import ZArith Reals Lra Lia.
From Flocq Require Import Core BinarySingleNaN.
From Verif Require Import FloatBase.
Local Open Scope R_scope.

Section More.
Context {prec emax : Z} {I : ieee prec emax}.
Notation fl := (binary_float prec emax).
Notation rnd := (@rnd prec emax).

(** [x >= 0]: false for NaN *)
Definition nn (x : fl) : Prop := fleb fzero x = true.
Definition unit_ (x : fl) : Prop := fin x /\ 0 <= val x <= 1.

Lemma nn_cases : forall x, nn x -> (fin x /\ 0 <= val x) \/ x = B754_infinity false.
Proof.
  intros x H. destruct x as [s | s | | s m e B].
  - left. split; [reflexivity |]. cbn. lra.
  - destruct s; [discriminate H | right; reflexivity].
  - discriminate H.
  - left. split; [reflexivity |]. apply fleb_true in H; [exact H | reflexivity | reflexivity].
Qed.
Lemma fin_nn : forall x, fin x -> 0 <= val x -> nn x.
Proof.
  intros x Hx H. unfold nn. rewrite fleb_ok; [| reflexivity | exact Hx]. apply Rle_bool_true. exact H.
Qed.
Lemma SF_infinity : forall (x : fl) s, B2SF x = SpecFloat.S754_infinity s -> x = B754_infinity s.
Proof. intros x s H. destruct x; try discriminate H. injection H as ->. reflexivity. Qed.
Lemma sign_true : forall x : fl, fin x -> Bsign x = true -> val x <= 0.
Proof.
  intros x Hx H. destruct x as [s | s | | s m e B]; cbn in *; try lra; try discriminate.
  subst s. unfold val, B2R. apply Rlt_le. apply F2R_lt_0. cbn. lia.
Qed.

Lemma fadd_nn : forall x y, nn x -> nn y -> nn (fadd x y).
Proof.
  intros x y Hx Hy. destruct (nn_cases x Hx) as [[Fx Vx] | ->].
  - destruct (nn_cases y Hy) as [[Fy Vy] | ->].
    + pose proof (Bplus_correct prec emax _ _ mode_NE x y Fx Fy) as C.
      destruct (Rlt_bool_spec (Rabs (round radix2 (SpecFloat.fexp prec emax) (round_mode mode_NE) (B2R x + B2R y))) (bpow radix2 emax)) as [L | L].
      * destruct C as (C1 & C2 & _). apply fin_nn; [exact C2 |]. unfold val, fadd. rewrite C1.
        change (0 <= rnd (val x + val y)). rewrite <- (rnd_0 (prec := prec) (emax := emax)). apply rnd_le. lra.
      * destruct C as [C1 C2].
        assert (S0 : Bsign x = false).
        { destruct (Bsign x) eqn:S0; [| reflexivity]. exfalso.
          pose proof (sign_true x Fx S0). symmetry in C2. pose proof (sign_true y Fy C2).
          assert (E : B2R x + B2R y = 0) by (unfold val in *; lra). rewrite E in L.
          rewrite round_0, Rabs_R0 in L by typeclasses eauto. pose proof (bpow_gt_0 radix2 emax). lra. }
        rewrite S0 in C1. change (B2SF (fadd x y) = SpecFloat.S754_infinity false) in C1.
        apply SF_infinity in C1. rewrite C1. reflexivity.
    + destruct x as [s | s | | s m e B]; try discriminate Fx; reflexivity.
  - destruct y as [s | s | | s m e B]; try discriminate Hy; try reflexivity.
    destruct s; [discriminate Hy | reflexivity].
Qed.
Lemma fmul_fin_nn : forall x y, fin x -> fin y -> 0 <= val x -> 0 <= val y -> nn (fmul x y) /\
  (fin (fmul x y) -> val (fmul x y) = rnd (val x * val y)).
Proof.
  intros x y Fx Fy Vx Vy. pose proof (Bmult_correct prec emax _ _ mode_NE x y) as C.
  destruct (Rlt_bool_spec (Rabs (round radix2 (SpecFloat.fexp prec emax) (round_mode mode_NE) (B2R x * B2R y))) (bpow radix2 emax)) as [L | L].
  - destruct C as (C1 & C2 & _). split; [| intros _; exact C1].
    assert (F : fin (fmul x y)) by (unfold fin, fmul; rewrite C2; unfold fin in *; rewrite Fx, Fy; reflexivity).
    apply fin_nn; [exact F |]. unfold val, fmul. rewrite C1. change (0 <= rnd (val x * val y)).
    rewrite <- (rnd_0 (prec := prec) (emax := emax)). apply rnd_le. apply Rmult_le_pos; assumption.
  - assert (S : forall z : fl, fin z -> 0 <= val z -> val z <> 0 -> Bsign z = false).
    { intros z Fz Vz Nz. destruct (Bsign z) eqn:S0; [| reflexivity]. exfalso. pose proof (sign_true z Fz S0). lra. }
    assert (N : val x <> 0 /\ val y <> 0).
    { split; intros E; unfold val in E; rewrite E in L; [rewrite Rmult_0_l in L | rewrite Rmult_0_r in L];
        rewrite round_0, Rabs_R0 in L by typeclasses eauto; pose proof (bpow_gt_0 radix2 emax); lra. }
    rewrite (S x Fx Vx (proj1 N)), (S y Fy Vy (proj2 N)) in C.
    change (B2SF (fmul x y) = SpecFloat.S754_infinity false) in C. apply SF_infinity in C. rewrite C.
    split; [reflexivity | intros H; discriminate H].
Qed.
(** The rate of a positive duration: one over (seconds times sample rate). *)
Lemma rate_nn : forall sec sr, nn sec -> feqb sec fzero = false -> fin sr -> 1 <= val sr -> nn (fdiv fone (fmul sec sr)).
Proof.
  intros sec sr Hs Hz Fr Vr. destruct (nn_cases sec Hs) as [[Fs Vs] | ->].
  - assert (P : 0 < val sec).
    { destruct (Req_dec (val sec) 0) as [E | N]; [| lra]. exfalso. rewrite feqb_ok in Hz by (assumption || reflexivity).
      rewrite E in Hz. cbn in Hz. rewrite Req_bool_true in Hz by reflexivity. discriminate Hz. }
    destruct (fmul_fin_nn sec sr Fs Fr Vs ltac:(lra)) as [Q1 Q2].
    destruct (nn_cases _ Q1) as [[Fm Vm] | E].
    + specialize (Q2 Fm).
      assert (P2 : val sec <= val (fmul sec sr)).
      { rewrite Q2. rewrite <- (rnd_val sec) at 1. apply rnd_le.
        rewrite <- (Rmult_1_r (val sec)) at 1. apply Rmult_le_compat_l; lra. }
      pose proof (Bdiv_correct prec emax _ _ mode_NE fone (fmul sec sr) ltac:(apply Rgt_not_eq; unfold val in *; lra)) as C.
      destruct (Rlt_bool_spec (Rabs (round radix2 (SpecFloat.fexp prec emax) (round_mode mode_NE) (B2R fone / B2R (fmul sec sr)))) (bpow radix2 emax)) as [L | L].
      * destruct C as (C1 & C2 & _). apply fin_nn; [unfold fin, fdiv; rewrite C2; apply is_finite_Bone |].
        unfold val, fdiv. rewrite C1. change (0 <= rnd (val fone / val (fmul sec sr))).
        rewrite <- (rnd_0 (prec := prec) (emax := emax)). apply rnd_le. rewrite val_fone.
        apply Rmult_le_pos; [lra |]. left. apply Rinv_0_lt_compat. lra.
      * assert (Sg : Bsign (fmul sec sr) = false).
        { destruct (Bsign (fmul sec sr)) eqn:S0; [| reflexivity]. exfalso. pose proof (sign_true _ Fm S0). lra. }
        rewrite Sg in C. change (Bsign fone) with (Bsign (@Bone prec emax _ _)) in C. rewrite Bsign_Bone in C.
        change (B2SF (fdiv fone (fmul sec sr)) = SpecFloat.S754_infinity false) in C. apply SF_infinity in C. rewrite C. reflexivity.
    + rewrite E. unfold nn. pose proof (is_finite_strict_Bone prec emax _ _) as B. pose proof (Bsign_Bone prec emax _ _) as Sg.
      unfold fone, fdiv. destruct (Bone : fl) as [s | s | | s m e Bd]; try discriminate B.
      cbn in Sg. subst s. reflexivity.
  - assert (E : fmul (B754_infinity false) sr = B754_infinity false).
    { destruct sr as [s | s | | s m e B]; try discriminate Fr.
      - cbn in Vr. lra.
      - destruct s; [| reflexivity]. exfalso. pose proof (sign_true (B754_finite true m e B) Fr eq_refl). lra. }
    rewrite E. unfold nn. pose proof (is_finite_strict_Bone prec emax _ _) as B. pose proof (Bsign_Bone prec emax _ _) as Sg.
    unfold fone, fdiv. destruct (Bone : fl) as [s | s | | s m e Bd]; try discriminate B.
    cbn in Sg. subst s. reflexivity.
Qed.

Lemma unit_zero : unit_ fzero. Proof. split; [reflexivity |]. cbn. lra. Qed.
Lemma unit_one : unit_ fone. Proof. split; [apply fin_fone |]. rewrite val_fone. lra. Qed.
Lemma unit_mul : forall x y, unit_ x -> unit_ y -> unit_ (fmul x y) /\ val (fmul x y) = rnd (val x * val y).
Proof.
  intros x y [Fx Vx] [Fy Vy].
  assert (B : 0 <= val x * val y <= 1).
  { split; [apply Rmult_le_pos; lra |]. rewrite <- (Rmult_1_r 1). apply Rmult_le_compat; lra. }
  assert (R : 0 <= rnd (val x * val y) <= 1) by (apply rnd_between; [apply rnd_0 | apply rnd_1 | exact B]).
  destruct (fmul_ok x y Fx Fy) as [A1 A2].
  { apply below_top with 0%Z; [destruct I; lia |]. change (bpow radix2 0) with 1. rewrite Rabs_pos_eq; lra. }
  split; [split; [exact A2 | rewrite A1; exact R] | exact A1].
Qed.
(** [x] not below 1: the sum of numbers that are not negative *)
Lemma not_ge_one : forall x, nn x -> fleb fone x = false -> fin x /\ 0 <= val x < 1.
Proof.
  intros x Hx H. destruct (nn_cases x Hx) as [[Fx Vx] | ->].
  - split; [exact Fx |]. apply fleb_false in H; [| apply fin_fone | exact Fx]. rewrite val_fone in H. lra.
  - exfalso. revert H. pose proof (is_finite_strict_Bone prec emax _ _) as B. unfold fone.
    destruct (Bone : fl) as [s | s | | s m e Bd]; try discriminate B. unfold fleb, Bleb. cbn. destruct s; discriminate.
Qed.
Lemma fsub_unit : forall t r, unit_ t -> nn r ->
  (fleb (fsub t r) fzero = true) \/ (fleb (fsub t r) fzero = false /\ fin r /\ fin (fsub t r) /\ val (fsub t r) = rnd (val t - val r) /\ 0 < val (fsub t r) <= val t).
Proof.
  intros t r [Ft Vt] Hr. destruct (nn_cases r Hr) as [[Fr Vr] | ->].
  - assert (B : - val r <= val t - val r <= val t) by lra.
    assert (R : - val r <= rnd (val t - val r) <= val t).
    { apply rnd_between; [rewrite rnd_opp, rnd_val; reflexivity | apply rnd_val | exact B]. }
    destruct (fsub_ok t r Ft Fr) as [A1 A2].
    { destruct (Rle_dec 0 (rnd (val t - val r))) as [P | P].
      - rewrite Rabs_pos_eq by exact P. apply Rle_lt_trans with (val t); [lra |].
        pose proof (val_top t). rewrite Rabs_pos_eq in H by lra. exact H.
      - rewrite Rabs_left by lra. apply Rle_lt_trans with (val r); [lra |].
        pose proof (val_top r). rewrite Rabs_pos_eq in H by lra. exact H. }
    destruct (fleb (fsub t r) fzero) eqn:E; [left; reflexivity | right].
    apply fleb_false in E; [| exact A2 | reflexivity]. rewrite val_fzero in E.
    repeat split; try assumption. rewrite A1. lra.
  - left. destruct t as [s | s | | s m e B]; try discriminate Ft; reflexivity.
Qed.

(** Rounding errors in the unit interval *)
Definition eps : R := bpow radix2 (- prec - 1).
Lemma unit_error : forall x, 0 <= x < 1 -> Rabs (rnd x - x) <= eps.
Proof.
  intros x Hx. destruct (Req_dec x 0) as [-> | N].
  - rewrite rnd_0, Rminus_0_r, Rabs_R0. apply bpow_ge_0.
  - eapply Rle_trans; [apply error_le_half_ulp; exact (FLT_exp_valid (SpecFloat.emin prec emax) prec) |].
    rewrite ulp_neq_0 by exact N. unfold cexp.
    assert (M : (mag radix2 x <= 0)%Z) by (apply mag_le_bpow; [exact N | change (bpow radix2 0) with 1; rewrite Rabs_pos_eq; lra]).
    unfold eps. replace (/ 2) with (bpow radix2 (-1)) by reflexivity. rewrite <- bpow_plus. apply bpow_le.
    unfold SpecFloat.fexp, SpecFloat.emin. destruct I. lia.
Qed.
Lemma eps_pos : 0 < eps. Proof. apply bpow_gt_0. Qed.
End More.
