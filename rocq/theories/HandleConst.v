(** Model of the conversion of constants to the sample type: graph_edit.rs:974-994 [ConstantNumber::into_f], float.rs:115-127, 155-170 *)
From Coq Require Import ZArith Reals Lra Lia.
From Flocq Require Import Core BinarySingleNaN.
From Verif Require Import FloatBase FloatMore.
Local Open Scope Z_scope.

(** [as f32] / [as f64] between float types: rounds to nearest; widening is exact *)
Definition fconv {p e p' e' : Z} {I : ieee p e} {I' : ieee p' e'} (x : binary_float p e) : binary_float p' e' :=
  match x with
  | B754_zero s => B754_zero s
  | B754_infinity s => B754_infinity s
  | B754_nan => B754_nan
  | B754_finite s m ex _ => fze (cond_Zopp s (Zpos m)) ex
  end.
Inductive const_number := CF32 (x : binary_float 24 128) | CF64 (x : binary_float 53 1024) | CUsize (u : Z) | CI32 (i : Z).
(** l.984-994: an [i32] goes through [f32] *)
Definition into_f {p e : Z} {I : ieee p e} (c : const_number) : binary_float p e :=
  match c with
  | CF32 x => fconv x
  | CF64 x => fconv x
  | CUsize u => fz u
  | CI32 i => fconv (fz i : binary_float 24 128)
  end.

Local Open Scope R_scope.
Lemma fconv_int {p e p' e' : Z} {I : ieee p e} {I' : ieee p' e'} (x : binary_float p e) i : fin x -> val x = IZR i -> (Z.abs i <= 2 ^ 24)%Z ->
  val (fconv x : binary_float p' e') = IZR i /\ fin (fconv x : binary_float p' e').
Proof.
  intros Fx Vx Hi. destruct (fz_small (prec := p') (emax := e') i Hi) as [Vz Fz].
  assert (R : @rnd p' e' (IZR i) = IZR i /\ Rabs (@rnd p' e' (IZR i)) < @top e').
  { assert (T : Rabs (@rnd p' e' (IZR i)) < @top e').
    { apply fits with 24%Z; [destruct I'; lia |]. rewrite <- abs_IZR. change (bpow radix2 24) with (IZR (2 ^ 24)). apply IZR_le. exact Hi. }
    split; [| exact T]. destruct (fz_ok (prec := p') (emax := e') i T) as [A _]. rewrite <- A. exact Vz. }
  destruct R as [R1 R2]. destruct x as [s | s | | s m ex B]; try discriminate Fx.
  - cbn [fconv]. split; [| reflexivity]. change (val (B754_zero s : binary_float p' e')) with 0. change (val (B754_zero s : binary_float p e)) with 0 in Vx. exact Vx.
  - cbn [fconv]. change (val (B754_finite s m ex B)) with (F2R (Float radix2 (cond_Zopp s (Zpos m)) ex)) in Vx. unfold F2R in Vx. cbn [Fnum Fexp] in Vx.
    destruct (fze_ok (prec := p') (emax := e') (cond_Zopp s (Zpos m)) ex) as [A C]; [rewrite Vx; exact R2 |]. split; [rewrite A, Vx; exact R1 | exact C].
Qed.
Lemma into_f_i32 {p e : Z} {I : ieee p e} i : (Z.abs i <= 2 ^ 24)%Z -> val (into_f (CI32 i) : binary_float p e) = IZR i /\ fin (into_f (CI32 i) : binary_float p e).
Proof. intros H. destruct (fz_small (prec := 24) (emax := 128) i H) as [V F]. cbn [into_f]. apply fconv_int; assumption. Qed.
