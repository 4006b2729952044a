(** The times of an envelope. *)
From Coq Require Import Reals.
From Flocq Require Import Core BinarySingleNaN.
From Verif Require Import Base FloatBase FloatMore EnvModel.
Local Open Scope R_scope.

Section Spec.
Context {prec emax : Z} {I : ieee prec emax}.
Notation fl := (binary_float prec emax).
Notation eop := (eop prec emax).
(** The attack (release) time after some operations, if it was [s] before *)
Fixpoint attack_after (s : fl) (ops : list eop) : fl := match ops with [] => s | EAttack x :: r => attack_after x r | _ :: r => attack_after s r end.
Fixpoint release_after (s : fl) (ops : list eop) : fl := match ops with [] => s | ERelease x :: r => release_after x r | _ :: r => release_after s r end.
(** A time of at least one sample (and at most 2^100), and its length in samples *)
Definition proper (sr : N) (s : fl) : Prop := fin s /\ 1 <= val s * IZR (Z.of_N sr) <= bpow radix2 100.
Definition samples_of (sr : N) (s : fl) : R := val s * IZR (Z.of_N sr).
(** [r] is the rate of a time of [n] samples, up to four rounding errors *)
Definition rate_for (n r : R) : Prop := Rabs (r - / n) <= 8 * @eps prec * / n.
End Spec.
