(** Silence and delays of bounded signals. *)
From Coq Require Import Reals.
From Flocq Require Import Core BinarySingleNaN.
From Verif Require Import Base FloatBase AllpassModel.
Local Open Scope R_scope.
Section Spec.
Context {prec emax : Z} {I : ieee prec emax}.
Notation fl := (binary_float prec emax).
(** A zero of either sign *)
Definition silent (x : fl) : Prop := fin x /\ val x = 0.
(** A delay in frames that is within a line of [len] frames *)
Definition within (len : nat) (x : fl) : Prop := fin x /\ 0 <= val x < INR len /\ val x <= bpow radix2 60.
(** Silence, and delay settings within the capacity *)
Definition silent_ops (len : nat) (ops : list (ap_op prec emax)) : Prop :=
  forall o, In o ops -> match o with ApSet x => within len x | ApClear => False | ApFrame x => silent x end.
(** Samples of any sensible size *)
Definition bounded (x : fl) : Prop := fin x /\ Rabs (val x) <= bpow radix2 100.
Definition same (x y : fl) : Prop := fin x /\ val x = val y.
End Spec.
