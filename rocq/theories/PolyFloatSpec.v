(** What is assumed of the sine and cosine of the platform in C89. *)
From Coq Require Import Reals.
From Flocq Require Import Core BinarySingleNaN.
From Verif Require Import Base FloatBase PolyModel.
Local Open Scope R_scope.

Section Spec.
Context {prec emax : Z} {I : ieee prec emax}.
Notation fl := (binary_float prec emax).
(** A sine or cosine of a number is a number from -1 to 1. *)
Definition sane (f : fl -> fl) : Prop := forall x, fin x -> fin (f x) /\ Rabs (val (f x)) <= 1.
(** The constant tau is a number from 0 to 8. *)
Definition sane_tau (x : fl) : Prop := fin x /\ 0 <= val x <= 8.
(** The output is a number from -1 to 1. *)
Definition in_unit (x : fl) : Prop := fin x /\ Rabs (val x) <= 1.
End Spec.
(** The waveforms whose value does not depend on the pulse width and that are not rectified, apart from the square and the trapezoid *)
Definition plain : list waveform := [Sine; Cosine; Sawtooth; Ramp; Triangle].
