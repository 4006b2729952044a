(** The numeric sine oscillator in floating point against [wanted] of SineSpec.v. *)
From Coq Require Import Reals.
From Flocq Require Import Core BinarySingleNaN.
From Verif Require Import Base FloatBase SineModel.
Local Open Scope R_scope.

Section Spec.
Context {prec emax : Z} {I : ieee prec emax}.
Notation fl := (binary_float prec emax).
(** A call with the values of its numbers *)
Definition exact_call (o : sine_op fl) : sine_op R :=
  match o with YInit r => YInit (val r) | YFreq f r => YFreq (val f) (val r) | YOffset o => YOffset (val o) | YReset => YReset | YSample => YSample end.
(** Frequencies from zero to the sample rate, offsets of up to one turn either way *)
Definition usual (o : sine_op fl) : Prop :=
  match o with
  | YInit _ => False
  | YFreq f sr => fin f /\ fin sr /\ 1 <= val sr /\ 0 <= val f <= val sr
  | YOffset o => fin o /\ Rabs (val o) <= 1
  | _ => True
  end.
(** A sine and a circle constant that are right up to errors, on a bit more than two turns *)
Definition sine_library (d e : R) (tau : fl) (fsin : fl -> fl) : Prop :=
  fin tau /\ Rabs (val tau - 2 * PI) <= d /\ forall a, fin a -> Rabs (val a) <= 15 -> fin (fsin a) /\ Rabs (val (fsin a) - sin (val a)) <= e.
End Spec.
