(** What the rectified sines are compared with in C97, and what is assumed of the platform, without reference to the program. *)
From Coq Require Import Reals.
From Flocq Require Import Core BinarySingleNaN.
From Verif Require Import FloatBase PolySpec.
Local Open Scope R_scope.

(** Both rectified sines without their mean *)
Definition full_sine (t : R) : R := 2 * Rabs (sin (PI * (t + 1 / 4))) - 4 / PI.
Definition half_sine (t : R) : R := 2 * Rmax 0 (sin (2 * PI * t)) - 2 / PI.
(** How much a corner is filled at distance [d] from it, within a step [dt] to either side *)
Definition filling (dt d : R) : R := if Rlt_dec d dt then 2 * PI * dt / 3 * (1 - d / dt) ^ 3 else 0.
(** With their corners filled: one where the full wave is zero, two where the half wave begins and ends *)
Definition round_full (dt t : R) : R := full_sine t + filling dt (circle t (3 / 4)).
Definition round_half (dt t : R) : R := half_sine t + filling dt (circle t 0) + filling dt (circle t (1 / 2)).

Section Platform.
Context {prec emax : Z}.
Notation fl := (binary_float prec emax).
(** The constants are within 4 and 8 rounding units, and [sin] from 0 to 4 within [delta] and not beyond 1. *)
Definition platform (delta : R) (fpi ftau : fl) (fsin : fl -> fl) : Prop :=
  fin fpi /\ Rabs (val fpi - PI) <= 4 * bpow radix2 (- prec) /\ fin ftau /\ Rabs (val ftau - 2 * PI) <= 8 * bpow radix2 (- prec) /\
  forall x, fin x -> 0 <= val x <= 4 -> fin (fsin x) /\ -1 <= val (fsin x) <= 1 /\ Rabs (val (fsin x) - sin (val x)) <= delta.
End Platform.
