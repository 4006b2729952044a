From Coq Require Import Reals.
From Flocq Require Import Core BinarySingleNaN.
From Verif Require Import Base FloatBase.
Local Open Scope R_scope.
Section Spec.
Context {prec emax : Z} {I : ieee prec emax}.
Notation fl := (binary_float prec emax).
(** A number on a grid: [z] times 2^[e] *)
Definition on_grid (e : Z) (x : fl) (z : Z) : Prop := fin x /\ val x = IZR z * bpow radix2 e.
(** What a 24-bit random number in 0..1 can be (fastrand uses 23 bits) *)
Definition rand01 (x : fl) : Prop := exists z, on_grid (-24) x z /\ (0 <= z < 2 ^ 24)%Z.
(** A white noise sample in -1..1 *)
Definition white (x : fl) : Prop := exists z, on_grid (-23) x z /\ (- 2 ^ 23 <= z <= 2 ^ 23)%Z.
Definition between (lo hi : R) (x : fl) : Prop := fin x /\ lo <= val x <= hi.
End Spec.
