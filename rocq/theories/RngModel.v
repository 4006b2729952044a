(** Model of the random number generator (knaster_core_dsp/src/dsp/xorrng.rs:8-52). *)
From Flocq Require Import BinarySingleNaN.
From Verif Require Import Base FloatBase.
Open Scope N_scope.

(** [u32 << k]: the bits beyond 32 are lost. *)
Definition shl32 (x k : N) : N := N.land (N.shiftl x k) (N.ones 32).
(** xorrng.rs:23-29 [new]; the default (l.13-17) is [rng_new 0] as well. *)
Definition rng_new (seed : N) : N := if seed =? 0 then 17 else seed.
(** xorrng.rs:33-38 [gen_u32]: the new state, which is also the result *)
Definition rng_next (x : N) : N :=
  let x := N.lxor x (shl32 x 13) in
  let x := N.lxor x (N.shiftr x 17) in
  N.lxor x (shl32 x 5).
(** The state (and result) after [n] numbers *)
Definition rng_at (x : N) (n : N) : N := N.iter n rng_next x.

Section Unit.
Context {prec emax : Z} {I : ieee prec emax}.
(** xorrng.rs:42-51 [gen_f32], [gen_f64]: [u32 as f / u32::MAX as f] *)
Definition rng_unit (x : N) : binary_float prec emax := fdiv (fz (Z.of_N x)) (fz (2 ^ 32 - 1)).
End Unit.
