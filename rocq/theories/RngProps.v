(** C43: the random number generator. *)
From Coq Require Import Reals.
From Flocq Require Import Core BinarySingleNaN.
From Verif Require Import Base FloatBase RngModel RngProofs.
Open Scope N_scope.

Lemma new_ok : forall seed, seed < 2 ^ 32 -> 0 < rng_new seed < 2 ^ 32.
Proof. intros seed H. unfold rng_new. destruct (N.eqb_spec seed 0); lia. Qed.

(** From every seed, zero included, no number is ever zero, nor is the state, and all fit in 32 bits. *)
Theorem C43_never_zero : forall seed n, seed < 2 ^ 32 -> 0 < rng_at (rng_new seed) n < 2 ^ 32.
Proof. intros seed n H. apply at_nonzero, new_ok, H. Qed.
Print Assumptions C43_never_zero.

(** From every seed two numbers of the sequence are equal exactly if their positions differ by a multiple of 2^32-1. *)
Theorem C43_period : forall seed i j, seed < 2 ^ 32 ->
  (rng_at (rng_new seed) i = rng_at (rng_new seed) j <-> i mod (2 ^ 32 - 1) = j mod (2 ^ 32 - 1)).
Proof.
  intros seed i j H. pose proof (new_ok seed H) as Hx. change (2 ^ 32 - 1) with period.
  rewrite (at_mod _ i), (at_mod _ j) by lia. split; [| intros ->; reflexivity].
  intros E. apply (at_distinct (rng_new seed)); [exact Hx | | | exact E]; apply N.mod_upper_bound; discriminate.
Qed.
Print Assumptions C43_period.

(** From every seed every non-zero 32-bit number comes up among the first 2^32-1 numbers. *)
Theorem C43_every_value : forall seed v, seed < 2 ^ 32 -> 0 < v < 2 ^ 32 ->
  exists n, 1 <= n <= 2 ^ 32 - 1 /\ rng_at (rng_new seed) n = v.
Proof.
  intros seed v H Hv. pose proof (new_ok seed H) as Hx.
  destruct (at_onto (rng_next (rng_new seed)) v) as (n & Hn & E); [change (0 < rng_at (rng_new seed) 1 < 2 ^ 32); apply at_nonzero; exact Hx | exact Hv |].
  exists (1 + n). split; [unfold period in Hn; lia |]. rewrite at_add. exact E.
Qed.
Print Assumptions C43_every_value.

(** The conversions to floating point give numbers above 0 and up to 1 inclusive. *)
Theorem C43_unit_f32 : forall seed n, seed < 2 ^ 32 ->
  let o := rng_unit (rng_at (rng_new seed) n) : binary_float 24 128 in fin o /\ (0 < val o <= 1)%R.
Proof. intros seed n H. apply unit_range. apply C43_never_zero. exact H. Qed.
Print Assumptions C43_unit_f32.
Theorem C43_unit_f64 : forall seed n, seed < 2 ^ 32 ->
  let o := rng_unit (rng_at (rng_new seed) n) : binary_float 53 1024 in fin o /\ (0 < val o <= 1)%R.
Proof. intros seed n H. apply unit_range. apply C43_never_zero. exact H. Qed.
Print Assumptions C43_unit_f64.

(* The first numbers from the default seed *)
Example rng_run : map (rng_at (rng_new 0)) [0; 1; 2; 3] = [17; 4596240; 1150042706; 1409999377] /\ rng_new 5 = 5.
Proof. vm_compute. split; reflexivity. Qed.
