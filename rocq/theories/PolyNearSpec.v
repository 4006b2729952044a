(** What is compared in C90: states that a history in range leads to, and how fine the rounding is for a step. *)
From Coq Require Import Reals.
From Flocq Require Import Core BinarySingleNaN.
From Verif Require Import Base FloatBase PolyModel PolySpec.
Local Open Scope R_scope.

Section Spec.
Context {prec emax : Z} {I : ieee prec emax}.
Notation fl := (binary_float prec emax).
(** A state after a history of calls in range (C59) *)
Definition reached (O : poly_ops fl) (s : poly fl) : Prop := exists w freq sr l,
  fin freq /\ 0 <= val freq <= bpow radix2 100 /\ fin sr /\ 1 <= val sr /\ Forall op_ok l /\ s = poly_run O (poly_new O w freq) (PInit sr :: l).
(** It moves, at a frequency below a quarter of the sample rate, as the oscillator itself tests it. *)
Definition audible (O : poly_ops fl) (s : poly fl) : Prop :=
  0 < val (p_dt s) /\ fleb (fdiv (p_sr s) (fdiv (fz 4) (fz 1))) (fmul (p_dt s) (p_sr s)) = false.
(** The rounding unit over the step: 2^-24/dt for [f32] *)
Definition grain (s : poly fl) : R := bpow radix2 (- prec) / val (p_dt s).
(** The phase at which the square goes wrong: below one half, but one half more is rounded to one *)
Definition trap (t : fl) : Prop := val t < 1 / 2 /\ @rnd prec emax (val t + 1 / 2) = 1.
(** The exact waveform at the phase of the state *)
Definition ideal (s : poly fl) : R := wave_at (p_wave s) (val (p_dt s)) (val (p_pw s)) (val (p_t s)).
End Spec.
