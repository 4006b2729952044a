(** What is in a wavetable: its discrete Fourier transform. *)
From Coq Require Import Reals.
From Flocq Require Import Core BinarySingleNaN.
From Verif Require Import Base FloatBase.
Local Open Scope R_scope.
Fixpoint rsum (f : nat -> R) (n : nat) : R := match n with 0%nat => 0 | S n => rsum f n + f n end.
(** How much of the sine and of the cosine of [h] periods is in one period of a signal *)
Definition sine_part (t : list R) (h : nat) : R := 2 / INR (length t) * rsum (fun k => nth k t 0 * sin (2 * PI * INR h * INR k / INR (length t))) (length t).
Definition cosine_part (t : list R) (h : nat) : R := 2 / INR (length t) * rsum (fun k => nth k t 0 * cos (2 * PI * INR h * INR k / INR (length t))) (length t).
(** A harmonic that the table can hold: below half its length *)
Definition harmonic (t : list R) (h : nat) : Prop := (0 < h /\ 2 * h < length t)%nat.
Definition silent_at (t : list R) (h : nat) : Prop := sine_part t h = 0 /\ cosine_part t h = 0.
(** The highest fundamental that table [i] is used for, 32 Hz and half again for each table, and the limit for harmonics *)
Definition top_freq (i : nat) : R := 32 * (3 / 2) ^ i.
Definition hearing : R := 20000.
(** Nothing in table [i] sounds above the limit, whatever frequency it is used for *)
Definition limited (i : nat) (t : list R) : Prop := forall h, harmonic t h -> hearing < INR h * top_freq i -> silent_at t h.
(** Within -1..1 *)
Definition bounded {prec emax} (I : ieee prec emax) (t : list (binary_float prec emax)) : Prop := Forall (fun x => fin x /\ Rabs (val x) <= 1) t.
Definition all_limited (ts : list (list R)) : Prop := forall i t, nth_error ts i = Some t -> limited i t.
