(** What reading a wavetable between its samples should give. A phase counts 65536ths of a sample; a table has 16384 samples and starts
    again after the last one. *)
From Coq Require Import Reals.
From Flocq Require Import Core BinarySingleNaN.
From Verif Require Import Base FloatBase.
Local Open Scope R_scope.

Definition period : nat := N.to_nat 16384.
(** The sample before a phase, and the part of the way to the next one *)
Definition whole (p : N) : nat := N.to_nat (p / 65536 mod 16384)%N.
Definition part (p : N) : R := IZR (Z.of_N (p mod 65536)%N) / 65536.

Section Spec.
Context {prec emax : Z} {I : ieee prec emax}.
Notation fl := (binary_float prec emax).
(** The sample before a phase and the one after it *)
Definition before (t : list fl) (p : N) : R := val (nth (whole p) t fzero).
Definition after (t : list fl) (p : N) : R := val (nth ((whole p + 1) mod period)%nat t fzero).
(** The line through the samples *)
Definition on_line (t : list fl) (p : N) : R := (1 - part p) * before t p + part p * after t p.
(** A table of full length with samples in -1..1 *)
Definition playable (t : list fl) : Prop := length t = period /\ Forall (fun x => fin x /\ Rabs (val x) <= 1) t.
End Spec.
