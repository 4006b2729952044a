(** What is left of a signal without its constant part. *)
From Coq Require Import Reals.
From Coquelicot Require Import Complex.
From Verif Require Import Base WaveSpec SvfRespSpec.
Local Open Scope R_scope.

Definition r : R := 999 / 1000.
(** The mean of the samples before sample [n], each weighted by its age *)
Definition past (x : nat -> R) (n : nat) : R := (1 - r) * rsum (fun k => r ^ (n - 1 - k) * x k) n.
(** The sample without that mean *)
Definition without (x : nat -> R) (n : nat) : R := x n - past x n.
(** Sample [n] of channel [c] of interleaved samples *)
Definition channel (ch c : nat) (mem : list R) (n : nat) : R := nth (n * ch + c) mem 0.
(** Frame [n] of channel [c] is in the buffer *)
Definition in_buffer (ch c n : nat) (mem : list R) : Prop := (c < ch)%nat /\ (n * ch + c < length mem)%nat.
(** The part of the power of a sinusoid that is let through, [w] its angle per sample *)
Definition dc_power (w : R) : R := 2 * (1 - cos w) / ((1 - r) * (1 - r) + 2 * r * (1 - cos w)).
