(** Independent meaning of time values: the exact number of ticks they denote. *)
From Verif Require Import Base TimeModel.
Local Open Scope N_scope.

Definition sec_ticks (s : seconds) : N := s_whole s * TS + s_sub s.
Definition sec_normal (s : seconds) : Prop := s_whole s < U32 /\ s_sub s < TS.
Definition beats_ticks (b : beats) : N := b_whole b * TB + b_sub b.
Definition beats_normal (b : beats) : Prop := b_whole b < U32 /\ b_sub b < TB.
