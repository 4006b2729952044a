(** The signal of a processor: its blocks one after the other *)
From Verif Require Import Base DeviceModel.
Local Open Scope nat_scope.

Section Signal.
Variable P S D : Type.
Variable process : P -> list (list S) -> P * list (list S).
(** The processor after [n] blocks without inputs, and block number [n] *)
Fixpoint after (p : P) (n : nat) : P := match n with 0 => p | Datatypes.S n => fst (process (after p n) []) end.
Definition nth_block (p : P) (n : nat) : list (list S) := snd (process (after p n) []).
(** All blocks have [channels] channels of [bs] frames *)
Definition shaped (bs channels : nat) (b : list (list S)) : Prop := length b = channels /\ forall ch, In ch b -> length ch = bs.
(** Frame [k] of the whole signal, the block being [bs] long: frame [k mod bs] of block [k / bs], a sample for each channel *)
Definition is_frame (bs channels : nat) (p : P) (out_conv : S -> D) (k : nat) (f : list D) : Prop :=
  length f = channels /\ forall c, c < channels -> exists ch x, nth_error (nth_block p (k / bs)) c = Some ch /\ nth_error ch (k mod bs) = Some x /\ nth_error f c = Some (out_conv x).
End Signal.

Section Driven.
Variable P S : Type.
Variable process : P -> list (list S) -> P * list (list S).
(** The output blocks for a sequence of input blocks *)
Fixpoint driven (p : P) (ins : list (list (list S))) : list (list (list S)) :=
  match ins with [] => [] | i :: ins => let q := process p i in snd q :: driven (fst q) ins end.
End Driven.
