(** Delays of a signal. *)
From Verif Require Import Base DelayModel.
Section Spec.
Variable V : Type.
Variable zero : V.
(** The [n]-th value of a signal, silence before its start *)
Definition back (xs : list V) (n d : nat) : V := if (n <? d)%nat then zero else nth (n - d) xs zero.
(** The signal delayed by [d] *)
Definition delayed (d : nat) (xs : list V) : list V := map (fun n => back xs n d) (seq 0 (length xs)).
(** The inputs in a history of a [SampleDelay], with the delay that holds at each *)
Fixpoint sd_inputs (d : nat) (ops : list (sd_op V)) : list (nat * V) :=
  match ops with [] => [] | SdSet d' :: r => sd_inputs d' r | SdFrame x :: r => (d, x) :: sd_inputs d r end.
Definition sd_expected (ops : list (sd_op V)) : list V :=
  let xs := map snd (sd_inputs 0 ops) in map (fun '(n, (d, _)) => back xs n d) (combine (seq 0 (length xs)) (sd_inputs 0 ops)).
(** The inputs in a history of a [StaticSampleDelay] *)
Definition ss_inputs (ops : list (ss_op V)) : list V :=
  concat (map (fun o => match o with SsSet _ => [] | SsSamples xs | SsBlock xs | SsProcess xs => xs end) ops).
Definition no_change (ops : list (ss_op V)) : Prop := forall n, ~ In (SsSet n) ops.
(** Blocks are at most as long as the line. *)
Definition blocks_fit (len : nat) (ops : list (ss_op V)) : Prop := forall xs, In (SsBlock xs) ops -> (length xs <= len)%nat.
End Spec.
