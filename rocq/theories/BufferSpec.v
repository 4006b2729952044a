From Flocq Require Import Core BinarySingleNaN.
From Verif Require Import Base FloatBase BufferModel.
Open Scope N_scope.
(** All positions are inside the memory of the buffer. *)
Definition inside (b : buffer) (l : list N) : Prop := Forall (fun i => i < b_len b) l.
(** The settings keep playback inside the buffer: it starts before the end of the buffer and ends there at the latest. *)
Definition settings_ok (b : buffer) (s : player) : Prop := fleb (b_frames b) (pl_start s) = false /\ fleb (pl_end s) (b_frames b) = true.
(** ... after every operation of a history *)
Fixpoint always_ok (b : buffer) (channels : nat) (s : player) (ops : list pop) : Prop :=
  settings_ok b s /\ match ops with [] => True | o :: ops => always_ok b channels (fst (pop_step b channels s o)) ops end.
(** Operations that leave start and end as they are *)
Definition keeps_range (o : pop) : Prop := match o with PStart _ | PDur _ | PEnd _ => False | _ => True end.
