(** What the block allocator must guarantee, stated with a ledger of what was handed out. *)
From Verif Require Import Base GraphModel AllocModel.
Local Open Scope nat_scope.

(** A region handed out: offset, length, number of borrows not returned yet. *)
Record held := mk_held { h_off : nat; h_len : nat; h_left : N }.
Inductive request := Get (channels : nat) (borrows : N) | Return (off : nat).

(** A borrow of a region is given back; a region without borrows left is no longer held.  (A region
    requested with no borrows at all is held for good.) *)
Fixpoint give_back (off : nat) (l : list held) : list held :=
  match l with
  | [] => []
  | h :: l' =>
      if h_off h =? off then
        if (h_left h =? 1)%N then l' else mk_held (h_off h) (h_len h) (h_left h - 1) :: l'
      else h :: give_back off l'
  end.
(** Requests a user of the allocator may make: regions of at least one channel, returns of borrows. *)
Definition legal (l : list held) (r : request) : Prop :=
  match r with
  | Get n _ => 1 <= n
  | Return off => exists h, In h l /\ h_off h = off /\ (0 < h_left h)%N
  end.
Definition serve (bs : nat) (a : alloc) (l : list held) (r : request) : option (alloc * list held) :=
  match r with
  | Get n b => ao <- get_block a n bs b ;; Some (fst ao, mk_held (snd ao) (n * bs) b :: l)
  | Return off => a' <- return_block a off ;; Some (a', give_back off l)
  end.
(** Every history of legal requests after a reset. *)
Inductive history (bs : nat) : alloc -> list held -> Prop :=
| h_start a a' : reset a bs = Some a' -> history bs a' []
| h_step a l r a' l' : history bs a l -> legal l r -> serve bs a l r = Some (a', l') -> history bs a' l'.

Definition apart (h h' : held) : Prop := h_off h + h_len h <= h_off h' \/ h_off h' + h_len h' <= h_off h.
