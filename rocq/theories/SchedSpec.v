(** What should happen to a change: independent of the queue. *)
From Verif Require Import Base TimeModel TimeSpec SchedModel.
Local Open Scope N_scope.

Section Spec.
Variable V : Type.
(** An audio block: its first frame, the nodes that run in it, and which tokens are active. *)
Record sblock := mk_block { b_clock : N; b_keys : list nat; b_act : nat -> nat -> bool }.

(** The frame a time denotes, at sample rate [sr] (rounded down to a whole frame), for a change received in the block that
    starts at frame [c0].  A change without a time is due at once. *)
Definition due_frame (sr c0 : N) (t : option time) : N :=
  match t with
  | None => 0
  | Some t => (if t_abs t then 0 else c0) + sec_ticks (t_secs t) * sr / TS
  end.

(** The change [e] with due frame [f] can be applied in block [b]. *)
Definition takes (bs f : N) (e : event V) (b : sblock) : bool :=
  (f <? b_clock b + bs) && existsb (Nat.eqb (e_key e)) (b_keys b) &&
  match e_token e with Some tok => b_act b (e_id e) tok | None => true end.
(** What the UGen then receives: the offset of the due frame in the block, the smoothing, the value. *)
Definition calls_at (f : N) (e : event V) (b : sblock) : list (call V) :=
  (if b_clock b <? f then [SetDelay (e_param e) (f - b_clock b)] else []) ++
  match e_smooth e with Some v => [Apply (e_param e) v] | None => [] end ++
  match e_value e with Some v => [Apply (e_param e) v] | None => [] end.
Definition delivery_at (f : N) (e : event V) (b : sblock) : delivery V :=
  mk_delivery (e_id e) (b_clock b) (e_key e) (calls_at f e b).

(** A relative time of [T] ticks, [n] blocks later: in every block it is shortened by the block length, which is rounded
    down to whole ticks. *)
Definition left_after (bs sr T : N) (n : nat) : N := T - N.of_nat n * (bs * TS / sr).
(** The frame at which it then comes due, in the [n]th block [b] after it was received. *)
Definition due_in (bs sr T : N) (n : nat) (b : sblock) : N := b_clock b + left_after bs sr T n * sr / TS.
(** The first element of a list that satisfies a predicate which also sees its number. *)
Fixpoint find_from {A} (p : nat -> A -> bool) (n : nat) (l : list A) : option (nat * A) :=
  match l with [] => None | a :: l => if p n a then Some (n, a) else find_from p (S n) l end.

(** The blocks of a run that starts at frame [clock]. *)
Fixpoint blocks (bs clock : N) (ops : list (sop V)) : list sblock :=
  match ops with
  | [] => []
  | Send _ _ _ _ _ _ :: rest => blocks bs clock rest
  | Block keys act :: rest => mk_block clock keys act :: blocks bs (clock + bs) rest
  end.
(** The event that a send creates in state [s]. *)
Definition sent (s : sched V) (key param : nat) value smooth token t : event V :=
  mk_event (q_next s) key param value smooth token t.
(** Everything that was delivered for serial number [n]. *)
Definition deliveries (n : nat) (s : sched V) : list (delivery V) :=
  filter (fun d => Nat.eqb (d_id d) n) (q_log s).
End Spec.
Arguments due_frame sr c0 t. Arguments takes {V}. Arguments calls_at {V}. Arguments delivery_at {V}. Arguments blocks {V}.
Arguments sent {V}. Arguments deliveries {V}.
