(** Model of logging from the audio thread: knaster_core/src/log.rs. The ring buffer (the rtrb crate, one producer and one consumer) is
    a queue with a capacity and the position of its oldest element, which decides where a chunk is split in two. Sending and receiving
    happen on different threads: a receive takes its chunk ([LBegin]) and returns it ([LCommit]) at different times, and messages
    can be sent in between. The payload of a message part is a parameter. [None] is a panic. *)
From Verif Require Import Base.
Local Open Scope nat_scope.

Section Log.
Variable T : Type.
(** log.rs:19-38 [ArLogMessage] *)
Inductive msg := MPart (x : T) | MEnd.
(** [ArLogMessage::End] *)
Definition is_end (m : msg) : bool := match m with MEnd => true | MPart _ => false end.

(** The queue, the capacity, the index of the oldest element in the buffer, and the size of the chunk being read, if any *)
Record ring := mk_ring { r_q : list msg; r_cap : nat; r_head : nat; r_chunk : option nat }.
(** rtrb's [RingBuffer::new] *)
Definition ring_new (cap : nat) : ring := mk_ring [] cap 0 None.

(** log.rs:259-266 [send], [sender.push(message).ok()]: dropped if full *)
Definition send (r : ring) (m : msg) : ring * bool :=
  if length (r_q r) <? r_cap r then (mk_ring (r_q r ++ [m]) (r_cap r) (r_head r) (r_chunk r), true) else (r, false).
(** log.rs:269-282 [rt_log!] *)
Definition rt_log (parts : list T) : list msg := map MPart parts ++ [MEnd].

(** [&s[a..b]] *)
Definition slice (s : list msg) (a b : nat) : option (list msg) := if (a <=? b) && (b <=? length s) then Some (firstn (b - a) (skipn a s)) else None.
(** [position] *)
Fixpoint find_end (l : list msg) : option nat :=
  match l with [] => None | m :: l => if is_end m then Some 0 else option_map S (find_end l) end.
(** log.rs:167-190: the loop over the chains in the chunk [s0], [s1]; the calls of the handler and [last_end] *)
Fixpoint recv_loop (fuel : nat) (s0 s1 : list msg) (last_end : nat) : option (list (list msg) * nat) :=
  match find_end (skipn last_end (s0 ++ s1)) with
  | None => Some ([], last_end)
  | Some pos =>
      match fuel with
      | O => None
      | S fuel =>
          slice0 <- (if length s0 <=? last_end then Some [] else slice s0 last_end (Nat.min (last_end + pos + 1) (length s0)));;
          slice1 <- (if last_end + pos <? length s0 then Some []
                     else if length s0 <=? last_end then slice s1 (last_end - length s0) (last_end + pos - length s0 + 1)
                     else slice s1 0 (last_end + pos - length s0 + 1));;
          r <- recv_loop fuel s0 s1 (last_end + pos + 1);;
          Some (slice0 :: slice1 :: fst r, snd r)
      end
  end.
(** log.rs:161-195 [recv], for one channel: [read_chunk(slots)], *)
Definition begin (r : ring) : ring := mk_ring (r_q r) (r_cap r) (r_head r) (Some (length (r_q r))).
(** then [as_slices] (the part up to the end of the buffer, and the rest), the loop, and [commit(last_end)] *)
Definition commit (r : ring) : option (ring * list (list msg)) :=
  match r_chunk r with
  | None => Some (r, [])
  | Some n =>
      let l := firstn n (r_q r) in
      let k := Nat.min n (r_cap r - r_head r) in
      c <- recv_loop n (firstn k l) (skipn k l) 0;;
      Some (mk_ring (skipn (snd c) (r_q r)) (r_cap r) ((r_head r + snd c) mod (r_cap r)) None, fst c)
  end.

(** a message is sent, or the receiver begins or ends a round *)
Inductive lop := LSend (m : msg) | LBegin | LCommit.
(** What was done: a message kept or dropped, or the calls of the handler *)
Inductive lout := LKept (m : msg) | LDropped (m : msg) | LCalls (cs : list (list msg)) | LNothing.
(** one of these *)
Definition lstep (r : ring) (o : lop) : option (ring * lout) :=
  match o with
  | LSend m => let q := send r m in Some (fst q, if snd q then LKept m else LDropped m)
  | LBegin => Some (match r_chunk r with None => begin r | Some _ => r end, LNothing)
  | LCommit => q <- commit r;; Some (fst q, LCalls (snd q))
  end.
(** plumbing: any sequence of them *)
Fixpoint lrun (r : ring) (ops : list lop) : option (ring * list lout) :=
  match ops with
  | [] => Some (r, [])
  | o :: ops => q <- lstep r o;; p <- lrun (fst q) ops;; Some (fst p, snd q :: snd p)
  end.

(** Several channels (log.rs:122-124, 162): each operation is on one of them; [recv] is begin and commit on each in turn, and the
    handler is not told which one *)
Fixpoint crun (rs : list ring) (ops : list (nat * lop)) : option (list ring * list (nat * lout)) :=
  match ops with
  | [] => Some (rs, [])
  | (i, o) :: ops =>
      r <- nth_error rs i;; q <- lstep r o;; rs1 <- set_nth rs i (fst q);; p <- crun rs1 ops;; Some (fst p, (i, snd q) :: snd p)
  end.
End Log.
Arguments MPart {T} x. Arguments MEnd {T}. Arguments mk_ring {T}. Arguments r_q {T}. Arguments r_cap {T}. Arguments r_head {T}. Arguments r_chunk {T}.
Arguments LSend {T} m. Arguments LBegin {T}. Arguments LCommit {T}. Arguments LKept {T} m. Arguments LDropped {T} m. Arguments LCalls {T} cs. Arguments LNothing {T}.
Arguments ring_new {T}. Arguments rt_log {T}. Arguments lrun {T}. Arguments lstep {T}. Arguments crun {T}. Arguments is_end {T}. Arguments find_end {T}. Arguments slice {T}. Arguments recv_loop {T}. Arguments commit {T}. Arguments begin {T}. Arguments send {T}.
