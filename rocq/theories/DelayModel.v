(** Model of the integer delay lines (knaster_core_dsp/src/ugens/delay.rs): [SampleDelay] (l.14-49) and [StaticSampleDelay]
    (l.308-416). The sample type is any type with a zero. Indices are mathematical naturals; [None] is a panic (index out of
    bounds, subtraction below zero, remainder by zero, slice lengths that differ, failed assertion). *)
From Verif Require Import Base.

Section Delay.
Variable V : Type.
Variable zero : V.

(** ** SampleDelay. delay.rs:14-19. The delay and the maximal delay are given in samples here; the code converts them from
    seconds ([seconds * sample_rate as PFloat] as usize, l.34, l.46). *)
Record sdelay := mk_sdelay { sd_buf : list V; sd_wp : nat; sd_d : nat }.
(** delay.rs:24-31, 44-48: [new] then [init] *)
Definition sd_init (len : nat) : sdelay := mk_sdelay (repeat zero len) 0 0.
(** delay.rs:33-35 *)
Definition sd_set (d : nat) (s : sdelay) : sdelay := mk_sdelay (sd_buf s) (sd_wp s) d.
(** delay.rs:36-42 *)
Definition sd_process (x : V) (s : sdelay) : option (sdelay * V) :=
  buf <- set_nth (sd_buf s) (sd_wp s) x;;
  let len := length buf in
  if (sd_wp s + len <? sd_d s)%nat then None else
  if (len =? 0)%nat then None else
  out <- nth_error buf ((sd_wp s + len - sd_d s) mod len);;
  Some (mk_sdelay buf ((sd_wp s + 1) mod len) (sd_d s), out).
(** a change of the delay (delay.rs:32-36) or a frame *)
Inductive sd_op := SdSet (d : nat) | SdFrame (x : V).
(** The outputs of the frames *)
Fixpoint sd_run (s : sdelay) (ops : list sd_op) : option (list V) :=
  match ops with
  | [] => Some []
  | SdSet d :: r => sd_run (sd_set d s) r
  | SdFrame x :: r => p <- sd_process x s;; o <- sd_run (fst p) r;; Some (snd p :: o)
  end.

(** ** StaticSampleDelay. delay.rs:308-313 *)
Record ssd := mk_ssd { ss_buf : list V; ss_pos : nat; ss_len : nat }.
(** delay.rs:320-327 *)
Definition ssd_new (n : nat) : option ssd := if (n =? 0)%nat then None else Some (mk_ssd (repeat zero n) 0 n).
(** delay.rs:331-333 *)
Definition ssd_set_length (n : nat) (s : ssd) : ssd := mk_ssd (ss_buf s) (ss_pos s) (Nat.min n (length (ss_buf s))).
(** [&v[a..b]]: panics unless a <= b <= len *)
Definition slice (a b : nat) (l : list V) : option (list V) :=
  if ((a <=? b) && (b <=? length l))%nat then Some (firstn (b - a) (skipn a l)) else None.
(** [v[a..b].copy_from_slice(src)]: panics unless the slice exists and the lengths agree *)
Definition copy_to (a b : nat) (src l : list V) : option (list V) :=
  if ((a <=? b) && (b <=? length l) && (length src =? b - a))%nat then Some (firstn a l ++ src ++ skipn b l) else None.
(** [a % b]: panics for 0 *)
Definition rem (a b : nat) : option nat := if (b =? 0)%nat then None else Some (a mod b)%nat.
(** delay.rs:343-355: the block read, [n] = [output.len()] *)
Definition ssd_read_block (n : nat) (s : ssd) : option (list V) :=
  let buf := ss_buf s in
  if (length buf <? n)%nat then None else
  let read_end := (ss_pos s + n)%nat in
  if (read_end <=? length buf)%nat then slice (ss_pos s) read_end buf
  else
    e <- rem read_end (ss_len s);;
    if (n <? e)%nat then None else
    let out := repeat zero n in
    a <- slice (ss_pos s) (length buf) buf;;
    out <- copy_to 0 (n - e) a out;;
    b <- slice 0 e buf;;
    copy_to (n - e) n b out.
(** delay.rs:358-372 *)
Definition ssd_write_block (xs : list V) (s : ssd) : option ssd :=
  let buf := ss_buf s in
  let n := length xs in
  if (length buf <? n)%nat then None else
  let write_end := (ss_pos s + n)%nat in
  buf' <- (if (write_end <=? length buf)%nat then copy_to (ss_pos s) write_end xs buf
           else
             e <- rem write_end (ss_len s);;
             if (n <? e)%nat then None else
             a <- slice 0 (n - e) xs;;
             buf1 <- copy_to (ss_pos s) (length buf) a buf;;
             b <- slice (n - e) n xs;;
             copy_to 0 e b buf1);;
  p <- rem (ss_pos s + n) (length buf);;
  Some (mk_ssd buf' p (ss_len s)).
(** delay.rs:375-377 *)
Definition ssd_read (s : ssd) : option V := nth_error (ss_buf s) (ss_pos s).
(** delay.rs:397-400 *)
Definition ssd_write (x : V) (s : ssd) : option ssd :=
  buf <- set_nth (ss_buf s) (ss_pos s) x;;
  p <- rem (ss_pos s + 1) (ss_len s);;
  Some (mk_ssd buf p (ss_len s)).
(** Read, then write, sample by sample (delay.rs:409-412) *)
Fixpoint ssd_samples (xs : list V) (s : ssd) : option (ssd * list V) :=
  match xs with
  | [] => Some (s, [])
  | x :: r => o <- ssd_read s;; s1 <- ssd_write x s;; p <- ssd_samples r s1;; Some (fst p, o :: snd p)
  end.
(** Read a block, then write one *)
Definition ssd_block (xs : list V) (s : ssd) : option (ssd * list V) :=
  o <- ssd_read_block (length xs) s;; s1 <- ssd_write_block xs s;; Some (s1, o).
(** delay.rs:404-414, with input, output and [block_size] of the same length *)
Definition ssd_process (xs : list V) (s : ssd) : option (ssd * list V) :=
  if (length xs <? length (ss_buf s))%nat then ssd_block xs s else ssd_samples xs s.
(** a change of the delay, or samples through one of the three functions *)
Inductive ss_op := SsSet (n : nat) | SsSamples (xs : list V) | SsBlock (xs : list V) | SsProcess (xs : list V).
(** one of these calls *)
Definition ss_step (s : ssd) (o : ss_op) : option (ssd * list V) :=
  match o with
  | SsSet n => Some (ssd_set_length n s, [])
  | SsSamples xs => ssd_samples xs s
  | SsBlock xs => ssd_block xs s
  | SsProcess xs => ssd_process xs s
  end.
(** plumbing: call after call *)
Fixpoint ss_run (s : ssd) (ops : list ss_op) : option (ssd * list V) :=
  match ops with
  | [] => Some (s, [])
  | o :: r => p <- ss_step s o;; q <- ss_run (fst p) r;; Some (fst q, snd p ++ snd q)
  end.
End Delay.
Arguments SdSet {V}. Arguments SdFrame {V}. Arguments SsSet {V}. Arguments SsSamples {V}. Arguments SsBlock {V}. Arguments SsProcess {V}.
Arguments sd_buf {V}. Arguments sd_wp {V}. Arguments sd_d {V}. Arguments mk_sdelay {V}.
Arguments sd_set {V}. Arguments sd_process {V}. Arguments sd_run {V}.
Arguments ss_buf {V}. Arguments ss_pos {V}. Arguments ss_len {V}. Arguments mk_ssd {V}.
Arguments ssd_set_length {V}. Arguments slice {V}. Arguments copy_to {V}. Arguments ssd_write_block {V}. Arguments ssd_read {V}.
Arguments ssd_write {V}. Arguments ssd_samples {V}.
