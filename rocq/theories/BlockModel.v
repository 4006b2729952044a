(** Model of knaster_primitives/src/block.rs: blocks of audio samples.

    Simplifications: the sample type is any type [F] with a zero (nothing here computes with samples);
    [usize] sizes are [nat] (a block's [channels * block_size] samples fit in memory, so the index
    arithmetic of an in-range access cannot overflow); references and lifetimes are not modelled, a
    mutable slice is its read and write access.  [None] is a panic. *)
From Verif Require Import Base.
Local Open Scope nat_scope.

Section Blocks.
Context {F : Type} (zero : F).

(** block.rs:423-427 [VecBlock]; block.rs:480-486 [StaticBlock] (its sizes are type parameters).
    [b_vec] tells the two apart: only [VecBlock::channel_as_slice] asserts on the channel. *)
Record block := mk_block { b_vec : bool; b_buf : list F; b_channels : nat; b_size : nat }.

(** block.rs:430-436 [VecBlock::new], block.rs:494-498 [StaticBlock::new] *)
Definition block_new (vec : bool) (channels size : nat) : block :=
  mk_block vec (repeat zero (channels * size)) channels size.

(** Rust range indexing [&l[a..b]]: panics if [a > b] or [b > len] *)
Definition slice {A} (l : list A) (a b : nat) : option (list A) :=
  if (a <=? b) && (b <=? length l) then Some (firstn (b - a) (skipn a l)) else None.

(** block.rs:450-453 [VecBlock::channel_as_slice], 519-521 [StaticBlock::channel_as_slice] *)
Definition base_slice (b : block) (channel : nat) : option (list F) :=
  if b_vec b && negb (channel <? b_channels b) then None
  else slice (b_buf b) (channel * b_size b) ((channel + 1) * b_size b).
(** block.rs:455-457, 523-525 [channel_as_slice_mut] (no channel assertion) *)
Definition base_slice_mut (b : block) (channel : nat) : option (list F) :=
  slice (b_buf b) (channel * b_size b) ((channel + 1) * b_size b).
(** Writing element [i] of that mutable slice *)
Definition base_slice_write (b : block) (channel i : nat) (x : F) : option block :=
  s <- base_slice_mut b channel ;;
  if i <? length s then
    buf <- set_nth (b_buf b) (channel * b_size b + i) x ;;
    Some (mk_block (b_vec b) buf (b_channels b) (b_size b))
  else None.
(** block.rs:459-461, 527-529 [read] *)
Definition base_read (b : block) (channel frame : nat) : option F :=
  nth_error (b_buf b) (channel * b_size b + frame).
(** block.rs:463-465, 531-533 [write] *)
Definition base_write (b : block) (x : F) (channel frame : nat) : option block :=
  buf <- set_nth (b_buf b) (channel * b_size b + frame) x ;;
  Some (mk_block (b_vec b) buf (b_channels b) (b_size b)).

(** block.rs:165-195 [partial] / [partial_mut], block.rs:269-339 [PartialBlock], [PartialBlockMut]: a
    window [(start_offset, length)] on another block, which may itself be a window.  A view is the
    underlying block plus its windows, outermost (the one the user holds) first. *)
Definition view := list (nat * nat).

(** block.rs:318-320 [channels], 322-324/336-338 [block_size] *)
Definition v_channels (b : block) (v : view) : nat := b_channels b.
(** block.rs:322-324, 336-338 [block_size] *)
Definition v_size (b : block) (v : view) : nat :=
  match v with [] => b_size b | (_, len) :: _ => len end.

(** block.rs:294-296, 325-328 [channel_as_slice] / [channel_as_slice_mut] *)
Fixpoint v_slice (b : block) (v : view) (channel : nat) : option (list F) :=
  match v with
  | [] => base_slice b channel
  | (start, len) :: v' =>
      s <- v_slice b v' channel ;; slice s start (start + len)
  end.
(** block.rs:325-328 [channel_as_slice_mut] *)
Fixpoint v_slice_mut (b : block) (v : view) (channel : nat) : option (list F) :=
  match v with
  | [] => base_slice_mut b channel
  | (start, len) :: v' =>
      s <- v_slice_mut b v' channel ;; slice s start (start + len)
  end.
(** Writing element [i] of the mutable slice of a window: the inner slice's element [start + i] *)
Fixpoint v_slice_write (b : block) (v : view) (channel i : nat) (x : F) : option block :=
  match v with
  | [] => base_slice_write b channel i x
  | (start, len) :: v' =>
      s <- v_slice_mut b v channel ;;
      if i <? length s then v_slice_write b v' channel (start + i) x else None
  end.
(** block.rs:298-300, 330-332 [read] *)
Fixpoint v_read (b : block) (v : view) (channel frame : nat) : option F :=
  match v with
  | [] => base_read b channel frame
  | (start, _) :: v' => v_read b v' channel (frame + start)
  end.
(** block.rs:334-336 [write] *)
Fixpoint v_write (b : block) (v : view) (x : F) (channel frame : nat) : option block :=
  match v with
  | [] => base_write b x channel frame
  | (start, _) :: v' => v_write b v' x channel (frame + start)
  end.

(** block.rs:199-225 [BlockIterMut::next]: state is [channels_returned].  The outer option is a panic,
    the inner one the iterator's. *)
Definition iter_next (b : block) (v : view) (returned : nat) : option (option (list F) * nat) :=
  if v_channels b v <=? returned then Some (None, returned)
  else s <- v_slice_mut b v returned ;; Some (Some s, returned + 1).
(** Calling [next] [k] times *)
Fixpoint iter_run (b : block) (v : view) (k returned : nat) : option (list (option (list F))) :=
  match k with
  | O => Some []
  | S k' =>
      r <- iter_next b v returned ;;
      rest <- iter_run b v k' (snd r) ;;
      Some (fst r :: rest)
  end.
End Blocks.
Arguments block : clear implicits.
