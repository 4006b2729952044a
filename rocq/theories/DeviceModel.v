(** Model of the audio callbacks: knaster_graph/src/audio_backend/cpal.rs and jack.rs. The processor is any state machine that makes one
    block at a time (what it makes is the subject of the render theorems). A block is a list of channels. [None] is a panic. *)
From Verif Require Import Base.
Local Open Scope nat_scope.

Section Device.
Variable P : Type.   (* processors *)
Variable S : Type.   (* samples of the graph *)
Variable D : Type.   (* samples of the device *)
(** processor.rs:163-179 [run_raw_ptr_inputs]: the input block to the output block *)
Variable process : P -> list (list S) -> P * list (list S).
(** block.rs: the channels of a block *)
Definition block : Type := list (list S).
(** [block.read(channel, frame)]: panics outside of the block *)
Definition read (b : block) (c i : nat) : option S := ch <- nth_error b c;; nth_error ch i.

(** ** cpal.rs:148-211 *)
(** [T::from_sample(sample.to_f32())] *)
Variable out_conv : S -> D.
(** processor.rs:142-148 [run_without_inputs]: asserts that the graph has no inputs *)
Definition run_without_inputs (inputs : nat) (p : P) : option (P * block) := if inputs =? 0 then Some (process p []) else None.
(** Processor, its output block, and [sample_counter] *)
Record cpal := mk_cpal { c_proc : P; c_block : block; c_counter : nat }.
(** l.158-160 ([initial]: the processor's output block before the first run) *)
Definition cpal_new (bs : nat) (p : P) (initial : block) : cpal := mk_cpal p initial bs.
(** l.188-202: one sample per channel of the device *)
Fixpoint read_frame (b : block) (width c i : nat) : option (list D) :=
  match width with 0 => Some [] | Datatypes.S w => x <- read b c i;; r <- read_frame b w (Datatypes.S c) i;; Some (out_conv x :: r) end.
(** l.188-202: one chunk of the device's buffer ([width] is less than the number of channels only in an incomplete last chunk) *)
Definition cpal_frame (bs inputs : nat) (st : cpal) (width : nat) : option (cpal * list D) :=
  st1 <- (if bs <=? c_counter st then q <- run_without_inputs inputs (c_proc st);; Some (mk_cpal (fst q) (snd q) 0) else Some st);;
  f <- read_frame (c_block st1) width 0 (c_counter st1);;
  Some (mk_cpal (c_proc st1) (c_block st1) (Datatypes.S (c_counter st1)), f).
(** l.188-202: all chunks of the buffer *)
Fixpoint cpal_frames (bs inputs : nat) (st : cpal) (widths : list nat) : option (cpal * list (list D)) :=
  match widths with
  | [] => Some (st, [])
  | w :: ws => q <- cpal_frame bs inputs st w;; r <- cpal_frames bs inputs (fst q) ws;; Some (fst r, snd q :: snd r)
  end.
(** [output.chunks_mut(channels)] for a buffer of [len] samples: panics for 0 channels *)
Definition chunk_widths (channels len : nat) : option (list nat) :=
  if channels =? 0 then None else Some (repeat channels (len / channels) ++ (if len mod channels =? 0 then [] else [len mod channels])).
(** One call of the callback with a buffer of [len] samples; the buffer, interleaved *)
Definition cpal_callback (bs inputs channels : nat) (st : cpal) (len : nat) : option (cpal * list D) :=
  ws <- chunk_widths channels len;; q <- cpal_frames bs inputs st ws;; Some (fst q, concat (snd q)).
(** plumbing: callback after callback *)
Fixpoint cpal_run (bs inputs channels : nat) (st : cpal) (lens : list nat) : option (cpal * list (list D)) :=
  match lens with
  | [] => Some (st, [])
  | n :: ns => q <- cpal_callback bs inputs channels st n;; r <- cpal_run bs inputs channels (fst q) ns;; Some (fst r, snd q :: snd r)
  end.

(** ** jack.rs:118-161. The device's samples are [f32] *)
(** [F::new], the clamping (with NaN to 0), and [to_f32] *)
Variable in_conv : D -> S.
Variable clean : S -> S.
(** The processor and the input block (l.96: allocated once with the block size the server had) *)
Record jack := mk_jack { j_proc : P; j_in : block }.
(** [for (a, b) in from.iter().zip(to.iter_mut()) { *b = f(a) }] *)
Fixpoint zip_copy {A B} (f : A -> B) (from : list A) (to : list B) : list B :=
  match from, to with a :: from, _ :: to => f a :: zip_copy f from to | _, _ => to end.
(** the same for all ports *)
Fixpoint copy_ports {A B} (f : A -> B) (from : list (list A)) (to : list (list B)) : list (list B) :=
  match from, to with a :: from, b :: to => zip_copy f a b :: copy_ports f from to | _, _ => to end.
(** One call: the input ports' buffers and what was in the output ports' buffers, all of the server's current length *)
Definition jack_process (j : jack) (ins : list (list D)) (outs : list (list D)) : jack * list (list D) :=
  let i := copy_ports in_conv ins (j_in j) in
  let q := process (j_proc j) i in
  (mk_jack (fst q) i, copy_ports out_conv (map (map clean) (snd q)) outs).
(** plumbing: callback after callback *)
Fixpoint jack_run (j : jack) (calls : list (list (list D) * list (list D))) : jack * list (list (list D)) :=
  match calls with
  | [] => (j, [])
  | (i, o) :: cs => let q := jack_process j i o in let r := jack_run (fst q) cs in (fst r, snd q :: snd r)
  end.
End Device.
