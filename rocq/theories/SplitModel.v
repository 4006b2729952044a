(** Model of generators with their own block code when they process a block in parts, which is what the sample-accurate wrapper
    (knaster_core_dsp/src/wrappers_core/precise_timing.rs:65-116) does at every delayed change. Blocks and generators are those of
    [MathModel]; a part of a block is the window that [PartialBlock] and [PartialBlockMut] (knaster_primitives/src/block.rs:269-365)
    show of it. *)
From Flocq Require Import BinarySingleNaN.
From Verif Require Import Base FloatBase MathModel EnvModel BufferModel PlayModel.
Open Scope nat_scope.

Section Parts.
Context {F P : Type}.
(** block.rs:287-289, 315-322: the slice of a channel *)
Definition cut (start len : nat) (ch : list F) : list F := firstn len (skipn start ch).
(** the slices of all channels of a partial block (block.rs:287-289, 315-322) *)
Definition window (start len : nat) (b : list (list F)) : list (list F) := map (cut start len) b.
(** What is written to the slices ends up in the block *)
Fixpoint put (start : nat) (b w : list (list F)) : list (list F) :=
  match b, w with
  | ch :: b, wc :: w => (firstn start ch ++ wc ++ skipn (start + length wc) ch) :: put start b w
  | b, _ => b
  end.
(** precise_timing.rs:81-112: the changes that are due, then the part up to the next one. Which changes these are and how long the
    parts get is the subject of [PreciseModel]; here they are given. Parameters are applied with [param_apply]. *)
Fixpoint in_parts (g : gen F P) (s : g_state g) (start : nat) (l : list (list P * nat)) (i o : list (list F)) : g_state g * list (list F) :=
  match l with
  | [] => (s, o)
  | (ps, n) :: l =>
      let r := g_block g (fold_left (g_param g) ps s) n (window start n i) (window start n o) in
      in_parts g (fst r) (start + n) l i (put start o (snd r))
  end.

(** ** Generators that fill a slice sample by sample *)
Context {E : Type}.
(** [next e i]: the new state, the sample, and the frame passed to [mark_done] if it is *)
Variable next : E -> N -> E * F * option N.
Variable param : E -> P -> E.
(** [UGenFlags::mark_done] keeps the last frame (knaster_core/src/ugen.rs:199-202) *)
Definition mark (old new : option N) : option N := match new with Some d => Some d | None => old end.
(** [for (i, out) in output[0].iter_mut().enumerate() { *out = self.next_sample(flags, i as u32) }]: envelopes.rs:158-162, 289-293;
    without the flags osc.rs:76-81, 162-167 and, with a state that does not change, util.rs:61-63. [i]: the index in the slice *)
Fixpoint fill (i : N) (m : nat) (e : E) (d : option N) : E * option N * list F :=
  match m with
  | O => (e, d, [])
  | S m => let r := next e i in
           let q := fill (i + 1) m (fst (fst r)) (mark d (snd r)) in (fst q, snd (fst r) :: snd q)
  end.
(** The state has the done flag with it *)
Definition slice_gen : gen F P :=
  mk_gen (E * option N) 0 1
    (fun s _ => let r := next (fst s) 0 in ((fst (fst r), mark (snd s) (snd r)), [snd (fst r)]))
    (fun s n i o => let r := fill 0 (length (nth 0 o [])) (fst s) (snd s) in (fst r, upd o 0 (fun _ => snd r)))
    (fun s p => (param (fst s) p, snd s)).
End Parts.

(** util.rs:33-64 [Constant]; the state is its value *)
Definition constant_gen {F P} (set : F -> P -> F) : gen F P := slice_gen (fun v _ => (v, v, None)) set.
(** osc.rs:62-81, 150-167 [OscWt], [SinWt]; [next]: their [next_sample] *)
Definition osc_gen {F P E} (next : E -> E * F) (set : E -> P -> E) : gen F P := slice_gen (fun e _ => (fst (next e), snd (next e), None)) set.
(** envelopes.rs:17-163, 171-303; [set]: any of their parameters *)
Definition asr_gen {prec emax} {I : ieee prec emax} {P} (set : env prec emax -> P -> env prec emax) : gen (binary_float prec emax) P := slice_gen asr_next set.
(** envelopes.rs:171-303 [EnvAr], and [EnvAsr] (l.17-163), as a UGen *)
Definition ar_gen {prec emax} {I : ieee prec emax} {P} (set : env prec emax -> P -> env prec emax) : gen (binary_float prec emax) P := slice_gen ar_next set.

(** ** BufferReader: ugens/buffer.rs:151-195, on a window of a block. It writes frame by frame with [Block::write], for as many frames
    as [AudioCtx::block_size] says, which is that of the graph also for a part of a block (knaster_core/src/ugen.rs:26-40, 84-90). The
    window adds its start and does not look at its length (block.rs:328-331); the block below panics outside of it
    (knaster_graph/src/block.rs:57-68). [None]: such a panic, a panic of a slice, or a read outside of the buffer. *)
Section Reader.
Context {prec emax : Z} {I : ieee prec emax}.
Notation fl := (binary_float prec emax).
Variable b : buffer.
Variable mem : list fl.
Variable channels : nat.
(** [output.write(x, c, f)] in a block of [size] frames *)
Definition write_in (size start : nat) (o : list (list fl)) (x : fl) (c f : nat) : option (list (list fl)) :=
  if (c <? length o) && (start + f <? size) then Some (upd o c (fun ch => upd ch (start + f) (fun _ => x))) else None.
(** l.165-168: the channels of a frame *)
Fixpoint write_samples (size start : nat) (o : list (list fl)) (xs : list (option fl)) (c f : nat) : option (list (list fl)) :=
  match xs with
  | [] => Some o
  | x :: xs => v <- x ;; o' <- write_in size start o v c f ;; write_samples size start o' xs (S c) f
  end.
(** l.164-183: [m] more frames from [f] on; the result has the frame passed to [mark_done] and [stop_sample] *)
Fixpoint reader_loop (size start m f : nat) (s : player) (o : list (list fl)) : option (player * list (list fl) * option N * option nat) :=
  match m with
  | O => Some (s, o, None, None)
  | S m =>
      let r := play_frame b mem channels (N.of_nat f + 1) s in
      o' <- write_samples size start o (snd (fst r)) 0 f ;;
      if pl_fin (fst (fst r)) then Some (fst (fst r), o', snd r, Some (S f)) else reader_loop size start m (S f) (fst (fst r)) o'
  end.
(** l.189-193: [out[stop..].fill(0)] in the slices of the window *)
Definition clear_from (start len stop : nat) (o : list (list fl)) : option (list (list fl)) :=
  if stop <=? len then Some (map (fun ch => firstn (start + stop) ch ++ repeat fzero (len - stop) ++ skipn (start + len) ch) o) else None.
(** [bs]: [ctx.block_size()]; the block below has [size] frames; the window is [start], [len] *)
Definition reader_part (bs size start len : nat) (s : player) (o : list (list fl)) : option (player * list (list fl) * option N) :=
  if pl_fin s then o' <- clear_from start len 0 o ;; Some (s, o', None) else
  r <- reader_loop size start bs 0 s o ;;
  match snd r with
  | None => Some (fst r)
  | Some stop => o' <- clear_from start len stop (snd (fst (fst r))) ;; Some (fst (fst (fst r)), o', snd (fst r))
  end.
(** One part after the other, without changes between them; the marks of the parts *)
Fixpoint reader_parts (bs size start : nat) (lens : list nat) (s : player) (o : list (list fl)) : option (player * list (list fl) * list (option N)) :=
  match lens with
  | [] => Some (s, o, [])
  | n :: lens => r <- reader_part bs size start n s o ;;
                 q <- reader_parts bs size (start + n) lens (fst (fst r)) (snd (fst r)) ;; Some (fst q, snd r :: snd q)
  end.
End Reader.
