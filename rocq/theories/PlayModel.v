(** Model of the samples that buffer playback puts out: the values read by [Buffer::get_linear_interp_f64]
    (knaster_core_dsp/src/dsp/buffer.rs:99-111) and the frames of [BufferReader] (knaster_core_dsp/src/ugens/buffer.rs:123-195).
    The positions are those of [BufferModel]. *)
From Flocq Require Import Core BinarySingleNaN.
From Verif Require Import Base FloatBase BufferModel.
Open Scope N_scope.

Section Play.
Context {prec emax : Z} {I : ieee prec emax}.
Notation fl := (binary_float prec emax).
(** [F::new] of an f64 (knaster_primitives/src/float.rs): rounded to the sample type, or unchanged if that is f64 *)
Definition from_f64 (x : f64) : fl :=
  match x with
  | B754_zero s => B754_zero s
  | B754_infinity s => B754_infinity s
  | B754_nan => B754_nan
  | B754_finite s m e _ => binary_normalize prec emax _ _ mode_NE (cond_Zopp s (Zpos m)) e s
  end.
Variable b : buffer.
(** The memory of the buffer; [b_len b] is its length *)
Variable mem : list fl.
Variable channels : nat.
(** buffer.rs:99-111; [None]: one of the unchecked reads is outside of the memory *)
Definition interp (x : f64) (c : N) : option fl :=
  let mix := from_f64 (fract x) in
  let i := as_usize x * b_ch b + c in
  match nth_error mem (N.to_nat i), nth_error mem (N.to_nat ((i + b_ch b) mod b_len b)) with
  | Some u, Some v => Some (fadd (fmul u (fsub fone mix)) (fmul v mix))
  | _, _ => None
  end.
(** A frame: the new state, a value for each channel, and the frame passed to [mark_done].
    ugens/buffer.rs:123-149 [process] is [play_frame 0]; l.163-181 is one round of the loop of [process_block], with [i + 1] for [d]. *)
Definition play_frame (d : N) (s : player) : player * list (option fl) * option N :=
  if pl_fin s then (s, repeat (Some fzero) channels, None) else
  let s' := fst (player_step b channels s) in
  (s', map (fun c => interp (pl_rp s) (N.of_nat c)) (seq 0 channels), if pl_fin s' then Some d else None).
(** l.151-195 [process_block], from frame [i] with [n] frames to go: once finished, the rest of the block is filled with zeros *)
Fixpoint play_block (i : N) (n : nat) (s : player) : player * list (list (option fl)) * list (option N) :=
  match n with
  | O => (s, [], [])
  | S n =>
      if pl_fin s then (s, repeat (repeat (Some fzero) channels) (S n), repeat None (S n))
      else let f := play_frame (i + 1) s in
           let r := play_block (i + 1) n (fst (fst f)) in
           (fst (fst r), snd (fst f) :: snd (fst r), snd f :: snd r)
  end.
(** Frames one by one, with the numbers [ds] for [mark_done] *)
Fixpoint play_frames (ds : list N) (s : player) : player * list (list (option fl)) * list (option N) :=
  match ds with
  | [] => (s, [], [])
  | d :: ds => let f := play_frame d s in let r := play_frames ds (fst (fst f)) in (fst (fst r), snd (fst f) :: snd (fst r), snd f :: snd r)
  end.
(** A series of blocks *)
Fixpoint play_blocks (sizes : list nat) (s : player) : player * list (list (option fl)) * list (option N) :=
  match sizes with
  | [] => (s, [], [])
  | n :: sizes => let f := play_block 0 n s in let r := play_blocks sizes (fst (fst f)) in (fst (fst r), snd (fst f) ++ snd (fst r), snd f ++ snd r)
  end.
End Play.
