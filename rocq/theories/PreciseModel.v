(** Model of the default block processing of a UGen (ugen.rs:263-284) on (windows of) blocks, and of the sample-accurate
    wrapper [WrPreciseTiming] (knaster_core_dsp/src/wrappers_core/precise_timing.rs).
    The inner UGen is arbitrary, with the default [process_block], and its [process] does not look at the block
    metadata (frame clock, offset); audio-rate parameters and the log message are left out. *)
From Verif Require Import Base BlockModel.
Local Open Scope nat_scope.

Section Model.
Context {F V St : Type}.
(** ugen.rs:230-353, the part used here. A frame is a sample per channel. *)
Record ugen := mk_ugen {
  u_ins : nat; u_outs : nat; u_params : nat;
  u_process : St -> (nat -> F) -> St * (nat -> F);
  u_apply : nat -> V -> St -> St }.
Variable zero : F.
Variable u : ugen.

(** ugen.rs:275-278: [Frame::default()] filled with the samples of one frame *)
Fixpoint read_frame (b : block F) (v : view) (frame : nat) (channels : nat) : option (nat -> F) :=
  match channels with
  | O => Some (fun _ => zero)
  | S c => g <- read_frame b v frame c ;; x <- v_read b v c frame ;; Some (fun i => if i =? c then x else g i)
  end.
(** ugen.rs:280-282 *)
Fixpoint write_frame (b : block F) (v : view) (frame : nat) (channels : nat) (y : nat -> F) : option (block F) :=
  match channels with
  | O => Some b
  | S c => b' <- write_frame b v frame c y ;; v_write b' v (y c) c frame
  end.
(** ugen.rs:272-284: [n] frames starting with [frame] *)
Fixpoint frames (n frame : nat) (st : St) (ib : block F) (iv : view) (ob : block F) (ov : view) : option (St * block F) :=
  match n with
  | O => Some (st, ob)
  | S n' =>
      x <- read_frame ib iv frame (u_ins u) ;;
      let r := u_process u st x in
      ob' <- write_frame ob ov frame (u_outs u) (snd r) ;;
      frames n' (frame + 1) (fst r) ib iv ob' ov
  end.
(** ugen.rs:57-112, the part used here: [block_start_offset] and [frames_to_process] *)
Record meta := mk_meta { m_offset : nat; m_frames : nat }.
(** ugen.rs:84-90 *)
Definition make_partial (m : meta) (start len : nat) : meta := mk_meta (m_offset m + start) len.
(** ugen.rs:263-284 [process_block] of the trait, the default one *)
Definition ugen_block (m : meta) (st : St) ib iv ob ov := frames (m_frames m) 0 st ib iv ob ov.

(** precise_timing.rs:14-23; [DELAYED_CHANGES_PER_BLOCK] is the length of [p_wait] *)
Record precise := mk_precise {
  p_st : St;
  p_wait : list (option (N * nat * V));
  p_delay : list N;
  p_n : nat }.
(** precise_timing.rs:29-36 *)
Definition precise_new (slots : nat) (st : St) : precise := mk_precise st (repeat None slots) (repeat 0%N (u_params u)) 0.

(** precise_timing.rs:125-135 *)
Definition precise_apply (p : precise) (index : nat) (value : V) : option precise :=
  d <- nth_error (p_delay p) index ;;
  if (d =? 0)%N then Some (mk_precise (u_apply u index value (p_st p)) (p_wait p) (p_delay p) (p_n p))
  else if p_n p <? length (p_wait p) then
    w <- set_nth (p_wait p) (p_n p) (Some (d, index, value)) ;;
    Some (mk_precise (p_st p) w (p_delay p) (p_n p + 1))
  else Some p.
(** precise_timing.rs:146-148; [delay] is a u16 *)
Definition precise_set_delay (p : precise) (index : nat) (delay : N) : option precise :=
  d <- set_nth (p_delay p) index delay ;; Some (mk_precise (p_st p) (p_wait p) d (p_n p)).

(** precise_timing.rs:84-97: the inner [while], [k] entries are left; result: UGen state, waiting changes, [change_i],
    [local_frames_to_process] *)
Fixpoint changes_loop (k : nat) (m : meta) (block_i change_i : nat) (st : St) (w : list (option (N * nat * V))) (loc : nat)
    : option (St * list (option (N * nat * V)) * nat * nat) :=
  match k with
  | O => Some (st, w, change_i, loc)
  | S k' =>
      e <- nth_error w change_i ;;
      match e with
      | Some (delay, index, value) =>
          if N.to_nat delay <=? block_i + m_offset m then
            w' <- set_nth w change_i None ;;
            changes_loop k' m block_i (change_i + 1) (u_apply u index value st) w' loc
          else Some (st, w, change_i, Nat.min loc (N.to_nat delay - m_offset m - block_i))
      | None => changes_loop k' m block_i (change_i + 1) st w loc
      end
  end.
(** precise_timing.rs:81-112: the outer [loop] *)
Fixpoint precise_loop (fuel : nat) (m : meta) (n block_i change_i : nat) (st : St) (w : list (option (N * nat * V)))
    ib iv ob ov : option (St * list (option (N * nat * V)) * block F) :=
  match fuel with
  | O => None
  | S fuel' =>
      r <- changes_loop (n - change_i) m block_i change_i st w (m_frames m - block_i) ;;
      let '(st1, w1, change_i1, loc) := r in
      if m_frames m <=? block_i then Some (st1, w1, ob)
      else
        x <- (if loc =? m_frames m then ugen_block m st1 ib iv ob ov
              else ugen_block (make_partial m block_i loc) st1 ib ((block_i, loc) :: iv) ob ((block_i, loc) :: ov)) ;;
        precise_loop fuel' m n (block_i + loc) change_i1 (fst x) w1 ib iv (snd x) ov
  end.
(** precise_timing.rs:67-116 *)
Definition precise_block (m : meta) (p : precise) ib iv ob ov : option (precise * block F) :=
  r <- precise_loop (m_frames m + 2) m (p_n p) 0 0 (p_st p) (p_wait p) ib iv ob ov ;;
  let '(st, w, ob') := r in
  Some (mk_precise st w (p_delay p) 0, ob').

(** precise_timing.rs:54-66: one sample at a time, all waiting changes are taken and applied ([p_n] is not changed) *)
Fixpoint take_all (w : list (option (N * nat * V))) (st : St) : St :=
  match w with
  | [] => st
  | Some (_, index, value) :: w' => take_all w' (u_apply u index value st)
  | None :: w' => take_all w' st
  end.
(** precise_timing.rs:54-66 [process] *)
Definition precise_process (p : precise) (x : nat -> F) : precise * (nat -> F) :=
  let r := u_process u (take_all (p_wait p) (p_st p)) x in
  (mk_precise (fst r) (map (fun _ => None) (p_wait p)) (p_delay p) (p_n p), snd r).

(** A parameter change that is due in a block: its delay within the block, the parameter and the value. *)
Definition event := (N * nat * V)%type.
(** graph_gen.rs:288-299: the delay is only passed on if it is not 0 (no smoothing change) *)
Definition precise_event (p : precise) (e : event) : option precise :=
  let '(delay, index, value) := e in
  p1 <- (if (0 <? delay)%N then precise_set_delay p index delay else Some p) ;;
  precise_apply p1 index value.
(** graph_gen.rs:288-299, for all changes of a block *)
Fixpoint precise_events (p : precise) (es : list event) : option precise :=
  match es with [] => Some p | e :: es' => p' <- precise_event p e ;; precise_events p' es' end.
(** A run: in each block first the changes that are due in it, then a full block ([block_start_offset] 0). *)
Fixpoint precise_run (bs : nat) (p : precise) (l : list (list event * block F)) (ob : block F) : option (precise * list (block F)) :=
  match l with
  | [] => Some (p, [])
  | (es, ib) :: l' =>
      p1 <- precise_events p es ;;
      r <- precise_block (mk_meta 0 bs) p1 ib [] ob [] ;;
      rest <- precise_run bs (fst r) l' ob ;;
      Some (fst rest, snd r :: snd rest)
  end.
End Model.
Arguments ugen : clear implicits. Arguments precise : clear implicits. Arguments event : clear implicits.
