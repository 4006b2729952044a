(** Model of the multi-segment envelope (knaster_core_dsp/src/ugens/envelopes.rs:320-527), in IEEE arithmetic.
    The state of the code is always in f64; here the format is a parameter. The conversion [F::new] of each output sample from
    f64 to the sample type is left out (it is the identity for f64). *)
From Flocq Require Import BinarySingleNaN.
From Verif Require Import Base FloatBase.

Section Seg.
Context {prec emax : Z} {I : ieee prec emax}.
Notation fl := (binary_float prec emax).

(** envelopes.rs:322-336 *)
Record seg := mk_seg { s_recip : fl; s_dur : fl; s_val : fl }.
(** envelopes.rs:327-336 [EnvelopeSegment::new] *)
Definition seg_new (d v : fl) : seg := mk_seg (fdiv fone d) d v.
(** envelopes.rs:349-356 *)
Inductive sstate := SStopped | SRunning (k : nat) (t : fl).
(** envelopes.rs:359-369; [current_segment] is only ever written and is left out *)
Record senv := mk_senv { s_state : sstate; s_segs : list seg; s_start : fl; s_from : fl; s_scale : fl; s_base : fl; s_loop : bool }.
(** assignment to [state] (envelopes.rs:359-369) *)
Definition senv_state (x : sstate) (e : senv) : senv := mk_senv x (s_segs e) (s_start e) (s_from e) (s_scale e) (s_base e) (s_loop e).
(** assignment to [from_value] (envelopes.rs:359-369) *)
Definition senv_from (x : fl) (e : senv) : senv := mk_senv (s_state e) (s_segs e) (s_start e) x (s_scale e) (s_base e) (s_loop e).
(** envelopes.rs:372-395 *)
Definition senv_new (start : fl) (segs : list seg) (looping : bool) : senv := mk_senv SStopped segs start start fone fzero looping.
(** envelopes.rs:403-405 *)
Definition senv_init (sr : N) (e : senv) : senv :=
  mk_senv (s_state e) (s_segs e) (s_start e) (s_from e) (s_scale e) (fdiv fone (fz (Z.of_N sr))) (s_loop e).
(** [self.time_scale * self.base_scale] *)
Definition s_step (e : senv) : fl := fmul (s_scale e) (s_base e).
(** [from + (t * recip) * (value - from)] *)
Definition interp (from t : fl) (g : seg) : fl := fadd from (fmul (fmul t (s_recip g)) (fsub (s_val g) from)).
(** envelopes.rs:407-460 [process]: new state, sample, whether [mark_done] was called (always with frame 0). [None]: the index
    into the segments is out of bounds (panic). *)
Definition seg_next (e : senv) : option (senv * fl * bool) :=
  match s_state e with
  | SStopped => Some (e, s_from e, false)
  | SRunning k t =>
      g <- nth_error (s_segs e) k;;
      if fltb t (s_dur g) then Some (senv_state (SRunning k (fadd t (s_step e))) e, interp (s_from e) t g, false)
      else if (k + 1 <? length (s_segs e))%nat then
        let e' := senv_from (s_val g) e in
        Some (senv_state (SRunning (k + 1) (fadd (fsub t (s_dur g)) (s_step e))) e', interp (s_from e') t g, false)
      else
        let e' := senv_from (s_val g) e in
        if s_loop e then Some (senv_state (SRunning 0 fzero) e', s_val g, false)
        else Some (senv_state SStopped e', s_val g, true)
  end.
(** plumbing: sample after sample *)
Fixpoint seg_samples (n : nat) (e : senv) : option (senv * list (fl * bool)) :=
  match n with
  | O => Some (e, [])
  | S n' => r <- seg_next e;; rest <- seg_samples n' (fst (fst r));; Some (fst rest, (snd (fst r), snd r) :: snd rest)
  end.

(** The parameters (envelopes.rs:473-525) and blocks of samples *)
Inductive sop := STimeScale (x : fl) | SJump (n : nat) | SRestart | SStop | SBlock (n : nat).
Definition seg_step (e : senv) (o : sop) : option (senv * list (fl * bool)) :=
  match o with
  | STimeScale x => Some (mk_senv (s_state e) (s_segs e) (s_start e) (s_from e) x (s_base e) (s_loop e), [])
  | SJump n =>
      if (length (s_segs e) <=? n)%nat then
        (* [self.segments.len() - 1]: underflow of an empty list *)
        match s_segs e with [] => None | _ => Some (senv_state (SRunning (length (s_segs e) - 1) fzero) e, []) end
      else Some (senv_state (SRunning n fzero) e, [])
  | SRestart => Some (senv_from (s_start e) (senv_state (SRunning 0 fzero) e), [])
  | SStop =>
      match s_state e with
      | SStopped => Some (e, [])
      | SRunning k t => g <- nth_error (s_segs e) k;; Some (senv_state SStopped (senv_from (interp (s_from e) t g) e), [])
      end
  | SBlock n => seg_samples n e
  end.
(** plumbing: any sequence of calls *)
Fixpoint seg_run (e : senv) (ops : list sop) : option (senv * list (fl * bool)) :=
  match ops with
  | [] => Some (e, [])
  | o :: ops' => r <- seg_step e o;; rest <- seg_run (fst r) ops';; Some (fst rest, snd r ++ snd rest)
  end.
End Seg.
Arguments seg : clear implicits. Arguments senv : clear implicits. Arguments sop : clear implicits. Arguments sstate : clear implicits.
