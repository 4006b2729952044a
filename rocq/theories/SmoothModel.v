(** Model of the parameter smoothing wrapper [WrSmoothParams] (knaster_core_dsp/src/wrappers_core/smooth_params.rs).
    The inner UGen is represented by the [param_apply] calls it receives. [PFloat] is [f64] (knaster_primitives
    parameters.rs:6). A ramp length is given in frames (smooth_params.rs:56 computes it from seconds).
    The field [parameters] is never changed from its default [BlockRate] ("TODO: set the Rate of a parameter"), so that
    [there_is_an_ar_parameter] is always false (smooth_params.rs:140-147): only the [else] branch of [process_block] is
    modelled, and the test in smooth_params.rs:210 is always true. *)
From Flocq Require Import BinarySingleNaN.
From Verif Require Import Base FloatBase.
Local Open Scope N_scope.

(** knaster_core/src/lib.rs:55-61 *)
Inductive srate := BlockRate | AudioRate.
(** parameters/types.rs:108-114 *)
Inductive smoothing := NoSmoothing | Linear (frames : N).
(** parameters/types.rs:25-36; integer, trigger and bool values are all passed on unchanged: [POther] *)
Inductive pvalue := PFloat (x : f64) | POther (x : Z) | PSmoothing (s : smoothing) (r : srate).

(** smooth_params.rs:249-261 *)
Inductive sstate :=
| SNone (current : f64)
| SLinear (start end_ : f64) (duration elapsed : N) (rate : srate) (done : bool).
(** smooth_params.rs:312-316 *)
Definition sstate_default : sstate := SNone fzero.

(** smooth_params.rs:48-49, 82-85, 222-225, 283-284; [as PFloat] of a usize *)
Definition lerp {prec emax} {I : ieee prec emax} (start end_ : binary_float prec emax) (elapsed duration : N) : binary_float prec emax :=
  fadd (fmul (fsub end_ start) (fdiv (fz (Z.of_N elapsed)) (fz (Z.of_N duration)))) start.

(** smooth_params.rs:264-300 [next_value] *)
Definition next_value (s : sstate) (block_size frame_in_block : N) : option f64 * sstate :=
  match s with
  | SNone _ => (None, s)
  | SLinear start end_ duration elapsed rate done =>
      if (match rate with BlockRate => true | _ => false end) && negb (frame_in_block =? 0) then (None, s)
      else if done then (None, s)
      else
        let value := lerp start end_ elapsed duration in
        if elapsed =? duration then (Some value, SLinear start end_ duration elapsed rate true)
        else
          let elapsed' := match rate with BlockRate => N.min (elapsed + block_size) duration | AudioRate => elapsed + 1 end in
          (Some value, SLinear start end_ duration elapsed' rate done)
  end.

(** smooth_params.rs:31-102 [set_smoothing], one parameter *)
Definition set_smoothing (s : sstate) (sm : smoothing) (new_rate : srate) : sstate :=
  match sm with
  | NoSmoothing =>
      match s with
      | SNone _ => s
      | SLinear start end_ duration elapsed _ _ => SNone (lerp start end_ elapsed duration)
      end
  | Linear new_duration =>
      match s with
      | SNone current => SLinear current current new_duration 0 new_rate true
      | SLinear start end_ duration elapsed _ done =>
          if done then SLinear end_ end_ new_duration 0 new_rate true
          else SLinear (lerp start end_ elapsed duration) end_ new_duration elapsed new_rate true
      end
  end.

(** smooth_params.rs:207-239: a float change while smoothing is on *)
Definition retarget (s : sstate) (x : f64) : sstate :=
  match s with
  | SNone _ => s
  | SLinear start end_ duration elapsed rate done =>
      SLinear (if done then end_ else lerp start end_ elapsed duration) x duration 0 rate false
  end.

(** smooth_params.rs:12-19: one state per parameter *)
Definition wsmooth := list sstate.
(** smooth_params.rs:22-30 *)
Definition smooth_new (params : nat) : wsmooth := repeat sstate_default params.

(** smooth_params.rs:200-244 [param_apply]: the new state and the calls of the inner [param_apply] *)
Definition smooth_apply (w : wsmooth) (index : nat) (v : pvalue) : wsmooth * list (nat * pvalue) :=
  match nth_error w index with
  | None => (w, [])
  | Some s =>
      let put s' := match set_nth w index s' with Some w' => w' | None => w end in
      match v with
      | POther _ => (w, [(index, v)])
      | PFloat x => match s with SNone _ => (w, [(index, v)]) | _ => (put (retarget s x), []) end
      | PSmoothing sm r => (put (set_smoothing s sm r), [])
      end
  end.
(** smooth_params.rs:180-188 (and 119-126 with a block size of 1): the parameter updates at the start of a call of
    [process_block] ([process]); the inner UGen's processing follows *)
Fixpoint smooth_block (j : nat) (w : wsmooth) (block_size : N) : wsmooth * list (nat * pvalue) :=
  match w with
  | [] => ([], [])
  | s :: w' =>
      let r := next_value s block_size 0 in
      let rest := smooth_block (S j) w' block_size in
      (snd r :: fst rest, match fst r with Some x => [(j, PFloat x)] | None => [] end ++ snd rest)
  end.

(** [SBlock b]: a call of [process_block] with [ctx.block_size() = b] (or of [process], with [b = 1]). *)
Inductive sop := SApply (index : nat) (v : pvalue) | SBlock (block_size : N).
(** one call *)
Definition smooth_step (w : wsmooth) (o : sop) : wsmooth * list (nat * pvalue) :=
  match o with SApply i v => smooth_apply w i v | SBlock b => smooth_block 0 w b end.
(** plumbing: call after call *)
Fixpoint smooth_run (w : wsmooth) (ops : list sop) : wsmooth * list (nat * pvalue) :=
  match ops with
  | [] => (w, [])
  | o :: ops' => let r := smooth_step w o in let rest := smooth_run (fst r) ops' in (fst rest, snd r ++ snd rest)
  end.
