(** Model of the audio-rate parameter wrapper [WrArParams] (knaster_core_dsp/src/wrappers_core/audio_rate.rs:12-82).
    The inner UGen is arbitrary; the wrapper has the default [process_block] (ugen.rs:263-284), see [PreciseModel].
    A buffer pointer is a number naming a piece of audio memory; [mem p i] is the sample read through it at index [i]
    (audio_rate.rs:51, a raw pointer read, which does not check the index). *)
From Verif Require Import Base BlockModel PreciseModel.
Local Open Scope nat_scope.

Section Model.
Context {F V St : Type}.
Variable zero : F.
Variable u : ugen F V St.
(** [ParameterValue::Float(x.to_f64())] *)
Variable to_value : F -> V.

(** audio_rate.rs:12-17 *)
Record arparams := mk_ar { a_st : St; a_bufs : list (option nat); a_index : nat }.
(** audio_rate.rs:23-29 *)
Definition ar_new (st : St) : arparams := mk_ar st (repeat None (u_params u)) 0.
(** audio_rate.rs:49-55 *)
Fixpoint ar_params (mem : nat -> nat -> F) (param : nat) (bufs : list (option nat)) (index : nat) (st : St) : St :=
  match bufs with
  | [] => st
  | b :: r =>
      let st1 := match b with Some p => u_apply u param (to_value (mem p index)) st | None => st end in
      ar_params mem (S param) r index st1
  end.
(** audio_rate.rs:43-58; [bs] is [ctx.block_size()] *)
Definition ar_process (mem : nat -> nat -> F) (bs : nat) (a : arparams) (x : nat -> F) : arparams * (nat -> F) :=
  let st1 := ar_params mem 0 (a_bufs a) (a_index a) (a_st a) in
  let r := u_process u st1 x in
  (mk_ar (fst r) (a_bufs a) ((a_index a + 1) mod bs), snd r).
(** audio_rate.rs:68-72; indexing past the end panics *)
Definition ar_apply (a : arparams) (index : nat) (v : V) : option arparams :=
  b <- nth_error (a_bufs a) index ;;
  match b with
  | None => Some (mk_ar (u_apply u index v (a_st a)) (a_bufs a) (a_index a))
  | Some _ => Some a
  end.
(** audio_rate.rs:74-82 *)
Definition ar_set_buffer (a : arparams) (index : nat) (p : nat) : option arparams :=
  bufs <- set_nth (a_bufs a) index (Some p) ;; Some (mk_ar (a_st a) bufs (a_index a)).
(** The wrapper as a UGen, while the audio memory is [mem] *)
Definition ar_ugen (mem : nat -> nat -> F) (bs : nat) : ugen F V arparams :=
  mk_ugen (u_ins u) (u_outs u) (u_params u) (ar_process mem bs)
    (fun i v a => match ar_apply a i v with Some a' => a' | None => a end).

(** a parameter change or the pointer to a buffer for a parameter (ar_params.rs) *)
Inductive arcall := ArApply (index : nat) (v : V) | ArLink (index : nat) (p : nat).
(** one call *)
Definition ar_call (a : arparams) (c : arcall) : option arparams :=
  match c with ArApply i v => ar_apply a i v | ArLink i p => ar_set_buffer a i p end.
(** plumbing: call after call *)
Fixpoint ar_calls (a : arparams) (cs : list arcall) : option arparams :=
  match cs with [] => Some a | c :: cs' => a' <- ar_call a c ;; ar_calls a' cs' end.

(** A block: the calls before it, the lengths of the parts in which it is processed, its input, and the audio memory at the
    time. *)
Record arblock := mk_arblock { ab_calls : list arcall; ab_parts : list nat; ab_in : block F; ab_mem : nat -> nat -> F }.
(** the block is processed in parts, as [WrPreciseTiming] does *)
Fixpoint ar_parts (mem : nat -> nat -> F) (bs : nat) (parts : list nat) (start : nat) (a : arparams) ib ob : option (arparams * block F) :=
  match parts with
  | [] => Some (a, ob)
  | n :: rest =>
      r <- ugen_block zero (ar_ugen mem bs) (make_partial (mk_meta 0 bs) start n) a ib [(start, n)] ob [(start, n)] ;;
      ar_parts mem bs rest (start + n) (fst r) ib (snd r)
  end.
(** plumbing: block after block *)
Fixpoint ar_run (bs : nat) (a : arparams) (l : list arblock) (ob : block F) : option (arparams * list (block F)) :=
  match l with
  | [] => Some (a, [])
  | b :: l' =>
      a1 <- ar_calls a (ab_calls b) ;;
      r <- ar_parts (ab_mem b) bs (ab_parts b) 0 a1 (ab_in b) ob ;;
      rest <- ar_run bs (fst r) l' ob ;;
      Some (fst rest, snd r :: snd rest)
  end.
End Model.
Arguments arcall : clear implicits. Arguments arblock : clear implicits. Arguments arparams : clear implicits.
