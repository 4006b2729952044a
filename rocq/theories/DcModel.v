(** Model of removing the constant part of a buffer: knaster_core_dsp/src/dsp/buffer.rs:134-144 [Buffer::remove_dc], over any arithmetic.
    [None] is a panic. *)
From Coq Require Import Reals.
From Flocq Require Import Core BinarySingleNaN.
From Verif Require Import Base FloatBase OscModel.

Section Dc.
Context {V : Type} (zero factor : V) (add sub mul : V -> V -> V).
(** l.138-142: one round of the loop. The state is [prev] and [lpf_sample]; [i % num_channels] panics for 0 channels. *)
Definition dc_sample (ch i : nat) (x : V) (st : list V * list V) : option ((list V * list V) * V) :=
  if (ch =? 0)%nat then None else
  let c := (i mod ch)%nat in
  p <- nth_error (fst st) c ;; l <- nth_error (snd st) c ;;
  let y := sub (add (mul l factor) x) p in
  ps <- set_nth (fst st) c x ;; ls <- set_nth (snd st) c y ;; Some ((ps, ls), y).
(** l.137-142: the loop *)
Fixpoint dc_loop (ch i : nat) (buf : list V) (st : list V * list V) : option (list V) :=
  match buf with
  | [] => Some []
  | x :: buf => r <- dc_sample ch i x st ;; q <- dc_loop ch (S i) buf (fst r) ;; Some (snd r :: q)
  end.
(** l.135-137; [buf] is the buffer, channels interleaved *)
Definition remove_dc (ch : nat) (buf : list V) : option (list V) := dc_loop ch 0 buf (repeat zero ch, repeat zero ch).
End Dc.

(** Exact arithmetic *)
Definition remove_dc_exact : nat -> list R -> option (list R) := remove_dc 0%R (999 / 1000)%R Rplus Rminus Rmult.
(** [F::new(0.999)]: an f64 constant, rounded to f32 *)
Definition remove_dc_f32 : nat -> list f32 -> option (list f32) := remove_dc fzero (to_f32 (fdiv (fz 999) (fz 1000))) fadd fsub fmul.
(** The same for f64 *)
Definition remove_dc_f64 : nat -> list f64 -> option (list f64) := remove_dc fzero (fdiv (fz 999) (fz 1000)) fadd fsub fmul.
