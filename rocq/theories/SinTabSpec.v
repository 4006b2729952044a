(** What a sine oscillator should play: the sine of the turns made so far, counted in real numbers. *)
From Coq Require Import Reals.
From Flocq Require Import Core BinarySingleNaN.
From Verif Require Import Base FloatBase OscModel.
Local Open Scope R_scope.

(** [turns] made since the start or the latest reset, [per] of them each sample, [off] added; [rate] is the sample rate *)
Fixpoint sine_wanted (rate per off turns : R) (l : list wt_op) : list R :=
  match l with
  | [] => []
  | WFreq f :: l => sine_wanted rate (val f / rate) off turns l
  | WOffset o :: l => sine_wanted rate per (val o) turns l
  | WReset :: l => sine_wanted rate per off 0 l
  | WSample :: l => sin (2 * PI * (turns + off)) :: sine_wanted rate per off (turns + per) l
  end.
(** Frequencies from zero to the sample rate, no offset *)
Definition plain (rate : R) (o : wt_op) : Prop :=
  match o with WFreq f => fin f /\ 0 <= val f <= rate | WOffset _ => False | _ => True end.
(** A function on f64 that is a real function up to an error, on one period and a bit more *)
Definition library (e : R) (g : R -> R) (f : f64 -> f64) : Prop :=
  forall a : f64, fin a -> 0 <= val a <= 7 -> fin (f a) /\ Rabs (val (f a) - g (val a)) <= e.
(** A sample rate: a u32 above zero *)
Definition sample_rate (sr : f64) : Prop := exists z, (1 <= z < 2 ^ 32)%Z /\ fin sr /\ val sr = IZR z.
(** The error after [n] samples: one entry of the table, and a phase step that is short by at most [1 + 2^-20] units of [2^-30] turns *)
Definition turn_error (n : nat) : R := / 16384 + INR n * (1 + / 1048576) / 1073741824.
