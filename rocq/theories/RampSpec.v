(** What a phasor should put out: the turns made so far, without the whole ones. *)
From Coq Require Import Reals.
From Flocq Require Import Core BinarySingleNaN.
From Verif Require Import Base FloatBase OscModel.
Local Open Scope R_scope.

(** The turns made before each frame, [per] of them each frame; [rate] is the sample rate *)
Fixpoint turns_made (rate per turns : R) (l : list ph_op) : list R :=
  match l with
  | [] => []
  | PFreq f :: l => turns_made rate (val f / rate) turns l
  | PFrame :: l => turns :: turns_made rate per (turns + per) l
  end.
(** Frequencies from zero to the sample rate *)
Definition in_rate (rate : R) (o : ph_op) : Prop := match o with PFreq f => fin f /\ 0 <= val f <= rate | PFrame => True end.
(** A number in 0..1 that is [t] up to whole turns and an error *)
Definition fraction_of (t err : R) (y : f64) : Prop := fin y /\ 0 <= val y < 1 /\ exists z, Rabs (val y - (t - IZR z)) <= err.
