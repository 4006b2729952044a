(** What playing a buffer should sound like. *)
From Coq Require Import Reals.
From Flocq Require Import Core BinarySingleNaN.
From Verif Require Import Base FloatBase.
Local Open Scope R_scope.

Section Spec.
Context {prec emax : Z} {I : ieee prec emax}.
Notation fl := (binary_float prec emax).
(** The sample of frame [k] in channel [c] of interleaved samples *)
Definition stored (mem : list fl) (ch c k : nat) : fl := nth (k * ch + c) mem fzero.
(** The value at position [x] (in frames) of the line through the samples of a channel; after the last of the [n] frames comes the first. *)
Definition line (mem : list fl) (ch c n : nat) (x : R) : R :=
  let k := Z.to_nat (Zfloor x) in let f := x - IZR (Zfloor x) in
  (1 - f) * val (stored mem ch c k) + f * val (stored mem ch c ((k + 1) mod n)%nat).
(** Samples in -1..1 *)
Definition full_scale (mem : list fl) : Prop := Forall (fun x => fin x /\ Rabs (val x) <= 1) mem.
Definition all_fin (mem : list fl) : Prop := Forall (@fin prec emax) mem.
(** An output value equals a number *)
Definition shows (o : option fl) (v : R) : Prop := exists z, o = Some z /\ fin z /\ val z = v.
(** An output value is in -1..1 and close to a number *)
Definition near (e : R) (o : option fl) (v : R) : Prop := exists z, o = Some z /\ fin z /\ Rabs (val z) <= 1 /\ Rabs (val z - v) <= e.
(** The output of frame [k], channel [c] *)
Definition out_at (frames : list (list (option fl))) (k c : nat) : option fl := nth c (nth k frames []) None.
End Spec.
(** What is reported when frame [k] (from 0) and no other is the last one; [ds] are the numbers to report *)
Fixpoint reports (k : nat) (ds : list N) {struct ds} : list (option N) :=
  match ds with
  | [] => []
  | d :: ds => match k with O => Some d :: map (fun _ => None) ds | S k => None :: reports k ds end
  end.
(** The numbers for the end of a frame in a series of blocks *)
Definition ends_of (sizes : list nat) : list N := concat (map (fun n => map N.of_nat (seq 1 n)) sizes).
