(** Panning by the cosine law *)
From Coq Require Import Reals.
From Flocq Require Import Core BinarySingleNaN.
From Verif Require Import Base FloatBase OscModel.
Local Open Scope R_scope.
(** From -1, left, to 1, right *)
Definition pan_theta (p : R) : R := (p + 1) * PI / 4.
(** A function on floats that is a real function up to an error, on the first quadrant and a bit more *)
Definition approximates (e : R) (g : R -> R) (f : f32 -> f32) : Prop :=
  forall a : f32, fin a -> 0 <= val a <= 2 -> fin (f a) /\ Rabs (val (f a) - g (val a)) <= e.
Section Sets.
Context {E : Type} (set : E -> option f32).
(** The last position that was set *)
Fixpoint last_set (p : f32) (l : list E) : f32 := match l with [] => p | e :: l => last_set (match set e with Some q => q | None => p end) l end.
End Sets.
