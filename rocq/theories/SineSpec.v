(** What a sine oscillator should play: [sin] of the turns made so far, counted without ever wrapping around. *)
From Coq Require Import Reals.
From Verif Require Import Base SineModel.
Local Open Scope R_scope.

(** [turns] since the start or the latest reset, [per] of them each sample, [off] added *)
Fixpoint wanted (per off turns : R) (l : list (sine_op R)) : list R :=
  match l with
  | [] => []
  | YInit _ :: l => wanted per off turns l
  | YFreq f sr :: l => wanted (f / sr) off turns l
  | YOffset o :: l => wanted per o turns l
  | YReset :: l => wanted per off 0 l
  | YSample :: l => sin (2 * PI * (turns + off)) :: wanted per off (turns + per) l
  end.
Definition no_init {F} (o : sine_op F) : Prop := match o with YInit _ => False | _ => True end.
