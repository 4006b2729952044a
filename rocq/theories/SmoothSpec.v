(** What a parameter's value is, from the calls a UGen receives. *)
From Flocq Require Import BinarySingleNaN.
From Verif Require Import Base FloatBase SmoothModel.
Local Open Scope N_scope.

(** The value of parameter [j] after some calls: the last float value applied. *)
Fixpoint value_after (j : nat) (now : option f64) (calls : list (nat * pvalue)) : option f64 :=
  match calls with
  | [] => now
  | (i, PFloat x) :: r => value_after j (if Nat.eqb i j then Some x else now) r
  | _ :: r => value_after j now r
  end.
(** Frames covered by the blocks of some operations *)
Fixpoint frames_in (ops : list sop) : N :=
  match ops with [] => 0 | SBlock b :: r => b + frames_in r | _ :: r => frames_in r end.
(** No change of parameter [j] *)
Definition leaves_alone (j : nat) (ops : list sop) : Prop := forall i v, In (SApply i v) ops -> i <> j.
(** The value from which a new ramp starts *)
Definition ramp_start (s : sstate) : f64 :=
  match s with
  | SNone c => c
  | SLinear start end_ duration elapsed _ done => if done then end_ else lerp start end_ elapsed duration
  end.
Definition ramp_length (s : sstate) : N := match s with SNone _ => 0 | SLinear _ _ d _ _ _ => d end.
Definition ramps_at_block_rate (s : sstate) : Prop := match s with SLinear _ _ _ _ BlockRate _ => True | _ => False end.
