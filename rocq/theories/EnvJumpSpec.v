(** What it means for an envelope not to click, and the shape of its attack and release. *)
From Coq Require Import Reals.
From Flocq Require Import BinarySingleNaN.
From Verif Require Import Base FloatBase EnvModel.
Local Open Scope R_scope.

Section Spec.
Context {prec emax : Z} {I : ieee prec emax}.
Notation fl := (binary_float prec emax).
Notation eop := (eop prec emax).
Notation env := (env prec emax).
(** A time in seconds that is at least [n] samples long *)
Definition lasts (n : R) (sr : N) (s : fl) : Prop := fin s /\ n <= val s * IZR (Z.of_N sr).
Definition all_last (n : R) (sr : N) (ops : list eop) : Prop :=
  forall o, In o ops -> match o with EAttack s | ERelease s => lasts n sr s | _ => True end.
(** Restarted only when it is stopped or in its attack *)
Fixpoint quiet_restarts (step : env -> eop -> env * list (fl * option N)) (e : env) (ops : list eop) : Prop :=
  match ops with
  | [] => True
  | o :: r => match o, e_state e with ERestart, Sustaining | ERestart, Releasing => False | _, _ => True end /\
              quiet_restarts step (fst (step e o)) r
  end.
(** Finite samples, the first at most [b] from [x] and each other at most [b] from the one before it *)
Fixpoint no_click (b x : R) (l : list fl) : Prop :=
  match l with
  | [] => True
  | y :: r => fin y /\ Rabs (val y - x) <= b /\ no_click b (val y) r
  end.
End Spec.
