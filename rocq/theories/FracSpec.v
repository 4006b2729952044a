(** What a delay by a fraction of a sample means, in exact arithmetic. *)
From Coq Require Import Reals.
From Flocq Require Import Core.
From Verif Require Import Base FracModel.
Local Open Scope R_scope.

(** Exact real arithmetic *)
Definition Rfrac : frac_ops R :=
  mk_frac_ops R 0 1 (1 / 2) Rplus Rminus Rmult Rdiv Rlt_bool INR
    (fun x => if Rle_bool 0 x then Some (Z.to_nat (Zfloor x)) else None).

(** The delay after [n] frames of the input [x], and its output at frame [n]; [proc] is one frame *)
Fixpoint line_after (proc : R -> line R -> option (line R * R)) (s : line R) (x : nat -> R) (n : nat) : option (line R) :=
  match n with
  | O => Some s
  | S n' => s' <- line_after proc s x n';; p <- proc (x n') s';; Some (fst p)
  end.
Definition line_output proc (s : line R) (x : nat -> R) (n : nat) : option R :=
  s' <- line_after proc s x n;; p <- proc (x n) s';; Some (snd p).
(** No frame panics, and the output approaches [y]. *)
Definition approaches proc (s : line R) (x y : nat -> R) : Prop :=
  exists o, (forall n, line_output proc s x n = Some (o n)) /\ Un_cv (fun n => o n - y n) 0.

(** A state the delay can be in: the write position inside the buffer *)
Definition usable (s : line R) : Prop := (l_w s < length (l_buf s))%nat.
(** A straight line [a + b t] at time [t] *)
Definition ramp (a b t : R) : R := a + b * t.
