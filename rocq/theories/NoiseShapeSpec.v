(** What the noise generators compute. *)
From Coq Require Import Reals.
From Flocq Require Import BinarySingleNaN.
From Verif Require Import Base FloatBase EnvJumpSpec.
Local Open Scope R_scope.

(** Sample [m] (from 1) gives octave [i] a new value: octaves 0 to 7 every 2^(i+1) samples, the last one every 256. *)
Definition due (i m : nat) : bool := if (i <? 8)%nat then (m mod 2 ^ S i =? 2 ^ i)%nat else (m mod 256 =? 0)%nat.
(** The value of the last element whose number (from 1) is chosen *)
Definition latest {A} (P : nat -> bool) (d : A) (xs : list A) : A :=
  fold_left (fun acc p => if P (fst p) then snd p else acc) (combine (seq 1 (length xs)) xs) d.
Definition total (l : list R) : R := fold_right Rplus 0 l.

Section Spec.
Context {prec emax : Z} {I : ieee prec emax}.
Notation fl := (binary_float prec emax).
(** The average of the nine octaves (the first of each pair of random numbers, held) and the newest second number *)
Definition pink_average (ws : list (fl * fl)) : R :=
  (total (map (fun i => val (latest (due i) fzero (map fst ws))) (seq 0 9)) + val (last (map snd ws) fzero)) / 10.
(** A random walk with steps of a tenth of the white samples, limited to -1..1, up to [e] per step *)
Definition limited (x : R) : R := Rmax (-1) (Rmin 1 x).
Fixpoint walks (e x : R) (ws os : list fl) : Prop :=
  match ws, os with
  | [], [] => True
  | w :: ws, o :: os => fin o /\ Rabs (val o - limited (x + val w / 10)) <= e /\ walks e (val o) ws os
  | _, _ => False
  end.
(** Neighbours are at most [b] apart *)
Definition smooth (b : R) (l : list fl) : Prop := match l with [] => True | y :: r => fin y /\ no_click b (val y) r end.
End Spec.
