(** What a multi-segment envelope should do. *)
From Coq Require Import Reals.
From Flocq Require Import Core BinarySingleNaN.
From Verif Require Import Base FloatBase SegModel.
Local Open Scope R_scope.

Section Spec.
Context {prec emax : Z} {I : ieee prec emax}.
Notation fl := (binary_float prec emax).
(** Breakpoints in a sensible range: durations from 2^-64 to 2^20 seconds, values up to 2^100. *)
Definition value_ok (v : fl) : Prop := fin v /\ Rabs (val v) <= bpow radix2 100.
Definition segs_ok (segs : list (seg prec emax)) : Prop :=
  (0 < length segs)%nat /\ (Z.of_nat (length segs) < 2 ^ 22)%Z /\
  forall g, In g segs -> exists d v, g = seg_new d v /\ fin d /\ bpow radix2 (-64) <= val d <= bpow radix2 20 /\ value_ok v.
(** The time step is not negative and at most a second. *)
Definition step_ok (s : fl) : Prop := fin s /\ 0 <= val s <= 1.
(** The end of a line from [a] to [b], as computed: [a + (b - a)] with two roundings. *)
Definition line_end (a b : fl) : R := rnd (prec := prec) (emax := emax) (val a + rnd (prec := prec) (emax := emax) (val b - val a)).
Definition between (a b o : fl) : Prop := fin o /\ Rmin (val a) (line_end a b) <= val o <= Rmax (val a) (line_end a b).
(** The same number (zeros may differ in sign) *)
Definition same (x y : fl) : Prop := fin x /\ val x = val y.
(** [outs] goes through the values [vs], one after the other, starting from [a], and stays between neighbours in between. *)
Inductive passes : fl -> list fl -> list fl -> Prop :=
| passes_end : forall a, passes a [] []
| passes_seg : forall a v w vs r outs, Forall (between a v) r -> same w v -> passes v vs outs -> passes a (v :: vs) (r ++ w :: outs).
(** Changes of the speed that keep the step in range, no stops, non-empty jumps *)
Fixpoint ops_ok (base : fl) (ops : list (sop prec emax)) : Prop :=
  match ops with
  | [] => True
  | o :: r => match o with STimeScale x => step_ok (fmul x base) | SStop => False | _ => True end /\ ops_ok base r
  end.
End Spec.
