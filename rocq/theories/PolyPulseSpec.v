(** What the triangular pulse is compared with in C98, without reference to the program. *)
From Coq Require Import Reals.
From Verif Require Import PolySpec.
Local Open Scope R_scope.

(** A triangle of width [w] and height 2 around phase 1/4, zero elsewhere, without its mean *)
Definition pulse (w t : R) : R := Rmax 0 (2 - 4 * circle t (1 / 4) / w) - w.
(** How much a corner with a change of slope of 4/[w] is rounded off at distance [d] from it, within a step [dt] to either side *)
Definition pulse_corner (w dt d : R) : R := if Rlt_dec d dt then 2 * dt / (3 * w) * (1 - d / dt) ^ 3 else 0.
(** Where the pulse begins *)
Definition pulse_start (w : R) : R := if Rle_dec (w / 2) (1 / 4) then 1 / 4 - w / 2 else 5 / 4 - w / 2.
(** With its feet filled and its peak, twice as sharp, rounded off *)
Definition round_pulse (w dt t : R) : R :=
  pulse w t + pulse_corner w dt (circle t (pulse_start w)) - 2 * pulse_corner w dt (circle t (1 / 4)) + pulse_corner w dt (circle t (1 / 4 + w / 2)).
