(** What the fixed trapezoid is compared with in C94: its shape by distance from the four corners, without reference to the program. *)
From Coq Require Import Reals.
From Verif Require Import PolySpec PolyTriSpec.
Local Open Scope R_scope.

(** The triangle of twice the height, cut off at 1 and -1: corners at 1/8, 3/8, 5/8 and 7/8 *)
Definition cut_triangle (t : R) : R := Rmax (-1) (Rmin 1 (2 * triangle t)).
(** With the four corners rounded off *)
Definition round_trapezoid (dt t : R) : R :=
  cut_triangle t - rounding_off dt (circle t (1 / 8)) - rounding_off dt (circle t (3 / 8))
  + rounding_off dt (circle t (5 / 8)) + rounding_off dt (circle t (7 / 8)).
