(** What the variable trapezoid is compared with in C95, without reference to the program. *)
From Coq Require Import Reals.
From Verif Require Import PolySpec PolyTriSpec.
Local Open Scope R_scope.

(** The triangle made steeper by 1/(1 - w) and cut off at 1 and -1: the part [w] of the period is flat *)
Definition flat_top (w t : R) : R := Rmax (-1) (Rmin 1 (triangle t / (1 - w))).
(** How much a corner is rounded off: in proportion to the change of slope there, which is 4/(1 - w) and 8 for the triangle *)
Definition corner (w dt d : R) : R := rounding_off dt d / (2 * (1 - w)).
(** With the four corners rounded off; they are a quarter of the slanted part from 0 and from one half *)
Definition round_flat_top (w dt t : R) : R :=
  let q := (1 - w) / 4 in
  flat_top w t - corner w dt (circle t q) - corner w dt (circle t (1 / 2 - q)) + corner w dt (circle t (1 / 2 + q)) + corner w dt (circle t (1 - q)).
