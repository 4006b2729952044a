(** What the modified triangle is compared with in C96, without reference to the program. *)
From Coq Require Import Reals.
From Verif Require Import PolySpec PolyTriSpec.
Local Open Scope R_scope.

(** 0 at phase 0, 1 at half the width [w], -1 at as much before the end, straight between *)
Definition skew (w t : R) : R :=
  if Rle_dec t (w / 2) then 2 * t / w else if Rle_dec t (1 - w / 2) then (1 - 2 * t) / (1 - w) else 2 * (t - 1) / w.
(** How much a corner is rounded off: in proportion to the change of slope there, 2/(w (1 - w)), which is 8 for the triangle *)
Definition skew_corner (w dt d : R) : R := rounding_off dt d / (4 * (w * (1 - w))).
(** With both corners rounded off *)
Definition round_skew (w dt t : R) : R :=
  skew w t - skew_corner w dt (circle t (w / 2)) + skew_corner w dt (circle t (1 - w / 2)).
