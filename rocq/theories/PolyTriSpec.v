(** What the triangle is compared with in C93: its shape by distance from the two corners, without reference to the program. *)
From Coq Require Import Reals.
From Verif Require Import PolySpec.
Local Open Scope R_scope.

(** 0 at phase 0, 1 at a quarter, -1 at three quarters, straight between *)
Definition triangle (t : R) : R := 1 - 4 * circle t (1 / 4).
(** How much a corner is rounded off at distance [d] from it, within a step [dt] to either side *)
Definition rounding_off (dt d : R) : R := if Rlt_dec d dt then 4 * dt / 3 * (1 - d / dt) ^ 3 else 0.
(** The triangle with both corners rounded off *)
Definition round_triangle (dt t : R) : R :=
  triangle t - rounding_off dt (circle t (1 / 4)) + rounding_off dt (circle t (3 / 4)).
