(** The exact filter a rounded one stands for, and how far apart their outputs may be. *)
From Coq Require Import Reals.
From Flocq Require Import Core BinarySingleNaN.
From Verif Require Import Base FloatBase SvfModel SvfSpec SvfFloatSpec.
Local Open Scope R_scope.

(** The exact filter with the same [g], [k], output mix and stored state as the rounded filter [s].  Its settings are the ones that
    belong to [g] and [k]: the cutoff whose tangent is [g], and the resonance [1 / k]. *)
Definition exact_twin {prec emax : Z} (sr g k : R) (s : svf (binary_float prec emax)) : svf R :=
  let a1 := 1 / (1 + g * (g + k)) in
  mk_svf (v_ty s) (sr * atan g / PI) (/ k) 0 (val (v_ic1 s)) (val (v_ic2 s))
    a1 (g * a1) (g * (g * a1)) (val (v_m0 s)) (val (v_m1 s)) (val (v_m2 s)).
(** How much the state of the exact filter may exceed the loudest input *)
Definition loudness (g k : R) : R :=
  let c := k / (2 * (k * k + 4)) in
  let gain := 4 * g / c + 6 * (g * g * g) * c / (3 * ((1 + g * k) * (1 + g * k)) + 5 * (g * g) + 2) in
  sqrt (4 + 8 * (2 * gain + 1) / damping g k).
(** What rounding may add to the output, per unit of rounding error *)
Definition closeness (g k m0 m1 m2 : R) : R := 2500 * (loudness g k / damping g k) * (1 + Rabs m0 + Rabs m1 + Rabs m2).
(** What an error of the input may add to the output, per unit *)
Definition carried (g k m0 m1 m2 : R) : R := 3 * loudness g k * (1 + Rabs m0 + Rabs m1 + Rabs m2).
(** The types whose output mix is computed without rounding *)
Definition simple (ty : svf_type) : Prop :=
  match ty with Low | High | Band | Notch | Peak | All => True | Bell | LowShelf | HighShelf => False end.
