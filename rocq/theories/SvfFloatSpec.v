(** The filter in floating-point arithmetic of any format: how much damping it needs to survive rounding, and how large
    its samples may become.  The tangent, the square root and the power are whatever the platform provides. *)
From Coq Require Import Reals.
From Flocq Require Import Core BinarySingleNaN.
From Verif Require Import Base FloatBase SvfModel.
Local Open Scope R_scope.

Section S.
Context {prec emax : Z} {I : ieee prec emax}.
Notation fl := (binary_float prec emax).
(** IEEE arithmetic with arbitrary transcendental functions *)
Definition ieee_ops (pi : fl) (tan sqrt : fl -> fl) (powf : fl -> fl -> fl) : float_ops fl :=
  mk_ops fl fzero fone (fz 2) (fz 10) (fz 40) pi fadd fsub fmul fdiv fneg tan sqrt powf.
(** The filter after [n] samples of the input [x], and output sample number [n] *)
Fixpoint f_after (O : float_ops fl) (s : svf fl) (x : nat -> fl) (n : nat) : svf fl :=
  match n with O => s | S n' => fst (process_sample O (f_after O s x n') (x n')) end.
Definition f_output (O : float_ops fl) (s : svf fl) (x : nat -> fl) (n : nat) : fl :=
  snd (process_sample O (f_after O s x n) (x n)).

(** The unit of rounding, and the error of rounding to a subnormal number *)
Definition unit_roundoff : R := bpow radix2 (- prec).
Definition tiny : R := bpow radix2 (2 - emax - prec).
End S.

(** The part of the stored energy that the exact filter with [g = tan (pi cutoff / sr)] and [k = 1 / q] loses per sample, at
    least *)
Definition damping (g k : R) : R :=
  g * k / (2 * (k * k + 4) * (3 * ((1 + g * k) * (1 + g * k)) + 5 * (g * g) + 2)).
(** How much the state may exceed the loudest input *)
Definition swing (g k : R) : R :=
  let c := k / (2 * (k * k + 4)) in
  let gain := 4 * g / c + 6 * (g * g * g) * c / (3 * ((1 + g * k) * (1 + g * k)) + 5 * (g * g) + 2) in
  sqrt (4 + 8 * (2 * gain + 1) / damping g k + 160000 / (damping g k * damping g k)).
Definition ceiling (g k m0 m1 m2 : R) : R := 40 * swing g k * (1 + Rabs m0 + Rabs m1 + Rabs m2).
(** The part of the amplitude kept per sample when the filter rings out *)
Definition decay (g k : R) : R := sqrt (1 - damping g k / 4).

(** Settings the arithmetic can carry: [g] and [k] positive and of ordinary size, the output mix finite, and more damping than
    rounding error *)
Definition sturdy {prec emax : Z} {I : ieee prec emax} (O : float_ops (binary_float prec emax)) (s : svf (binary_float prec emax))
  (sr : binary_float prec emax) : Prop :=
  let g := g_of O (v_ty s) (v_cutoff s) (v_q s) (v_gain s) sr in
  let k := k_of O (v_ty s) (v_q s) (v_gain s) in
  let '(m0, m1, m2) := m_of O (v_ty s) k (amp_of O (v_gain s)) in
  fin g /\ fin k /\ bpow radix2 (-24) <= val g <= bpow radix2 24 /\ bpow radix2 (-24) <= val k <= bpow radix2 24
  /\ fin m0 /\ fin m1 /\ fin m2
  /\ 1400 * @unit_roundoff prec <= damping (val g) (val k).
Definition g_val {prec emax : Z} {I : ieee prec emax} (O : float_ops (binary_float prec emax)) (s : svf (binary_float prec emax))
  (sr : binary_float prec emax) : R := val (g_of O (v_ty s) (v_cutoff s) (v_q s) (v_gain s) sr).
Definition k_val {prec emax : Z} {I : ieee prec emax} (O : float_ops (binary_float prec emax)) (s : svf (binary_float prec emax)) : R :=
  val (k_of O (v_ty s) (v_q s) (v_gain s)).
