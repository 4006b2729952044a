(** What is meant by a stable filter and by its gain, in exact arithmetic. *)
From Coq Require Import Reals.
From Verif Require Import Base SvfModel.
Local Open Scope R_scope.

(** Exact real arithmetic, with the mathematical tangent, square root and power *)
Definition Rops : float_ops R :=
  mk_ops R 0 1 2 10 40 PI Rplus Rminus Rmult Rdiv Ropp tan sqrt Rpower.

(** Settings in range: a cutoff below half the sample rate and a positive resonance *)
Definition in_range (sr cutoff q : R) : Prop := 0 < cutoff < sr / 2 /\ 0 < q.
(** A filter whose settings are in range and whose coefficients were computed from them *)
Definition ready (sr : R) (s : svf R) : Prop :=
  in_range sr (v_cutoff s) (v_q s) /\ exists s0, s = set_coeffs Rops s0 sr.
(** A history whose settings stay in range, with silent input *)
Definition fine (sr : R) (o : svf_op R) : Prop :=
  match o with
  | OInit sr' => sr' = sr
  | OCutoff x => 0 < x < sr / 2
  | OQ x => 0 < x
  | OGain _ | OType _ | OCalc | OSample _ => True
  end.
Definition silent (o : svf_op R) : Prop := match o with OSample x => x = 0 | _ => True end.

(** The energy stored in the two integrators *)
Definition energy (s : svf R) : R := v_ic1 s * v_ic1 s + v_ic2 s * v_ic2 s.

(** The filter after [n] samples of the input [x], and output sample number [n] *)
Fixpoint after (s : svf R) (x : nat -> R) (n : nat) : svf R :=
  match n with O => s | S n' => fst (process_sample Rops (after s x n') (x n')) end.
Definition output (s : svf R) (x : nat -> R) (n : nat) : R :=
  snd (process_sample Rops (after s x n) (x n)).

(** What the types are documented to be: gain of a constant signal, and of the fastest alternating one.
    [A] is the linear gain of a bell or shelf, 10^(dB/20). *)
Definition dc_gain (ty : svf_type) (A : R) : R :=
  match ty with
  | Low | Notch | All | Bell | HighShelf => 1
  | High | Band => 0
  | Peak => -1
  | LowShelf => A
  end.
Definition top_gain (ty : svf_type) (A : R) : R :=
  match ty with
  | Low | Band => 0
  | High | Notch | Peak | All | Bell | LowShelf => 1
  | HighShelf => A
  end.
Definition alternating (x : R) (n : nat) : R := if Nat.even n then x else - x.
(** Decibels as a factor *)
Definition linear_gain (gain : R) : R := Rpower 10 (gain / 20).
Definition impulse (n : nat) : R := match n with O => 1 | _ => 0 end.
(** A low pass whose cutoff is three quarters of the sample rate, nothing else unusual about it *)
Definition over (sr : R) : svf R := set_coeffs Rops (svf_new Rops Low (3 / 4 * sr) 1 0) sr.
