(** What is meant by the phase and the range of the oscillator. *)
From Coq Require Import Reals.
From Flocq Require Import Core BinarySingleNaN.
From Verif Require Import Base FloatBase PolyModel.
Local Open Scope R_scope.

Section Phase.
Context {prec emax : Z} {I : ieee prec emax}.
Notation fl := (binary_float prec emax).
(** polyblep.rs:134 documents the phase as [0.0..1.0) *)
Definition phase_ok (t : fl) : Prop := fin t /\ 0 <= val t < 1.
(** Operations with parameters in range: a sample rate of at least one, a frequency, step or phase from 0 to 2^100 *)
Definition op_ok (o : poly_op fl) : Prop :=
  match o with
  | PInit sr => fin sr /\ 1 <= val sr
  | PFreq x | PSetDt x | PSync x => fin x /\ 0 <= val x <= bpow radix2 100
  | PPw _ | PWave _ | PSample => True
  | PSetSr _ => False
  end.
End Phase.

(** The phase of exact arithmetic after [n] samples from phase [t] with step [dt] *)
Definition exact_phase (t dt : R) (n : nat) : R := let x := t + INR n * dt in x - IZR (Zfloor x).

(** A step below a quarter of the sample rate; a pulse width in its documented range (polyblep.rs:133) *)
Definition slow (dt : R) : Prop := 0 <= dt < 1 / 4.
Definition width_ok (pw : R) : Prop := 0 <= pw <= 1.
(** How far a waveform may go from zero *)
Definition wave_bound (w : waveform) : R :=
  match w with
  | Rectangle => 2
  | TriangularPulse | HalfWaveRectifiedSine | FullWaveRectifiedSine => 3
  | _ => 1
  end.
(** The parameters in range, in exact arithmetic *)
Definition op_in_range (o : poly_op R) : Prop :=
  match o with
  | PInit sr | PSetSr sr => 0 < sr
  | PFreq x | PSetDt x | PSync x => 0 <= x
  | PPw x => width_ok x
  | PWave _ | PSample => True
  end.
(** Distance of two phases around the circle *)
Definition circle (t t' : R) : R := Rmin (Rabs (t - t')) (1 - Rabs (t - t')).
(** The waveforms that have a jump in their naive form, as functions of the phase *)
Definition corrected : list waveform := [Sawtooth; Ramp; Square; Rectangle; ModifiedSquare].
Definition wave_at (w : waveform) (dt pw t : R) : R :=
  match w with
  | Sawtooth => w_saw RPops t dt | Ramp => w_ramp RPops t dt | Square => w_sqr RPops t dt
  | Rectangle => w_rect RPops t dt pw | ModifiedSquare => w_sqr2 RPops t dt pw | _ => 0
  end.
