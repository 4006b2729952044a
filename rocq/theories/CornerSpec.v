(** What is meant by a waveform without jumps and corners (C84). *)
From Coq Require Import Reals.
From Flocq Require Import Core.
From Verif Require Import Base PolyModel.
Local Open Scope R_scope.

(** [n] times differentiable, with a continuous last derivative *)
Fixpoint smooth (n : nat) (f : R -> R) : Prop :=
  match n with
  | O => continuity f
  | S n' => exists d, (forall x, derivable_pt_lim f x (d x)) /\ smooth n' d
  end.
(** The sample that is heard at the phase [x], going around the circle: the oscillator with waveform [w], sample rate [sr], frequency [hz],
    step [dt] and pulse width [pw] *)
Definition heard (w : waveform) (sr hz dt pw x : R) : R := next_sample RPops (mk_poly w sr hz dt pw (x - IZR (Zfloor x))).
(** The waveforms whose simple form jumps, and the others *)
Definition with_jumps : list waveform := [Sawtooth; Ramp; Square; Rectangle; ModifiedSquare].
Definition without_jumps : list waveform :=
  [Sine; Cosine; Triangle; ModifiedTriangle; HalfWaveRectifiedSine; FullWaveRectifiedSine; TriangularPulse; TrapezoidFixed; TrapezoidVariable].
