(** What a one-pole low or high pass should do to a sinusoid.  [sinusoid] and [filtered] are those of C63. *)
From Coq Require Import Reals.
From Coquelicot Require Import Complex.
From Verif Require Import Base NoiseModel PoleModel SvfRespSpec.
Local Open Scope R_scope.

Inductive kind := LowPass | HighPass.
Definition sample_of (k : kind) : R -> op R -> op R * R := match k with LowPass => low_sample RZops | HighPass => high_sample RZops end.
(** Output sample number [n] of a filter whose input is [x] *)
Definition outputs (k : kind) (s : op R) (x : nat -> R) (n : nat) : list R :=
  snd (pole_run RZops (sample_of k) s (map (fun i => ZIn (x i)) (seq 0 n))).
Definition heard (k : kind) (s : op R) (x : nat -> R) (n : nat) : R := nth n (outputs k s x (S n)) 0.
(** After a while the sinusoid comes out with the complex gain [h], whatever the filter was doing before. *)
Definition passes (k : kind) (s : op R) (sr f : R) (h : C) : Prop :=
  forall a phi, Un_cv (fun n => heard k s (sinusoid sr f a phi) n - filtered h sr f a phi n) 0.
(** The part of the power that is let through *)
Definition power (h : C) : R := Re h * Re h + Im h * Im h.

(** A filter that is set to a cutoff, whatever has happened to it *)
Definition set_to (cutoff sr : R) (s : op R) : Prop := 0 < sr /\ exists s0, s = set_freq RZops cutoff sr s0.
(** A cutoff or frequency as an angle per sample *)
Definition per_sample (f sr : R) : R := 2 * PI * f / sr.

(** The cutoff in force after some events, all at the sample rate [sr]: the latest one *)
Fixpoint latest (c : R) (l : list (pole_op R)) : R :=
  match l with [] => c | ZCutoff f _ :: l => latest f l | _ :: l => latest c l end.
Definition at_rate (sr : R) (o : pole_op R) : Prop := match o with ZInit r | ZCutoff _ r => r = sr | ZIn _ => True end.

(** A sinusoid of frequency [f] comes out with the part [p] of its power. *)
Definition lets_through (k : kind) (s : op R) (sr f p : R) : Prop := exists h, passes k s sr f h /\ power h = p.
