(** Model of panning: knaster_core_dsp/src/ugens/pan.rs [Pan2]. [fastapprox::fast::{cos,sin}] are external: they are parameters
    [cosf], [sinf] of the model, about which only an error bound is assumed. *)
From Coq Require Import Reals.
From Flocq Require Import Core BinarySingleNaN.
From Verif Require Import Base FloatBase OscModel WaveModel.
(** l.12-15: the state is the position, 0 to 1 *)
Definition pan2 := f32.
(** l.19-24 [new] and l.26-29 [pan] *)
Definition half32 : f32 := fze 1 (-1).
(** l.26-29 [pan] *)
Definition pan_set (p : f32) : pan2 := fadd (fmul p half32) half32.
(** [core::f32::consts::FRAC_PI_2] *)
Definition frac_pi_2 : f32 := fze 13176795 (-23).
(** l.33: the angle *)
Definition pan_angle (s : pan2) : f32 := fmul s frac_pi_2.
Section Process.
Context {prec emax : Z} {I : ieee prec emax}.
Variables cosf sinf : f32 -> f32.
(** l.31-37 [process]; [F::new] is [wide] *)
Definition pan_process (s : pan2) (x : binary_float prec emax) : binary_float prec emax * binary_float prec emax :=
  (fmul x (wide (cosf (pan_angle s))), fmul x (wide (sinf (pan_angle s)))).
(** Parameter changes and frames *)
Inductive pan_event := PanSet (p : f32) | PanFrame (x : binary_float prec emax).
(** plumbing: any sequence of them *)
Fixpoint pan_run (s : pan2) (l : list pan_event) : list (binary_float prec emax * binary_float prec emax) :=
  match l with [] => [] | PanSet p :: l => pan_run (pan_set p) l | PanFrame x :: l => pan_process s x :: pan_run s l end.
End Process.
