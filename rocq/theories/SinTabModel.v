(** Model of the tables [NonAaWavetable] makes without adding harmonics, and of the samples the wavetable sine oscillator reads
    from one: knaster_core_dsp/src/dsp/wavetable.rs:128-164 [sine], [cosine], [aliasing_saw] and l.321-325 [get];
    knaster_core_dsp/src/ugens/osc.rs:90-91 [SINE_WAVETABLE_F32], l.151-156 [SinWt::next_sample]. The angles are f64 as in the code. The
    library's sine and cosine are left open. Not modelled: the differences, which [get] does not read. *)
From Coq Require Import Reals.
From Flocq Require Import Core BinarySingleNaN.
From Verif Require Import Base FloatBase OscModel WaveModel.

(** [core::f64::consts::PI] *)
Definition pi64 : f64 := fze 884279719003555 (-48).
(** wavetable.rs:135-137: [(i as f64 / TABLE_SIZE as f64) * PI * 2.0] *)
Definition table_angle (i : nat) : f64 := fmul (fmul (fdiv (fz (Z.of_nat i)) (fz (Z.of_N table_size))) pi64) (fz 2).
(** wavetable.rs:128-151 [sine] and [cosine] with f32 samples; [f] is the library's [sin] or [cos] *)
Definition trig_table (f : f64 -> f64) : list f32 := map (fun i => to_f32 (f (table_angle i))) (seq 0 points).
(** wavetable.rs:152-164: [-1. + per_sample * i as f64] *)
Definition saw_point (i : nat) : f64 := fadd (fneg fone) (fmul (fdiv (fz 2) (fz (Z.of_N table_size))) (fz (Z.of_nat i))).
(** wavetable.rs:152-164 [aliasing_saw] with f32 samples *)
Definition saw_table32 : list f32 := map (fun i => to_f32 (saw_point i)) (seq 0 points).
(** wavetable.rs:152-164 [aliasing_saw] with f64 samples *)
Definition saw_table64 : list f64 := map saw_point (seq 0 points).
(** osc.rs:151-156 [next_sample]: the samples read from the shared table for a history of calls; [None]: a read outside the table *)
Definition sinwt_play (f : f64 -> f64) (s : sinwt) (ops : list wt_op) : list (option f32) := map (table_get (trig_table f)) (wt_run s ops).
