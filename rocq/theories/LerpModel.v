(** Model of interpolated wavetable reads: knaster_core_dsp/src/dsp/wavetable.rs:34-46, 306-317, 596-603, in floating point. Phases
    are u32 numbers. [None] is a panic. *)
From Flocq Require Import Core BinarySingleNaN.
From Verif Require Import Base FloatBase OscModel WaveModel.

(** l.40-46 [fractional_component_f32]: the lower 16 bits divided by 65535, in f32 *)
Definition fraction_f32 (p : N) : f32 := fdiv (fz (Z.of_N (fractional_component p))) (fz 65535).

Section Lerp.
Context {prec emax : Z} {I : ieee prec emax}.
Notation fl := (binary_float prec emax).
(** l.306-317 [NonAaWavetable::get_linear_interp]: [t] is the buffer, [d] the buffer of differences *)
Definition table_lerp (t d : list fl) (p : N) : option fl :=
  let i := N.to_nat (integer_component p) in
  a <- nth_error t i ;; e <- nth_error d i ;; Some (fadd a (fmul e (wide (fraction_f32 p)))).
(** A table that was filled with [t]: l.100-127 [set_from_buffer], then a read *)
Definition table_read (t : list fl) (p : N) : option fl := d <- diffs t ;; table_lerp t d p.
(** l.596-603 [Wavetable::get_linear_interp]: the frequency after its conversion to f32 chooses the table *)
Definition tables_read (ts : list (list fl)) (p : N) (freq : f32) : option fl := t <- table_of ts freq ;; table_read t p.
End Lerp.
