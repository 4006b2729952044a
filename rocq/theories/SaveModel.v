(** Model of writing a buffer to a 16 bit wave file: knaster_core_dsp/src/dsp/buffer.rs:315-331 [Buffer::save_to_disk]. What is modelled is
    the description and the samples that are given to the library [hound]; not the library and the errors of the disk. *)
From Flocq Require Import Core BinarySingleNaN.
From Verif Require Import Base FloatBase OscModel.

(** [as i16]: towards zero, saturating, 0 for NaN *)
Definition as_i16 (x : f32) : Z :=
  match x with
  | B754_nan => 0
  | B754_infinity s => if s then -32768 else 32767
  | _ => Z.max (-32768) (Z.min 32767 (Btrunc x))
  end%Z.
(** what hound writes: the format and the samples *)
Record wav := mk_wav { w_channels : N; w_rate : N; w_bits : N; w_samples : list Z }.

Section Save.
Context {prec emax : Z} {I : ieee prec emax}.
Notation fl := (binary_float prec emax).
(** knaster_primitives/src/float.rs:124-126, 163-165 [to_f32] *)
Definition narrow (x : fl) : f32 :=
  match x with
  | B754_zero s => B754_zero s | B754_infinity s => B754_infinity s | B754_nan => B754_nan
  | B754_finite s m e _ => binary_normalize 24 128 _ _ mode_NE (cond_Zopp s (Zpos m)) e s
  end.
(** l.326-329: [i16::MAX] is 32767 *)
Definition saved (x : fl) : Z := as_i16 (narrow (fmul x (fz 32767))).
(** l.317-330; [as u16] keeps the lower bits, [as u32] saturates *)
Definition save (ch : N) (sr : f64) (mem : list fl) : wav := mk_wav (ch mod 65536) (as_u32 sr) 16 (map saved mem).
End Save.
