(** The second way to reset an allpass delay (knaster_core_dsp/src/ugens/delay.rs:188-200). *)
From Flocq Require Import BinarySingleNaN.
From Verif Require Import Base FloatBase AllpassModel.

Section Reset.
Context {prec emax : Z} {I : ieee prec emax}.
(** delay.rs:189-200 [set_delay_in_frames_and_clear]: the buffer is filled with zeros, the interpolator and the count of
    samples left to clear are not touched *)
Definition ap_reset (x : binary_float prec emax) (s : ap prec emax) : option (ap prec emax) :=
  ap_set x (mk_ap (repeat fzero (length (a_buf s))) (a_w s) (a_r s) (a_nf s) (a_clear s) (a_coeff s) (a_pin s) (a_pout s)).
End Reset.
