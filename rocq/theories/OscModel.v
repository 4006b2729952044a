(** Model of the safety limiter (knaster_core_dsp/src/ugens/dynamics.rs), the phasor and the wavetable oscillators (ugens/osc.rs,
    dsp/wavetable.rs). *)
From Flocq Require Import Core BinarySingleNaN.
From Verif Require Import Base FloatBase NoiseModel.

(** ** Limiter *)
Section Limiter.
Context {prec emax : Z} {I : ieee prec emax}.
(** dynamics.rs:26-31 *)
Definition limit (x : binary_float prec emax) : binary_float prec emax :=
  let s := clamp x (fneg fone) fone in if is_nan s then fzero else s.
End Limiter.

(** [as f32] *)
Definition to_f32 (x : binary_float 53 1024) : binary_float 24 128 :=
  match x with
  | B754_zero s => B754_zero s | B754_infinity s => B754_infinity s | B754_nan => B754_nan
  | B754_finite s m e _ => binary_normalize 24 128 _ _ mode_NE (cond_Zopp s (Zpos m)) e s
  end.

(** ** Phasor (always f64 inside) *)
Notation f64 := (binary_float 53 1024).
Notation f32 := (binary_float 24 128).
(** osc.rs:172-177 *)
Record phasor := mk_phasor { ph_phase : f64; ph_step : f64; ph_mult : f64 }.
(** osc.rs:182-189 *)
Definition phasor_new (freq : f64) : phasor := mk_phasor fzero freq fzero.
(** osc.rs:191-198 *)
Definition phasor_freq (freq : f64) (s : phasor) : phasor :=
  mk_phasor (ph_phase s) (if feqb (ph_mult s) fzero then freq else fmul freq (ph_mult s)) (ph_mult s).
(** osc.rs:200-203 *)
Definition phasor_init (sr : f64) (s : phasor) : phasor :=
  phasor_freq (ph_step s) (mk_phasor (ph_phase s) (ph_step s) (fdiv fone sr)).
(** osc.rs:208-210: the loop, [None]: out of fuel *)
Fixpoint wrap (fuel : nat) (x : f64) : option f64 :=
  if fleb fone x then match fuel with O => None | S n => wrap n (fsub x fone) end else Some x.
(** osc.rs:205-212 [process], before the conversion of the output ([to_f32] or nothing) *)
Definition phasor_step (fuel : nat) (s : phasor) : option (phasor * f64) :=
  p <- wrap fuel (fadd (ph_phase s) (ph_step s));; Some (mk_phasor p (ph_step s) (ph_mult s), ph_phase s).
(** a change of the frequency (osc.rs:190-198), or a frame *)
Inductive ph_op := PFreq (f : f64) | PFrame.
(** plumbing: any sequence of them *)
Fixpoint phasor_run (fuel : nat) (s : phasor) (ops : list ph_op) : option (list f64) :=
  match ops with
  | [] => Some []
  | PFreq f :: ops => phasor_run fuel (phasor_freq f s) ops
  | PFrame :: ops => p <- phasor_step fuel s;; l <- phasor_run fuel (fst p) ops;; Some (snd p :: l)
  end.

(** ** Wavetable phase *)
Definition M32 : N := 4294967296.
(** wavetable.rs:8-15 *)
Definition table_size : N := 16384.
(** wavetable.rs:8-15 [TABLE_HIGH_MASK] *)
Definition high_mask : N := 16383.
(** wavetable.rs:8-15 [FRACTIONAL_PART] *)
Definition fractional_part : Z := 65536.
(** wavetable.rs:27-32 *)
Definition integer_component (p : N) : N := N.land (N.shiftr p 16) high_mask.
(** wavetable.rs:35-38 *)
Definition fractional_component (p : N) : N := N.land p 65535.
(** wavetable.rs:49-60 *)
Definition wadd (a b : N) : N := ((a + b) mod M32)%N.
(** [as u32]: saturating, 0 for NaN *)
Definition as_u32 (x : f64) : N :=
  match x with
  | B754_infinity false => M32 - 1
  | B754_infinity true | B754_nan => 0
  | _ => Z.to_N (Z.min (Btrunc x) (Z.of_N M32 - 1))
  end%N.
(** wavetable.rs:323-325 [NonAaWavetable::get]: the read is unchecked; [None] stands for undefined behaviour *)
Definition table_get {V} (buf : list V) (p : N) : option V := nth_error buf (N.to_nat (integer_component p)).
(** wavetable.rs:100-127 [set_from_buffer] and [update_diff_buffer]: panics for fewer than two samples; the assertions compare a
    difference with itself (they hold unless it is not a number) *)
Definition set_from_buffer {V} (buf : list V) : option (list V) := if (length buf <? 2)%nat then None else Some buf.

(** osc.rs:97-105 [SinWt] *)
Record sinwt := mk_sinwt { w_phase : N; w_offset : N; w_inc : N; w_mult : f64 }.
(** osc.rs:142-147 [init]: [TABLE_SIZE as f64 * FRACTIONAL_PART as f64 * (1.0 / sample_rate as f64)] *)
Definition wt_mult (sr : f64) : f64 := fmul (fmul (fz (Z.of_N table_size)) (fz fractional_part)) (fdiv fone sr).
(** the parameters (osc.rs:126-141) and a sample *)
Inductive wt_op := WFreq (f : f64) | WOffset (x : f64) | WReset | WSample.
(** osc.rs:126-141 [freq] (the value after its conversion to F and back), [phase_offset], [reset_phase]; l.151-156 [next_sample]. The
    output is the phase that is looked up. *)
Definition wt_step (s : sinwt) (o : wt_op) : sinwt * list N :=
  match o with
  | WFreq f => (mk_sinwt (w_phase s) (w_offset s) (as_u32 (fmul f (w_mult s))) (w_mult s), [])
  | WOffset x => (mk_sinwt (w_phase s) (as_u32 (fmul x (fz fractional_part))) (w_inc s) (w_mult s), [])
  | WReset => (mk_sinwt 0 (w_offset s) (w_inc s) (w_mult s), [])
  | WSample => (mk_sinwt (wadd (w_phase s) (w_inc s)) (w_offset s) (w_inc s) (w_mult s), [wadd (w_phase s) (w_offset s)])
  end.
(** plumbing: any sequence of them *)
Fixpoint wt_run (s : sinwt) (ops : list wt_op) : list N :=
  match ops with [] => [] | o :: ops => let p := wt_step s o in snd p ++ wt_run (fst p) ops end.
(** osc.rs:111-123 [new], l.142-147 [init] *)
Definition sinwt_init (freq sr : f64) : sinwt := mk_sinwt 0 0 (as_u32 (fmul freq (wt_mult sr))) (wt_mult sr).

(** An f32 literal *)
Definition decimal (n d : Z) : f32 := to_f32 (fdiv (fz n) (fz d)).
(** wavetable.rs:331-377 [freq_to_table_index]; the limits are f32 constants *)
Definition limits : list f32 :=
  [fz 32; fz 48; fz 72; fz 108; fz 162; fz 243; fze 729 (-1); fze 2187 (-2); fze 6561 (-3); fze 19683 (-4);
   decimal 18452813 10000; decimal 27679219 10000; decimal 4151883 1000; decimal 6227824 1000;
   decimal 9341736 1000; decimal 140126045 10000].
(** wavetable.rs:331-377: the chain of [if]s *)
Fixpoint table_index_in (ls : list f32) (f : f32) : nat := match ls with [] => 0 | l :: ls => if fleb f l then 0 else S (table_index_in ls f) end.
(** wavetable.rs:331-377 [freq_to_table_index] *)
Definition freq_to_table_index (f : f32) : nat := table_index_in limits f.
(** wavetable.rs:400-407: the number of partial tables; l.604-608 [Wavetable::get]: the table *)
Definition num_tables : nat := freq_to_table_index (fz 20000) + 1.
(** wavetable.rs:604-608: the table that is looked up *)
Definition table_of {V} (tables : list V) (f : f32) : option V := nth_error tables (Nat.min (freq_to_table_index f) (length tables)).
