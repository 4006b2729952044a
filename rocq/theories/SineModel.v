(** Model of the numeric sine oscillator [SinNumeric] (knaster_core_dsp/src/ugens/osc.rs:215-270), over any arithmetic.
    Parameters and the sample rate are given as numbers of the sample type ([F::new] of an [f64] or [f32]). *)
From Coq Require Import Reals.
From Flocq Require Import Core BinarySingleNaN.
From Verif Require Import Base FloatBase.

(** The operations of [knaster_core::Float] used *)
Record sine_ops (F : Type) := mk_yops {
  y_zero : F; y_one : F; y_tau : F; y_add : F -> F -> F; y_sub : F -> F -> F; y_mul : F -> F -> F; y_div : F -> F -> F;
  y_sin : F -> F; y_eqb : F -> F -> bool; y_ltb : F -> F -> bool }.
Arguments y_zero {F}. Arguments y_one {F}. Arguments y_tau {F}. Arguments y_add {F}. Arguments y_sub {F}. Arguments y_mul {F}.
Arguments y_div {F}. Arguments y_sin {F}. Arguments y_eqb {F}. Arguments y_ltb {F}.

(** l.223-227 *)
Record sine (F : Type) := mk_sine { y_phase : F; y_offset : F; y_inc : F }.
Arguments mk_sine {F}. Arguments y_phase {F}. Arguments y_offset {F}. Arguments y_inc {F}.

Section Sine.
Context {F : Type} (O : sine_ops F).
(** l.232-238: the frequency is kept in [phase] until [init] *)
Definition sine_new (freq : F) : sine F := mk_sine freq (y_zero O) (y_zero O).
(** l.241-243; the sample rate is that of the context *)
Definition sine_freq (freq sr : F) (s : sine F) : sine F := mk_sine (y_phase s) (y_offset s) (y_div O freq sr).
(** l.246-248 *)
Definition sine_offset (o : F) (s : sine F) : sine F := mk_sine (y_phase s) o (y_inc s).
(** l.251-253 *)
Definition sine_reset (s : sine F) : sine F := mk_sine (y_zero O) (y_offset s) (y_inc s).
(** l.254-262 *)
Definition sine_init (sr : F) (s : sine F) : sine F :=
  mk_sine (y_zero O) (y_offset s) (if y_eqb O (y_inc s) (y_zero O) then y_div O (y_phase s) sr else y_inc s).
(** l.264-270: new state and sample *)
Definition sine_sample (s : sine F) : sine F * F :=
  let p := y_add O (y_phase s) (y_inc s) in
  (mk_sine (if y_ltb O (y_one O) p then y_sub O p (y_one O) else p) (y_offset s) (y_inc s),
   y_sin O (y_mul O (y_add O (y_phase s) (y_offset s)) (y_tau O))).

(** [init], the parameters and a sample (osc.rs:222-271) *)
Inductive sine_op := YInit (sr : F) | YFreq (freq sr : F) | YOffset (o : F) | YReset | YSample.
(** one of these *)
Definition sine_step (s : sine F) (o : sine_op) : sine F * list F :=
  match o with
  | YInit sr => (sine_init sr s, [])
  | YFreq f sr => (sine_freq f sr s, [])
  | YOffset o => (sine_offset o s, [])
  | YReset => (sine_reset s, [])
  | YSample => let r := sine_sample s in (fst r, [snd r])
  end.
(** plumbing: any sequence of them *)
Fixpoint sine_run (s : sine F) (l : list sine_op) : sine F * list F :=
  match l with
  | [] => (s, [])
  | o :: l => let r := sine_step s o in let q := sine_run (fst r) l in (fst q, snd r ++ snd q)
  end.
End Sine.
Arguments sine_op : clear implicits.

(** Exact arithmetic *)
Definition RYops : sine_ops R :=
  mk_yops R 0%R 1%R (2 * PI)%R Rplus Rminus Rmult Rdiv sin
    (fun x y => if Req_EM_T x y then true else false) (fun x y => if Rlt_dec x y then true else false).
(** [f32] and [f64]; tau and [sin] are left open *)
Section Float.
Context {prec emax : Z} {I : ieee prec emax}.
Notation fl := (binary_float prec emax).
(** the operations in floating point *)
Definition FYops (tau : fl) (fsin : fl -> fl) : sine_ops fl := mk_yops fl fzero fone tau fadd fsub fmul fdiv fsin feqb fltb.
End Float.
