(** Model of the one-pole filter UGens [OnePoleLpf] and [OnePoleHpf] (knaster_core_dsp/src/ugens/onepole.rs:109-178), over any
    arithmetic.  The filter itself ([OnePole], the record [op] and its low pass) is in [NoiseModel].  Conversions of the
    parameter and of the sample rate to the sample type are the identity; the feature [no_denormals] is off. *)
From Coq Require Import Reals.
From Verif Require Import Base NoiseModel.

(** The operations of [knaster_core::Float] used; [z_m2pi] is [-2.0 * PI] *)
Record pole_ops (V : Type) := mk_zops {
  z_zero : V; z_one : V; z_m2pi : V; z_add : V -> V -> V; z_sub : V -> V -> V; z_mul : V -> V -> V; z_div : V -> V -> V;
  z_exp : V -> V; z_eqb : V -> V -> bool }.
Arguments z_zero {V}. Arguments z_one {V}. Arguments z_m2pi {V}. Arguments z_add {V}. Arguments z_sub {V}. Arguments z_mul {V}.
Arguments z_div {V}. Arguments z_exp {V}. Arguments z_eqb {V}.

Section Pole.
Context {V : Type} (O : pole_ops V).
(** l.35-46 [set_freq_lowpass]; l.50-61 [set_freq_highpass] is the same *)
Definition set_freq (freq sr : V) (s : op V) : op V :=
  op_coeff (z_sub O) (z_one O) (z_exp O (z_mul O (z_m2pi O) (z_div O freq sr))) s.
(** l.118-122 [OnePoleLpf::new]: the cutoff is kept in [b1] until [init]; l.157-159 [OnePoleHpf::new] *)
Definition lpf_new (cutoff : V) : op V := mk_op (z_zero O) (z_one O) cutoff.
(** l.157-159 [OnePoleHpf::new] *)
Definition hpf_new : op V := op_new (z_zero O) (z_one O).
(** l.123-129, 161-167 [init] of both *)
Definition pole_init (sr : V) (s : op V) : op V := if z_eqb O (o_a0 s) (z_one O) then set_freq (o_b1 s) sr s else s.
(** l.64-76 [process_lp], l.80-92 [process_hp]: new state and sample *)
Definition low_sample (x : V) (s : op V) : op V * V := let s' := op_lp (z_add O) (z_mul O) x s in (s', o_last s').
(** l.80-92 [process_hp] *)
Definition high_sample (x : V) (s : op V) : op V * V := let s' := op_lp (z_add O) (z_mul O) x s in (s', z_sub O x (o_last s')).

(** What can happen to a filter: [init] with a sample rate, the parameter [cutoff_freq] (l.136-139, 173-176; the sample rate is
    that of the context) and samples *)
Inductive pole_op := ZInit (sr : V) | ZCutoff (freq sr : V) | ZIn (x : V).
(** one of these *)
Definition pole_step (sample : V -> op V -> op V * V) (s : op V) (o : pole_op) : op V * list V :=
  match o with
  | ZInit sr => (pole_init sr s, [])
  | ZCutoff f sr => (set_freq f sr s, [])
  | ZIn x => let r := sample x s in (fst r, [snd r])
  end.
(** plumbing: any sequence of them *)
Fixpoint pole_run (sample : V -> op V -> op V * V) (s : op V) (l : list pole_op) : op V * list V :=
  match l with
  | [] => (s, [])
  | o :: l => let r := pole_step sample s o in let q := pole_run sample (fst r) l in (fst q, snd r ++ snd q)
  end.
End Pole.
Arguments pole_op : clear implicits.

(** Exact arithmetic *)
Definition RZops : pole_ops R :=
  mk_zops R 0%R 1%R (-2 * PI)%R Rplus Rminus Rmult Rdiv exp (fun x y => if Req_EM_T x y then true else false).
