(** The one-pole filters in floating-point arithmetic of any format, beside the exact filters of [PoleSpec].  The exponential is
    whatever the platform provides. *)
From Coq Require Import Reals.
From Flocq Require Import Core BinarySingleNaN.
From Verif Require Import Base FloatBase NoiseModel PoleModel PoleSpec.
Local Open Scope R_scope.

Section S.
Context {prec emax : Z} {I : ieee prec emax}.
Notation fl := (binary_float prec emax).
(** IEEE arithmetic, with any constant for -2 pi and any exponential function *)
Definition fpole_ops (m2pi : fl) (fexp : fl -> fl) : pole_ops fl := mk_zops fl fzero fone m2pi fadd fsub fmul fdiv fexp feqb.
Definition f_sample (O : pole_ops fl) (k : kind) : fl -> op fl -> op fl * fl := match k with LowPass => low_sample O | HighPass => high_sample O end.
(** Output sample number [n] of a filter whose input is [x] *)
Definition f_heard (O : pole_ops fl) (k : kind) (s : op fl) (x : nat -> fl) (n : nat) : fl :=
  nth n (snd (pole_run O (f_sample O k) s (map (fun i => ZIn (x i)) (seq 0 (S n))))) fzero.
(** Finite and at most 2^k *)
Definition sized (k : Z) (x : fl) : Prop := fin x /\ Rabs (val x) <= bpow radix2 k.
(** The exact filter with the coefficient and the memory of a filter in floating point *)
Definition exact (s : op fl) : op R := mk_op (val (o_last s)) (1 - val (o_b1 s)) (val (o_b1 s)).
End S.
(** The cutoff that has the coefficient [b] in exact arithmetic *)
Definition cutoff_of (sr b : R) : R := - ln b * sr / (2 * PI).
