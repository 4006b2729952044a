From Coq Require Import Reals.
From Flocq Require Import Core BinarySingleNaN.
From Verif Require Import Base FloatBase NoiseSpec OscModel.
Open Scope N_scope.
(** The exact phase, in steps of 2^-16 table entries, without any limit on its size: the phase accumulated since the last reset *)
Record exact := mk_exact { x_total : N; x_offset : N; x_inc : N }.
Definition exact_step (mult : f64) (s : exact) (o : wt_op) : exact * list N :=
  match o with
  | WFreq f => (mk_exact (x_total s) (x_offset s) (as_u32 (fmul f mult)), [])
  | WOffset x => (mk_exact (x_total s) (as_u32 (fmul x (fz 65536))) (x_inc s), [])
  | WReset => (mk_exact 0 (x_offset s) (x_inc s), [])
  | WSample => (mk_exact (x_total s + x_inc s) (x_offset s) (x_inc s), [x_total s + x_offset s])
  end.
Fixpoint exact_run (mult : f64) (s : exact) (ops : list wt_op) : list N :=
  match ops with [] => [] | o :: ops => let p := exact_step mult s o in snd p ++ exact_run mult (fst p) ops end.
(** The table entry of an exact phase *)
Definition entry (p : N) : N := (p / 65536) mod 16384.
