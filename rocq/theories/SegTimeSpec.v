(** The length of a multi-segment envelope. *)
From Coq Require Import Reals.
From Verif Require Import Base FloatBase SegModel.
Local Open Scope R_scope.
(** The sum of the durations, in seconds *)
Definition total (segs : list (seg 53 1024)) : R := fold_right (fun g a => val (s_dur g) + a) 0 segs.
