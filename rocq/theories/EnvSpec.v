(** Histories of an envelope. *)
From Coq Require Import Reals.
From Flocq Require Import BinarySingleNaN.
From Verif Require Import Base FloatBase FloatMore EnvModel.

Section Spec.
Context {prec emax : Z} {I : ieee prec emax}.
Notation fl := (binary_float prec emax).
(** Times that are not negative *)
Definition times_ok (ops : list (eop prec emax)) : Prop :=
  forall o, In o ops -> match o with EAttack s | ERelease s => nn s | _ => True end.
(** The envelope is never restarted while it is held at its sustain level. *)
Fixpoint no_restart_at_sustain (sr : N) (e : env prec emax) (ops : list (eop prec emax)) : Prop :=
  match ops with
  | [] => True
  | o :: r => match o, e_state e with ERestart, Sustaining => False | _, _ => True end /\
              no_restart_at_sustain sr (fst (asr_step sr e o)) r
  end.
Definition outputs (l : list (fl * option N)) : list fl := map fst l.
Definition done_frames (l : list (fl * option N)) : list (option N) := map snd l.
(** Done is reported by the [k]-th sample (from 1) and by no other; the report carries that sample's frame number. *)
Definition only_kth (k : nat) (fs : list N) : list (option N) :=
  map (fun '(m, f) => if (m =? k)%nat then Some f else None) (combine (seq 1 (length fs)) fs).
(** The frame numbers of a series of blocks *)
Definition frames_of (sizes : list nat) : list N := concat (map (fun n => map N.of_nat (seq 0 n)) sizes).
(** [k] steps of size [r], with an error of at most [eps] per step, are needed for the distance [d]. *)
Definition steps_for (d r e : R) (k : nat) : Prop := ((INR k - 1) * (r - e) < d <= INR k * (r + e))%R.
End Spec.
