(** What an audio-rate parameter is. *)
From Verif Require Import Base BlockModel PreciseModel ArModel.
Local Open Scope nat_scope.

Section Spec.
Context {F V St : Type}.
Variable zero : F.
Variable u : ugen F V St.
Variable to_value : F -> V.

(** Which buffer drives a parameter; [None]: an ordinary parameter. *)
Definition links := nat -> option nat.
(** Ordinary calls: a driven parameter ignores sets. *)
Fixpoint ideal_calls (l : links) (st : St) (cs : list (arcall V)) : links * St :=
  match cs with
  | [] => (l, st)
  | ArApply i v :: r => ideal_calls l (match l i with None => u_apply u i v st | Some _ => st end) r
  | ArLink i p :: r => ideal_calls (fun j => if j =? i then Some p else l j) st r
  end.
(** At frame [k]: each driven parameter is given sample [k] of its signal. *)
Fixpoint drive (mem : nat -> nat -> F) (l : links) (n k : nat) (st : St) : St :=
  match n with
  | O => st
  | S i => let st1 := drive mem l i k st in
           match l i with Some p => u_apply u i (to_value (mem p k)) st1 | None => st1 end
  end.
(** [n] frames from frame [k] *)
Fixpoint ideal_frames (mem : nat -> nat -> F) (l : links) (n k : nat) (st : St) ib ob : option (St * block F) :=
  match n with
  | O => Some (st, ob)
  | S n' =>
      x <- read_frame zero ib [] k (u_ins u) ;;
      let r := u_process u (drive mem l (u_params u) k st) x in
      ob' <- write_frame ob [] k (u_outs u) (snd r) ;;
      ideal_frames mem l n' (k + 1) (fst r) ib ob'
  end.
Fixpoint ideal_ar_run (bs : nat) (l : links) (st : St) (bl : list (arblock F V)) (ob : block F) : option (St * list (block F)) :=
  match bl with
  | [] => Some (st, [])
  | b :: bl' =>
      let c := ideal_calls l st (ab_calls b) in
      r <- ideal_frames (ab_mem b) (fst c) bs 0 (snd c) (ab_in b) ob ;;
      rest <- ideal_ar_run bs (fst c) (fst r) bl' ob ;;
      Some (fst rest, snd r :: snd rest)
  end.
(** The calls use existing parameters; the parts of a block make up the whole block. *)
Definition calls_ok (cs : list (arcall V)) : Prop :=
  forall c, In c cs -> match c with ArApply i _ => i < u_params u | ArLink i _ => i < u_params u end.
Definition arblock_ok (bs : nat) (b : arblock F V) : Prop := calls_ok (ab_calls b) /\ list_sum (ab_parts b) = bs.
End Spec.
