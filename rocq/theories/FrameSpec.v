(** What a UGen with the default block processing computes, sample by sample, from the matrix of its input. *)
From Verif Require Import Base BlockModel BlockSpec PreciseModel PreciseSpec.
Local Open Scope nat_scope.

Section Spec.
Context {F V St : Type}.
Variable u : ugen F V St.
(** A UGen looks at its input channels only. *)
Definition own_inputs : Prop := forall st x y, (forall c, c < u_ins u -> x c = y c) ->
  fst (u_process u st x) = fst (u_process u st y) /\ forall c, c < u_outs u -> snd (u_process u st x) c = snd (u_process u st y) c.
(** The state when frame [t] begins, and what is put out in channel [c] of frame [t]; the changes [l] are applied before their frame *)
Fixpoint state_at (l : list (N * nat * V)) (x : matrix) (st : St) (t : nat) : St :=
  match t with O => st | S t' => fst (u_process u (apply_all u (due t' l) (state_at l x st t')) (fun c => x c t')) end.
Definition out_at (l : list (N * nat * V)) (x : matrix) (st : St) (c t : nat) : F :=
  snd (u_process u (apply_all u (due t l) (state_at l x st t)) (fun c => x c t)) c.
(** The matrix [g] with [n] frames of [y], from frame [o] on *)
Definition placed (o n : nat) (y g : matrix (F := F)) : matrix :=
  fun c f => if (c <? u_outs u) && ((o <=? f) && (f <? o + n)) then y c (f - o) else g c f.
(** The blocks have the channels of the UGen and [n] frames *)
Definition room (n : nat) (ib : block F) (iv : view) (ob : block F) (ov : view) : Prop :=
  u_ins u <= b_channels ib /\ n <= v_size ib iv /\ block_wf ob /\ view_ok ob ov /\ u_outs u <= b_channels ob /\ n <= v_size ob ov.
End Spec.
