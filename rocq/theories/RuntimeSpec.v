(** What the hand-over must guarantee. *)
From Verif Require Import Base GraphModel GraphSpec RuntimeModel.
Local Open Scope nat_scope.

Section Spec.
Context {St X : Type}.
Variable init : key -> St.
Variable proc : X -> key -> St -> St.

(** The state node [k] should have after the blocks in [trace]: its initial state, carried through every block
    that ran it. *)
Definition expected (k : key) (trace : list (list key * X)) : St :=
  fold_left (fun (s : St) (b : list key * X) => if existsb (Nat.eqb k) (fst b) then proc (snd b) k s else s) trace (init k).

(** The list the audio thread runs, or is about to switch to, and the ones it will switch to later. *)
Definition running (y : sys St X) : rtd St := match y_next _ _ y with Some t => t | None => y_cur _ _ y end.
Definition waiting (y : sys St X) : list (rtd St) := y_chunk _ _ y ++ y_ring _ _ y.
(** The audio thread will not touch [k] any more. *)
Definition released (y : sys St X) (k : key) : Prop :=
  ~ In k (r_keys _ (running y)) /\ forall t, In t (waiting y) -> ~ In k (r_keys _ t).
(** The audio thread is about to run the tasks of a block. *)
Definition at_block (y : sys St X) : Prop := y_reading _ _ y = true /\ y_next _ _ y = None /\ y_chunk _ _ y = [].

(** Everywhere a UGen can be: still in its node, in a task list, or dropped. *)
Definition locals (y : sys St X) : list key :=
  filter (fun k => match y_ug _ _ y k with NLocal _ => true | NLive _ => false end) (map fst (g_nodes (y_g _ _ y))).
Definition owners (y : sys St X) : list key :=
  locals y ++ owned _ (r_tasks _ (y_cur _ _ y)) ++
  match y_next _ _ y with Some t => owned _ (r_tasks _ t) | None => [] end ++
  flat_map (fun t => owned _ (r_tasks _ t)) (y_chunk _ _ y ++ y_ring _ _ y ++ y_trash _ _ y) ++ y_dead _ _ y.
End Spec.
