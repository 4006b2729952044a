(** What sending a handle to the graph outputs means. *)
From Verif Require Import Base GraphModel GraphSpec HandleModel HandleSpec.
Local Open Scope nat_scope.
Local Notation length := List.length.

(** The channels among [l] sent to graph output [c], in order *)
Definition sent_to (l : list (chan * chan)) (c : nat) : list leaf :=
  map (fun p => (src_of (fst (fst p)), snd (fst p)))
      (filter (fun p => match fst (snd p) with NGraph => snd (snd p) =? c | NNode _ => false end) l).
(** The channel exists in this graph, and so does the graph output *)
Definition sendable (g : graph) (p : chan * chan) : Prop := source_ok g (fst p) /\ snd (snd p) < g_outputs g.
(** The nodes were pushed to this graph *)
Definition own (g : graph) (l : list (chan * chan)) : Prop := forall p id, In p l -> fst (fst p) = NNode id -> id_graph id = g_id g.
