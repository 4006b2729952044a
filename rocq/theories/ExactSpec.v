(** Notions for the exact conditions of C12, C14 and C16. *)
From Verif Require Import Base GraphModel GraphSpec.
Local Open Scope nat_scope.

(** Every half of a feedback pair that was not freed has an input or is read by some node. *)
Definition halves_used (g : graph) : Prop := forall k n, lookup g k = Some n -> n_edges n <> None ->
  n_auto_free n = true -> (exists c, in_edge g k c <> None) \/ exists k', feeds g k k'.
(** [x] comes before [y] in [l]. *)
Definition before (l : list key) (x y : key) : Prop := exists l1 l2, l = l1 ++ x :: l2 /\ In y l2.
