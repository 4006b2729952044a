(** What a node order must satisfy. *)
From Verif Require Import Base GraphModel GraphSpec.
Local Open Scope nat_scope.

(** [s] is read by [k] in the same block: through an ordinary audio connection or a parameter link. *)
Definition same_block (g : graph) (s k : key) : Prop :=
  (exists c e, in_edge g k c = Some e /\ e_src e = Some s /\ e_fb e = false) \/ par_feeds g s k.
(** [s] influences [k] within a block. *)
Definition upstream (g : graph) : key -> key -> Prop := clos_trans key (same_block g).
(** [k] is connected to a graph output, directly or through other nodes. *)
Definition feeds_output (g : graph) (k : key) : Prop := exists c e, out_edge g c = Some e /\ e_src e = Some k.
Definition heard (g : graph) (k : key) : Prop :=
  exists r, feeds_output g r /\ clos_refl_trans key (same_block g) k r.
(** In [ord], everything [k] reads comes before [k]. *)
Definition after_sources (g : graph) (ord : list key) (k : key) : Prop :=
  forall l1 l2 s, ord = l1 ++ k :: l2 -> same_block g s k -> In s l1.
(** Everything that is read in the same block is a node that was not freed. *)
Definition sources_live (g : graph) : Prop :=
  (forall s k, same_block g s k -> live g s) /\ (forall k, feeds_output g k -> live g k).
