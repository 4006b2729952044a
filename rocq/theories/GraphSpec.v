(** What the graph state means: who feeds whom. *)
From Coq Require Export Relations.
From Verif Require Import Base GraphModel.
Local Open Scope nat_scope.

(** The connection into input [c] of node [k], if any. *)
Definition in_edge (g : graph) (k : key) (c : nat) : option edge :=
  match edges_of g k with
  | Some es => match nth_error es c with Some o => o | None => None end
  | None => None
  end.
(** The connection into graph output [c], if any. *)
Definition out_edge (g : graph) (c : nat) : option edge :=
  match nth_error (g_outs g) c with Some o => o | None => None end.

(** Node [a] feeds some audio input of node [b] (any kind of stored audio connection). *)
Definition feeds (g : graph) (a b : key) : Prop :=
  exists c e, in_edge g b c = Some e /\ e_src e = Some a.
(** The signal of [a] reaches [b] ([a = b] included). *)
Definition reaches (g : graph) : key -> key -> Prop := clos_refl_trans key (feeds g).
Definition has_cycle (g : graph) : Prop := exists k, clos_trans key (feeds g) k k.

(** [k] is a node of the graph that has not been freed. *)
Definition live (g : graph) (k : key) : Prop := exists n es, lookup g k = Some n /\ n_edges n = Some es.

(** A graph obtained from an empty one by some history of edits. *)
Definition reachable (g : graph) : Prop :=
  exists id inputs outputs slots ops, run (graph_new id inputs outputs slots) ops = Some g.

(** [k] is one of the summing nodes that additive connections insert. *)
Definition summing (g : graph) (k : key) : bool :=
  match lookup g k with Some n => n_auto_math n | None => false end.

(** The signal arriving over a stored connection, as the list of the outputs (source, channel) that are
    summed: inserted summing nodes are seen through. *)
Definition leaf : Type := option key * nat.
Inductive sums (g : graph) : option edge -> list leaf -> Prop :=
| sums_none : sums g None []
| sums_leaf e : (forall k, e_src e = Some k -> summing g k = false) ->
    sums g (Some e) [(e_src e, e_chan e)]
| sums_add e k l1 l2 : e_src e = Some k -> summing g k = true ->
    sums g (in_edge g k 0) l1 -> sums g (in_edge g k 1) l2 -> sums g (Some e) (l1 ++ l2).

(** A stored audio connection refers to a node that is in the graph and was not freed, and to a channel
    that node has (or to an existing graph input). *)
Definition edge_ok (g : graph) (e : edge) : Prop :=
  match e_src e with
  | Some s => exists n, lookup g s = Some n /\ n_edges n <> None /\ e_chan e < n_outputs n
  | None => e_chan e < g_inputs g
  end.
Definition refs_ok (g : graph) : Prop :=
  (forall k c e, in_edge g k c = Some e -> edge_ok g e) /\
  (forall c e, out_edge g c = Some e -> edge_ok g e).

(** Edits that are neither feedback connections nor connections from a node that was already freed
    (nor sums with an audio-rate parameter link left over from such a node). *)
Definition plain_edit (g : graph) (o : op) : Prop :=
  match o with
  | OpConnect s _ _ _ _ fb => fb = false /\ match s with NNode id => live g (id_key id) | NGraph => True end
  | OpConnectParam s _ _ k _ => live g (id_key s) /\
      (forall n ps p, lookup g (id_key k) = Some n -> n_pedges n = Some ps -> In p ps ->
         edge_ok g (mk_edge (Some (p_src p)) (p_chan p) false))
  | _ => True
  end.
Inductive plain_run : graph -> list op -> graph -> Prop :=
| plain_nil g : plain_run g [] g
| plain_cons g o ops g1 r g2 : plain_edit g o -> step g o = Some (g1, r) -> plain_run g1 ops g2 ->
    plain_run g (o :: ops) g2.

(** The source of a connection as stored. *)
Definition src_of (s : node_or_graph) : option key := match s with NGraph => None | NNode id => Some (id_key id) end.

(** No node is of the kind that frees itself when unused (only feedback pairs are). *)
Definition no_auto_free (g : graph) : Prop := forall k n, lookup g k = Some n -> n_auto_free n = false.

(** No node has asked to be removed. *)
Definition none_raised (g : graph) : Prop := forall k n, lookup g k = Some n -> n_remove_me n <> Some true.

(** Every graph output is connected; every inserted sum has at least one / both inputs connected. *)
Definition outs_all (g : graph) : Prop := forall c, c < g_outputs g -> out_edge g c <> None.
Definition sums_fed (g : graph) : Prop := forall k, live g k -> summing g k = true ->
  in_edge g k 0 <> None \/ in_edge g k 1 <> None.
Definition sums_full (g : graph) : Prop := forall k, live g k -> summing g k = true ->
  in_edge g k 0 <> None /\ in_edge g k 1 <> None.
Definition tidy (g : graph) : Prop := sums_full g \/ (outs_all g /\ sums_fed g).

(** An immortal node that has not been freed. *)
Definition safe (g : graph) (k : key) : Prop :=
  exists n, lookup g k = Some n /\ n_mortal n = false /\ n_edges n <> None.

(** The signal of [a] is used, as audio or as an audio-rate parameter, by [b]. *)
Definition par_feeds (g : graph) (a b : key) : Prop :=
  exists n ps p, lookup g b = Some n /\ n_pedges n = Some ps /\ In p ps /\ p_src p = a.
Definition depends (g : graph) (a b : key) : Prop := feeds g a b \/ par_feeds g a b.

(** A history of additive connections of [srcs], in this order, to input [si] of [k], all accepted. *)
Inductive connects (k : node_id) (si : nat) : graph -> list (node_or_graph * nat) -> graph -> Prop :=
| connects_nil g : connects k si g [] g
| connects_cons g s so g1 l g2 : step g (OpConnect s so si (NNode k) true false) = Some (g1, Ok) ->
    connects k si g1 l g2 -> connects k si g ((s, so) :: l) g2.
