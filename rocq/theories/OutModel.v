(** Model of the remaining methods of handles (knaster_graph/src/graph_edit.rs): connecting to the graph outputs and disconnecting.
    Handles are those of [HandleModel]. [None] is a panic. *)
From Verif Require Import Base GraphModel HandleModel.
Local Open Scope nat_scope.
Local Notation length := List.length.

(** [enumerate], [i as u16]: l.365, 374, 566, 577 *)
Definition all_outs (h : handle) : list nat := map (fun i => N.to_nat (as_u16 (N.of_nat i))) (seq 0 (length (h_out h))).
(** [iter_outputs().zip(sink_channels)], each with [NodeOrGraph::Graph] *)
Definition out_pairs (h : handle) (cs : list nat) : list (chan * chan) := combine (h_out h) (map (fun c => (NGraph, c)) cs).

(** l.588-612 [DH::to_graph_out_channels] and [.._replace]: errors are logged *)
Definition send_dynamic (additive : bool) (g : graph) (h : handle) (cs : list nat) : option (graph * list result) :=
  wire additive false g (out_pairs h cs).
(** l.564-585 [DH::to_graph_out], [to_graph_out_replace] *)
Definition send_dynamic_all (additive : bool) (g : graph) (h : handle) : option (graph * list result) :=
  send_dynamic additive g h (all_outs h).

(** [connect2(..).expect(..)] in a loop: l.381-405 [SH::to_graph_out_channels] and [.._replace] *)
Fixpoint wire_expect (additive : bool) (g : graph) (l : list (chan * chan)) : option graph :=
  match l with
  | [] => Some g
  | ((s, so), (k, si)) :: l =>
      r <- connect2 g s so si k additive false;; match snd r with Ok => wire_expect additive (fst r) l | Err _ => None end
  end.
(** l.381-405 [SH::to_graph_out_channels] and [.._replace] *)
Definition send_static (additive : bool) (g : graph) (h : handle) (cs : list nat) : option graph :=
  wire_expect additive g (out_pairs h cs).
(** l.363-379 [SH::to_graph_out], [to_graph_out_replace] *)
Definition send_static_all (additive : bool) (g : graph) (h : handle) : option graph := send_static additive g h (all_outs h).
(** l.332-361 [SH::to_replace] (the same loop, between nodes; [to_feedback_replace] is not modelled) *)
Definition to_replace_static (g : graph) (x y : handle) : option graph := wire_expect false g (combine (h_out x) (h_in y)).

(** l.407-416 and l.615-624 [disconnect_output], l.418-427 and l.626-635 [disconnect_input], on both kinds of handles:
    [nth(..).expect(..)], and the result is [expect]ed *)
Definition expect_ok (r : option (graph * result)) : option graph :=
  q <- r;; match snd q with Ok => Some (fst q) | Err _ => None end.
(** l.407-416, 615-624 [disconnect_output] *)
Definition h_disconnect_output (g : graph) (h : handle) (c : nat) : option graph :=
  x <- nth_error (h_out h) c;; expect_ok (disconnect_output g (fst x) (snd x)).
(** l.418-427, 626-635 [disconnect_input] *)
Definition h_disconnect_input (g : graph) (h : handle) (c : nat) : option graph :=
  x <- nth_error (h_in h) c;; expect_ok (disconnect_input g (snd x) (fst x)).
