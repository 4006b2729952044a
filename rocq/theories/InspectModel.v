(** Model of [Graph::inspection] (knaster_graph/src/graph.rs:1803-1868) and of what inspection.rs builds from it,
    on the state of [RuntimeModel]. Names, parameter hints and the sender and clock cloned into the report are
    left out; of the text made by [to_dot_string] only the arrows are modelled. [None] is a panic. *)
From Verif Require Import Base GraphModel OrderModel RuntimeModel.
Local Open Scope nat_scope.

(** inspection.rs [EdgeInspection] (source [None] is [EdgeSource::Graph]), [NodeInspection], [GraphInspection] *)
Record edge_report := mk_er { er_src : option key; er_from : nat; er_to : nat; er_fb : bool }.
(** inspection.rs [NodeInspection] *)
Record node_report := mk_nr {
  nr_key : key; nr_inputs : nat; nr_outputs : nat; nr_edges : list edge_report;
  nr_params : list string; nr_unconnected : bool }.
(** inspection.rs [GraphInspection] *)
Record graph_report := mk_gr {
  gr_nodes : list node_report; gr_inputs : nat; gr_outputs : nat; gr_id : N; gr_outs : list edge_report }.

(** graph.rs:1811-1828: [enumerate], then drop the unconnected channels. The flag is the constant [false]. *)
Fixpoint report_inputs (i : nat) (es : list (option edge)) : list edge_report :=
  match es with
  | [] => []
  | Some e :: es' => mk_er (e_src e) (e_chan e) i false :: report_inputs (S i) es'
  | None :: es' => report_inputs (S i) es'
  end.
(** graph.rs:1843-1855: the same for the graph outputs, with the flag of the edge *)
Fixpoint report_outs (i : nat) (es : list (option edge)) : list edge_report :=
  match es with
  | [] => []
  | Some e :: es' => mk_er (e_src e) (e_chan e) i (e_fb e) :: report_outs (S i) es'
  | None :: es' => report_outs (S i) es'
  end.
(** graph.rs:1808-1841, one round: [&real_nodes[node_key]] panics for a key not in the graph *)
Definition report_node (g : graph) (disc : list key) (k : key) : option node_report :=
  n <- lookup g k ;;
  Some (mk_nr k (n_inputs n) (n_outputs n)
          (match edges_of g k with Some es => report_inputs 0 es | None => [] end)
          (n_pdesc n) (mem k disc)).
(** graph.rs:1808-1841: the loop over the nodes *)
Fixpoint report_nodes (g : graph) (disc order : list key) : option (list node_report) :=
  match order with
  | [] => Some []
  | k :: o => r <- report_node g disc k ;; rs <- report_nodes g disc o ;; Some (r :: rs)
  end.
(** graph.rs:1803-1868; [order] is [node_order], [disc] is [disconnected_nodes] *)
Definition inspection (g : graph) (order disc : list key) : option graph_report :=
  ns <- report_nodes g disc order ;;
  Some (mk_gr ns (g_inputs g) (g_outputs g) (g_id g) (report_outs 0 (g_outs g))).

(** inspection.rs:49-69 [node_handles]: the address put into each handle *)
Definition handle_ids (r : graph_report) : list node_id := map (fun n => mk_id (nr_key n) (gr_id r)) (gr_nodes r).

(** inspection.rs:146-197, the arrows of [to_dot_string]. A node is named by its position in the report;
    [None] is [graph_in] as a source and [graph_out] as a destination. An arrow whose source is not in the
    report is left out (and logged). *)
Record arrow := mk_arrow { ar_src : option nat; ar_from : nat; ar_dst : option nat; ar_to : nat }.
(** inspection.rs:146-197: the position of the node with that key *)
Fixpoint key_position (k : key) (ns : list node_report) : option nat :=
  match ns with
  | [] => None
  | n :: ns' => if nr_key n =? k then Some 0 else option_map S (key_position k ns')
  end.
(** inspection.rs:146-197: the arrow of one edge *)
Definition arrow_of (ns : list node_report) (dst : option nat) (e : edge_report) : list arrow :=
  match er_src e with
  | None => [mk_arrow None (er_from e) dst (er_to e)]
  | Some k => match key_position k ns with
              | Some i => [mk_arrow (Some i) (er_from e) dst (er_to e)]
              | None => []
              end
  end.
(** inspection.rs:146-197: the arrows into the nodes *)
Fixpoint node_arrows (ns : list node_report) (j : nat) (rest : list node_report) : list arrow :=
  match rest with
  | [] => []
  | n :: rest' => flat_map (arrow_of ns (Some j)) (nr_edges n) ++ node_arrows ns (S j) rest'
  end.
(** inspection.rs:146-197: all arrows, those into the graph's outputs last *)
Definition dot_arrows (r : graph_report) : list arrow :=
  node_arrows (gr_nodes r) 0 (gr_nodes r) ++ flat_map (arrow_of (gr_nodes r) None) (gr_outs r).

(** [disconnected_nodes] is set by [calculate_node_order] (graph.rs:2058), so it is carried along beside the
    state of [RuntimeModel], which stores [node_order]. *)
Section Steps.
Variables St X : Type.
Variable proc : X -> key -> St -> St.
(** graph.rs:2058: the nodes are found anew with every order *)
Definition disc_step (y : sys St X) (disc : list key) (o : yop X) : option (list key) :=
  match o with
  | YCommit _ =>
      g1 <- free_old (applied_fn St X y) (y_g _ _ y) ;;
      if g_recalc g1 then o2 <- node_order2 g1 ;; Some (snd o2) else Some disc
  | _ => Some disc
  end.
(** plumbing: any sequence of steps *)
Fixpoint irun (y : sys St X) (disc : list key) (ops : list (yop X)) : option (sys St X * list key) :=
  match ops with
  | [] => Some (y, disc)
  | o :: ops' =>
      y' <- ystep St X proc y o ;;
      disc' <- disc_step y disc o ;;
      irun y' disc' ops'
  end.
(** graph.rs:1803-1860 [inspection] *)
Definition inspect (yd : sys St X * list key) : option graph_report :=
  inspection (y_g _ _ (fst yd)) (y_order _ _ (fst yd)) (snd yd).
End Steps.
