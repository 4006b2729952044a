(** Model of the graph editing part of knaster_graph/src/graph.rs (and [GraphEdit::free_node],
    graph_edit.rs:158-168): nodes, connections, frees, and the clean-up done by a commit.

    Simplifications.
    - A [NodeKey] (slot index and version) never repeats; it is a fresh number here.  Where in the
      slot order of the [SlotMap] a new node ends up (which depends on which slots were freed before)
      is read from an arbitrary list [g_slots]; theorems hold for every such list.
    - [node_input_edges], [node_parameter_edges] and [node_mortality] are [SecondaryMap]s with the same
      keys; their entry for a node is stored in the node ([None] = entry removed).  All of them iterate
      in slot order.
    - Channel numbers ([u16]) are [nat]; parameter indices are [N] because they are truncated to 16 bits.
    - Names, UGens, buffers and task data are not part of this file (see the Order, Alloc, Render and
      Runtime models).
    [None] is a panic. *)
From Coq Require Export String.
From Verif Require Import Base.
Local Open Scope nat_scope.

(** graph.rs:54-56 [NodeKey]; keys are numbered in the order in which they are made *)
Definition key := nat.

(** edge.rs:4-15 [Edge], [NodeKeyOrGraph]; [e_src = None] is [NodeKeyOrGraph::Graph] *)
Record edge := mk_edge { e_src : option key; e_chan : nat; e_fb : bool }.
(** edge.rs:49-54 [ParameterEdge] *)
Record pedge := mk_pedge { p_src : key; p_chan : nat; p_idx : N }.

(** node.rs:50-85 [Node], with the node's entries in the three secondary maps of [Graph] *)
Record node := mk_node {
  n_inputs : nat;
  n_outputs : nat;
  n_pdesc : list string;          (** parameter descriptions; one per parameter *)
  n_auto_math : bool;
  n_auto_free : bool;
  n_strong : option key;
  n_remove_me : option bool;      (** the [remove_me] flag, if the node has one *)
  n_edges : option (list (option edge));
  n_pedges : option (list pedge);
  n_mortal : bool }.

(** assignment to the node's entry in [node_input_edges] (graph.rs:156-196) *)
Definition n_set_edges (n : node) (es : option (list (option edge))) : node :=
  mk_node (n_inputs n) (n_outputs n) (n_pdesc n) (n_auto_math n) (n_auto_free n) (n_strong n)
          (n_remove_me n) es (n_pedges n) (n_mortal n).
(** assignment to the node's entry in [node_parameter_edges] (graph.rs:156-196) *)
Definition n_set_pedges (n : node) (ps : option (list pedge)) : node :=
  mk_node (n_inputs n) (n_outputs n) (n_pdesc n) (n_auto_math n) (n_auto_free n) (n_strong n)
          (n_remove_me n) (n_edges n) ps (n_mortal n).
(** assignment to the node's entry in the map of mortality (graph.rs:2082-2100) *)
Definition n_set_mortal (n : node) (m : bool) : node :=
  mk_node (n_inputs n) (n_outputs n) (n_pdesc n) (n_auto_math n) (n_auto_free n) (n_strong n)
          (n_remove_me n) (n_edges n) (n_pedges n) m.
(** graph.rs:879 [auto_math_node = true] *)
Definition n_set_math (n : node) : node :=
  mk_node (n_inputs n) (n_outputs n) (n_pdesc n) true (n_auto_free n) (n_strong n)
          (n_remove_me n) (n_edges n) (n_pedges n) (n_mortal n).
(** graph.rs:903-906: the assignments to one half of a feedback pair *)
Definition n_set_pair (dep : key) (n : node) : node :=
  mk_node (n_inputs n) (n_outputs n) (n_pdesc n) (n_auto_math n) true (Some dep)
          (n_remove_me n) (n_edges n) (n_pedges n) (n_mortal n).
(** the audio thread sets the [remove_me] flag of a node that has one (see [OpRaise]) *)
Definition n_raise (n : node) : node :=
  mk_node (n_inputs n) (n_outputs n) (n_pdesc n) (n_auto_math n) (n_auto_free n) (n_strong n)
          (match n_remove_me n with Some _ => Some true | None => None end)
          (n_edges n) (n_pedges n) (n_mortal n).

(** graph.rs:156-196 [Graph].  [g_pending] is [node_keys_to_free_when_safe]; flags ([Arc<AtomicBool>])
    are numbers, [g_flag] is the [next_change_flag]. *)
Record graph := mk_graph {
  g_id : N;
  g_inputs : nat;
  g_outputs : nat;
  g_nodes : list (key * node);    (** in slot order *)
  g_outs : list (option edge);    (** [output_edges] *)
  g_pending : list (key * nat);
  g_flag : nat;
  g_recalc : bool;
  g_next : key;
  g_slots : list nat }.

(** assignment to a field of [Graph] (graph.rs:156-196) *)
Definition set_nodes (g : graph) (l : list (key * node)) : graph :=
  mk_graph (g_id g) (g_inputs g) (g_outputs g) l (g_outs g) (g_pending g) (g_flag g) (g_recalc g)
           (g_next g) (g_slots g).
(** assignment to [output_edges] (graph.rs:156-196) *)
Definition set_outs (g : graph) (o : list (option edge)) : graph :=
  mk_graph (g_id g) (g_inputs g) (g_outputs g) (g_nodes g) o (g_pending g) (g_flag g) (g_recalc g)
           (g_next g) (g_slots g).
(** assignment to [recalculation_required] (graph.rs:156-196) *)
Definition set_recalc (g : graph) (b : bool) : graph :=
  mk_graph (g_id g) (g_inputs g) (g_outputs g) (g_nodes g) (g_outs g) (g_pending g) (g_flag g) b
           (g_next g) (g_slots g).
(** assignment to [node_keys_to_free_when_safe] (graph.rs:156-196) *)
Definition set_pending (g : graph) (p : list (key * nat)) : graph :=
  mk_graph (g_id g) (g_inputs g) (g_outputs g) (g_nodes g) (g_outs g) p (g_flag g) (g_recalc g)
           (g_next g) (g_slots g).
(** assignment to [next_change_flag] (graph.rs:156-196) *)
Definition set_flag (g : graph) (f : nat) : graph :=
  mk_graph (g_id g) (g_inputs g) (g_outputs g) (g_nodes g) (g_outs g) (g_pending g) f (g_recalc g)
           (g_next g) (g_slots g).

(** graph.rs:203-268 [Graph::new] before the init callback *)
Definition graph_new (id : N) (inputs outputs : nat) (slots : list nat) : graph :=
  mk_graph id inputs outputs [] (repeat None outputs) [] 0 false 0 slots.

(** Slot map access. *)
Fixpoint nlookup (l : list (key * node)) (k : key) : option node :=
  match l with
  | [] => None
  | (k', n) :: l' => if k' =? k then Some n else nlookup l' k
  end.
(** slot map [get_mut] followed by an assignment *)
Definition nupdate (k : key) (f : node -> node) (l : list (key * node)) : list (key * node) :=
  map (fun kn => if fst kn =? k then (fst kn, f (snd kn)) else kn) l.
(** slot map [remove] *)
Definition nremove (k : key) (l : list (key * node)) : list (key * node) :=
  filter (fun kn => negb (fst kn =? k)) l.
(** [nodes.get(k)] *)
Definition lookup (g : graph) (k : key) : option node := nlookup (g_nodes g) k.
(** [nodes.get_mut(k)] followed by an assignment; nothing happens for a key without node *)
Definition update (g : graph) (k : key) (f : node -> node) : graph :=
  set_nodes g (nupdate k f (g_nodes g)).
(** insertion in slot order: the slot map reuses free slots, so a new node can come before older ones *)
Definition insert_at {A} (pos : nat) (x : A) (l : list A) : list A := firstn pos l ++ x :: skipn pos l.
(** [node_input_edges.get(k)] *)
Definition edges_of (g : graph) (k : key) : option (list (option edge)) :=
  n <- lookup g k ;; n_edges n.
(** [node_parameter_edges.get(k)] *)
Definition pedges_of (g : graph) (k : key) : option (list pedge) :=
  n <- lookup g k ;; n_pedges n.

(** graph.rs:462-475 [push_node] *)
Definition push_node (g : graph) (inputs outputs : nat) (pdesc : list string) (remove_me : option bool)
  : graph * key :=
  let k := g_next g in
  let n := mk_node inputs outputs pdesc false false None remove_me
                   (Some (repeat None inputs)) (Some []) true in
  let '(pos, slots) := match g_slots g with [] => (List.length (g_nodes g), []) | p :: s => (p, s) end in
  (mk_graph (g_id g) (g_inputs g) (g_outputs g) (insert_at pos (k, n) (g_nodes g)) (g_outs g)
            (g_pending g) (g_flag g) true (S k) slots, k).

(** [self.node_input_edges[k][ch] = e]: panics if the entry or the channel does not exist *)
Definition set_edge (g : graph) (k : key) (ch : nat) (e : option edge) : option graph :=
  es <- edges_of g k ;;
  es' <- set_nth es ch e ;;
  Some (update g k (fun n => n_set_edges n (Some es'))).
(** [self.node_input_edges[k][ch]] *)
Definition get_edge (g : graph) (k : key) (ch : nat) : option (option edge) :=
  es <- edges_of g k ;; nth_error es ch.

(** graph.rs:874-881 [new_additive_node]: a one channel [MathUGen<Add>], 2 inputs, 1 output *)
Definition new_additive_node (g : graph) : graph * key :=
  let '(g1, k) := push_node g 2 1 [] None in
  (update g1 k n_set_math, k).

(** graph.rs:882-909 [new_feedback_nodes]: both nodes are [FeedbackSink]s (1 input, 0 outputs).
    Returns (source_node, sink_node). *)
Definition new_feedback_nodes (g : graph) : graph * (key * key) :=
  let '(g1, sink) := push_node g 1 0 [] None in
  let '(g2, source) := push_node g1 1 0 [] None in
  (update (update g2 source (n_set_pair sink)) sink (n_set_pair source), (source, sink)).

(** graph.rs:2223-2295 [GraphError], [FreeError], and [ParameterError] *)
Inductive gerr :=
| ECircular | ENodeNotFound | EWrongSource | EWrongSink | EInput (c : nat) | EOutput (c : nat)
| EGraphInput (c : nat) | EGraphOutput (c : nat) | EParamDesc | EParamIndex | EImmortal.
(** [Result<(), GraphError>] as it is returned by the edits *)
Inductive result := Ok | Err (e : gerr).

(** graph.rs:56-65 [NodeId], graph.rs:2299-2306 [NodeOrGraph] *)
Record node_id := mk_id { id_key : key; id_graph : N }.
(** graph.rs:2299-2306 [NodeOrGraph] *)
Inductive node_or_graph := NGraph | NNode (id : node_id).

(** Unary [!] on the [u64] graph id is the bitwise complement *)
Definition not_u64 (x : N) : N := (U64 - 1 - x)%N.
(** The test [!id.graph == self.graph_id] of graph.rs:507, 513, 575, 638, 645, 735, 1356 and
    graph_edit.rs:163 *)
Definition wrong_graph (g : graph) (id : node_id) : bool := (not_u64 (id_graph id) =? g_id g)%N.

(** graph.rs:1462-1483 [has_path].  [vec] used as a stack: the last element is popped, parents are
    pushed in input order.  The list head is the top of the stack. *)
Definition parents (es : list (option edge)) : list key :=
  flat_map (fun o => match o with
                     | Some e => match e_src e with Some p => [p] | None => [] end
                     | None => [] end) es.
(** graph.rs:1467-1480: the loop of [has_path]; [fuel] counts its rounds *)
Fixpoint path_search (g : graph) (from : key) (fuel : nat) (visited stack : list key) : option bool :=
  match stack with
  | [] => Some false
  | k :: stack' =>
      if k =? from then Some true
      else match fuel with
      | O => None
      | S fuel' =>
          if existsb (Nat.eqb k) visited then path_search g from fuel' visited stack'
          else
            let ps := match edges_of g k with Some es => parents es | None => [] end in
            path_search g from fuel' (k :: visited) (rev ps ++ stack')
      end
  end.
(** Every node is expanded at most once, so this many rounds are enough. *)
Definition path_fuel (g : graph) : nat :=
  S (fold_right (fun kn acc => match n_edges (snd kn) with Some es => List.length (parents es) | None => 0 end + acc)
                0 (g_nodes g)).
(** graph.rs:1462-1483 [has_path] *)
Definition has_path (g : graph) (from to : key) : option bool :=
  path_search g from (path_fuel g) [] [to].

(** graph.rs:768-822 [connect_to_node_internal] *)
Definition connect_to_node (g : graph) (source : option key) (sink : key) (so si : nat)
           (additive feedback : bool) : option graph :=
  let g0 := set_recalc g true in
  r <- (if feedback then
          let '(g1, (fb_source, fb_sink)) := new_feedback_nodes g0 in
          g2 <- set_edge g1 fb_sink 0 (Some (mk_edge source so true)) ;;
          Some (g2, Some fb_source)
        else Some (g0, source)) ;;
  let '(g3, source') := r in
  if negb additive then set_edge g3 sink si (Some (mk_edge source' so false))
  else
    existing <- get_edge g3 sink si ;;
    match existing with
    | Some e =>
        let '(g4, add) := new_additive_node g3 in
        g5 <- set_edge g4 add 0 (Some e) ;;
        g6 <- set_edge g5 add 1 (Some (mk_edge source' so false)) ;;
        set_edge g6 sink si (Some (mk_edge (Some add) 0 false))
    | None => set_edge g3 sink si (Some (mk_edge source' so feedback))
    end.

(** graph.rs:827-872 [connect_to_output_internal] *)
Definition connect_to_output (g : graph) (source : option key) (so si : nat) (additive : bool)
  : option graph :=
  let g0 := set_recalc g true in
  if negb additive then
    o <- set_nth (g_outs g0) si (Some (mk_edge source so false)) ;; Some (set_outs g0 o)
  else
    existing <- nth_error (g_outs g0) si ;;
    match existing with
    | Some e =>
        let '(g1, add) := new_additive_node g0 in
        g2 <- set_edge g1 add 0 (Some e) ;;
        g3 <- set_edge g2 add 1 (Some (mk_edge source so false)) ;;
        o <- set_nth (g_outs g3) si (Some (mk_edge (Some add) 0 false)) ;; Some (set_outs g3 o)
    | None =>
        o <- set_nth (g_outs g0) si (Some (mk_edge source so false)) ;; Some (set_outs g0 o)
    end.

(** [expect]ing Ok: run an edit whose checks passed *)
Definition done (g : option graph) : option (graph * result) := g' <- g ;; Some (g', Ok).
(** [return Err(e)] before anything was changed *)
Definition fail (g : graph) (e : gerr) : option (graph * result) := Some (g, Err e).

(** graph.rs:496-545 [connect_nodes_internal] *)
Definition connect_nodes (g : graph) (source sink : node_id) (so si : nat) (additive feedback : bool)
  : option (graph * result) :=
  if wrong_graph g source then fail g EWrongSource
  else if wrong_graph g sink then fail g EWrongSink
  else match lookup g (id_key source) with
  | None => fail g ENodeNotFound
  | Some ns =>
      if n_outputs ns <=? so then fail g (EOutput so)
      else match lookup g (id_key sink) with
      | None => fail g ENodeNotFound
      | Some nk =>
          if n_inputs nk <=? si then fail g (EInput si)
          else
            circular <- (if feedback then Some false else has_path g (id_key sink) (id_key source)) ;;
            if circular then fail g ECircular
            else done (connect_to_node g (Some (id_key source)) (id_key sink) so si additive feedback)
      end
  end.

(** graph.rs:547-566 [connect_input_to_output] *)
Definition connect_input_to_output (g : graph) (so si : nat) (additive : bool) : option (graph * result) :=
  if g_inputs g <=? so then fail g (EGraphInput so)
  else if g_outputs g <=? si then fail g (EGraphOutput si)
  else done (connect_to_output g None so si additive).

(** graph.rs:567-598 [connect_node_to_output] *)
Definition connect_node_to_output (g : graph) (source : node_id) (so si : nat) (additive : bool)
  : option (graph * result) :=
  if wrong_graph g source then fail g EWrongSource
  else if g_outputs g <=? si then fail g (EGraphOutput si)
  else match lookup g (id_key source) with
  | None => fail g ENodeNotFound
  | Some ns =>
      if n_outputs ns <=? so then fail g (EOutput so)
      else done (connect_to_output g (Some (id_key source)) so si additive)
  end.

(** graph.rs:727-761 [connect_input_to_node] *)
Definition connect_input_to_node (g : graph) (sink : node_id) (so si : nat) (additive : bool)
  : option (graph * result) :=
  if wrong_graph g sink then fail g EWrongSink
  else if g_inputs g <=? so then fail g (EGraphInput so)
  else match lookup g (id_key sink) with
  | None => fail g ENodeNotFound
  | Some nk =>
      if n_inputs nk <=? si then fail g (EOutput si)
      else done (connect_to_node g None (id_key sink) so si additive false)
  end.

(** graph.rs:1164-1289 [connect2] (additive), [connect2_replace], [connect2_feedback] (additive,
    feedback) and [connect2_feedback_replace] *)
Definition connect2 (g : graph) (source : node_or_graph) (so si : nat) (sink : node_or_graph)
           (additive feedback : bool) : option (graph * result) :=
  match source, sink with
  | NGraph, NNode k => connect_input_to_node g k so si additive
  | NNode s, NNode k => connect_nodes g s k so si additive feedback
  | NNode s, NGraph => connect_node_to_output g s so si additive
  | NGraph, NGraph => connect_input_to_output g so si additive
  end.

(** knaster_core parameters.rs:90-95 [Param] *)
Inductive param := PIndex (i : N) | PDesc (d : string).
(** [descriptions.position(..)]: graph.rs:657 *)
Fixpoint position (d : string) (l : list string) : option nat :=
  match l with
  | [] => None
  | x :: l' => if String.eqb x d then Some 0 else option_map S (position d l')
  end.

(** [Vec::swap_remove] *)
Definition swap_remove {A} (l : list A) (i : nat) : option (list A) :=
  match rev l with
  | [] => None
  | last :: r =>
      let init := rev r in
      if i =? List.length init then Some init else set_nth init i last
  end.
(** the search for the link to a parameter, by its index (graph.rs:684-687) *)
Fixpoint find_param (idx : N) (l : list pedge) : option nat :=
  match l with
  | [] => None
  | p :: l' => if (p_idx p =? idx)%N then Some 0 else option_map S (find_param idx l')
  end.

(** graph.rs:629-726 [connect_node_to_parameter]: indexing the sink panics if it does not exist; the
    index is truncated to 16 bits and not compared to the number of parameters *)
Definition connect_to_parameter (g : graph) (source : node_id) (so : nat) (p : param) (sink : node_id)
           (additive : bool) : option (graph * result) :=
  if wrong_graph g source then fail g EWrongSource
  else if wrong_graph g sink then fail g EWrongSink
  else
    nk <- lookup g (id_key sink) ;;
    match (match p with
           | PIndex i => Some (as_u16 i)
           | PDesc d => option_map (fun i => as_u16 (N.of_nat i)) (position d (n_pdesc nk))
           end) with
    | None => fail g EParamDesc
    | Some idx =>
        match lookup g (id_key source) with
        | None => fail g ENodeNotFound
        | Some ns =>
            if n_outputs ns <=? so then fail g (EOutput so)
            else
              edges <- pedges_of g (id_key sink) ;;
              let new := mk_pedge (id_key source) so idx in
              if additive then
                match find_param idx edges with
                | Some pos =>
                    existing <- nth_error edges pos ;;
                    edges' <- swap_remove edges pos ;;
                    let g1 := update g (id_key sink) (fun n => n_set_pedges n (Some edges')) in
                    let '(g2, add) := new_additive_node g1 in
                    g3 <- set_edge g2 add 0 (Some (mk_edge (Some (p_src existing)) (p_chan existing) false)) ;;
                    g4 <- set_edge g3 add 1 (Some (mk_edge (Some (id_key source)) so false)) ;;
                    done (Some (update g4 (id_key sink)
                                  (fun n => n_set_pedges n (Some (edges' ++ [mk_pedge add 0 idx])))))
                | None =>
                    done (Some (update g (id_key sink) (fun n => n_set_pedges n (Some (edges ++ [new])))))
                end
              else
                done (Some (update g (id_key sink) (fun n => n_set_pedges n
                  (Some (filter (fun pe => negb (p_idx pe =? idx)%N) edges ++ [new])))))
        end
    end.

(** Clearing every edge that satisfies a test, in all nodes (the loops of graph.rs:1034-1049,
    1747-1790) *)
Definition clear_if (P : edge -> bool) (o : option edge) : option edge :=
  match o with Some e => if P e then None else Some e | None => None end.
(** the loop over [node_input_edges] (graph.rs:1034-1049, 1747-1790) *)
Definition map_edges (f : option edge -> option edge) (l : list (key * node)) : list (key * node) :=
  map (fun kn => (fst kn, n_set_edges (snd kn) (option_map (map f) (n_edges (snd kn))))) l.
(** the test of these loops: the edge comes from that node (graph.rs:1747-1790) *)
Definition from_key (k : key) (e : edge) : bool :=
  match e_src e with Some s => s =? k | None => false end.
(** graph.rs:1740-1746: the node is already in [node_keys_to_free_when_safe] *)
Definition is_pending (g : graph) (k : key) : bool := existsb (fun p => fst p =? k) (g_pending g).

(** graph.rs:1732-1799 [free_node_from_key].  The recursion through [strong_dependent] stops at nodes
    already pending; [fuel] counts the nodes. *)
Fixpoint free_node_fuel (fuel : nat) (g : graph) (k : key) : option (graph * result) :=
  match lookup g k with
  | None => fail g ENodeNotFound
  | Some n =>
      if negb (n_mortal n) then fail g EImmortal
      else if is_pending g k then Some (g, Ok)
      else
        let nodes1 := nupdate k (fun n => n_set_pedges (n_set_edges n None) None) (g_nodes g) in
        let nodes2 := map_edges (clear_if (from_key k)) nodes1 in
        let outs := map (clear_if (from_key k)) (g_outs g) in
        let g1 := set_pending (set_recalc (set_outs (set_nodes g nodes2) outs) true)
                              (g_pending g ++ [(k, g_flag g)]) in
        match n_strong n with
        | None => Some (g1, Ok)
        | Some dep =>
            match fuel with
            | O => None
            | S fuel' => r <- free_node_fuel fuel' g1 dep ;; Some (fst r, Ok)
            end
        end
  end.
(** graph.rs:1732-1799 [free_node_from_key], with enough fuel *)
Definition free_node (g : graph) (k : key) : option (graph * result) :=
  free_node_fuel (S (List.length (g_nodes g))) g k.
(** [self.free_node_from_key(k).ok()] *)
Definition free_ok (g : graph) (k : key) : option graph := r <- free_node g k ;; Some (fst r).

(** graph_edit.rs:158-168 [GraphEdit::free_node] *)
Definition edit_free (g : graph) (id : node_id) : option (graph * result) :=
  if wrong_graph g id then fail g EWrongSink else free_node g (id_key id).

(** [*edge = input_edge] for every edge coming from [k] (graph.rs:1108-1117) *)
Definition redirect (k : key) (e : edge) (o : option edge) : option edge :=
  match o with Some e' => if from_key k e' then Some e else Some e' | None => None end.

(** graph.rs:1098-1161 [evaluate_if_node_should_be_removed] *)
Definition evaluate (g : graph) (k : key) : option graph :=
  n <- lookup g k ;;
  g1 <- (if n_auto_math n then
           if negb ((n_inputs n =? 2) && (n_outputs n =? 1)) then None
           else match n_edges n with
           | None => Some g
           | Some es =>
               e0 <- nth_error es 0 ;;
               e1 <- nth_error es 1 ;;
               match e0, e1 with
               | Some _, Some _ => Some g
               | None, Some e | Some e, None =>
                   (** graph.rs:1118-1125: [edge.as_mut().unwrap()] on every graph output *)
                   if existsb (fun o => match o with None => true | Some _ => false end) (g_outs g)
                   then None
                   else
                     let g' := set_outs (set_nodes g (map_edges (redirect k e) (g_nodes g)))
                                        (map (redirect k e) (g_outs g)) in
                     free_ok g' k
               | None, None => free_ok g k
               end
           end
         else Some g) ;;
  n' <- lookup g1 k ;;
  if n_auto_free n' then
    let has_input := match n_edges n' with
                     | Some es => existsb (fun o => match o with Some _ => true | None => false end) es
                     | None => false end in
    let has_reader := existsb (fun kn => match n_edges (snd kn) with
                        | Some es => existsb (fun o => match o with Some e => from_key k e | None => false end) es
                        | None => false end) (g_nodes g1) in
    if has_input || has_reader then Some g1 else free_ok g1 k
  else Some g1.

(** The edge test of graph.rs:1036-1040 *)
Definition from_output (s : option key) (ch : nat) (e : edge) : bool :=
  (e_chan e =? ch) &&
  match s, e_src e with
  | Some a, Some b => a =? b
  | None, None => true
  | _, _ => false
  end.

(** graph.rs:997-1053 [disconnect_output_from_source].  For the graph inputs, the code also takes
    [output_edges[source_channel]] (graph.rs:1025). *)
Definition disconnect_output (g : graph) (source : node_or_graph) (ch : nat) : option (graph * result) :=
  let finish (g : graph) (s : option key) :=
    let g1 := set_nodes g (map_edges (clear_if (from_output s ch)) (g_nodes g)) in
    let g2 := set_outs g1 (map (clear_if (from_output s ch)) (g_outs g1)) in
    Some (set_recalc g2 true, Ok) in
  match source with
  | NNode id =>
      if negb (id_graph id =? g_id g)%N then fail g EWrongSink
      else match lookup g (id_key id) with
      | None => fail g ENodeNotFound
      | Some n => if n_outputs n <=? ch then fail g (EOutput ch) else finish g (Some (id_key id))
      end
  | NGraph =>
      if g_inputs g <=? ch then fail g (EGraphInput ch)
      else
        o <- nth_error (g_outs g) ch ;;
        outs <- set_nth (g_outs g) ch None ;;
        let g1 := set_outs g outs in
        g2 <- match o with
              | Some e => match e_src e with Some s => evaluate g1 s | None => Some g1 end
              | None => Some g1
              end ;;
        finish g2 None
  end.

(** graph.rs:1055-1096 [disconnect_input_to_sink] *)
Definition disconnect_input (g : graph) (ch : nat) (sink : node_or_graph) : option (graph * result) :=
  match sink with
  | NNode id =>
      if negb (id_graph id =? g_id g)%N then fail g EWrongSink
      else match lookup g (id_key id) with
      | None => fail g ENodeNotFound
      | Some n =>
          es <- n_edges n ;;
          if List.length es <=? ch then fail g (EInput ch)
          else
            o <- nth_error es ch ;;
            g1 <- set_edge g (id_key id) ch None ;;
            g2 <- match o with
                  | Some e =>
                      g' <- evaluate g1 (id_key id) ;;
                      match e_src e with Some s => evaluate g' s | None => Some g' end
                  | None => Some g1
                  end ;;
            Some (set_recalc g2 true, Ok)
      end
  | NGraph =>
      if g_outputs g <=? ch then fail g (EGraphOutput ch)
      else
        o <- nth_error (g_outs g) ch ;;
        outs <- set_nth (g_outs g) ch None ;;
        let g1 := set_outs g outs in
        g2 <- match o with
              | Some e => match e_src e with Some s => evaluate g1 s | None => Some g1 end
              | None => Some g1
              end ;;
        Some (g2, Ok)
  end.

(** graph.rs:2082-2094 [set_mortality] (the graph id of the node is not looked at) *)
Definition set_mortality (g : graph) (id : node_id) (m : bool) : graph * result :=
  match lookup g (id_key id) with
  | None => (g, Err ENodeNotFound)
  | Some _ => (update g (id_key id) (fun n => n_set_mortal n m), Ok)
  end.

(** graph.rs:1879-1934 [free_old], without the buffers.  [applied] tells which flags the audio thread
    has set. *)
Fixpoint fold_opt {A} (f : graph -> A -> option graph) (g : graph) (l : list A) : option graph :=
  match l with
  | [] => Some g
  | x :: l' => g' <- f g x ;; fold_opt f g' l'
  end.
(** graph.rs:1880-1888: the nodes whose [remove_me] flag is set *)
Definition raised (l : list (key * node)) : list key :=
  map fst (filter (fun kn => match n_remove_me (snd kn) with Some b => b | None => false end) l).
(** graph.rs:1879-1934 [free_old] *)
Definition free_old (applied : nat -> bool) (g : graph) : option graph :=
  g1 <- fold_opt free_ok g (raised (g_nodes g)) ;;
  g2 <- fold_opt evaluate g1 (map fst (g_nodes g1)) ;;
  let gone := map fst (filter (fun p => applied (snd p)) (g_pending g2)) in
  Some (set_pending
          (set_nodes g2 (filter (fun kn => negb (existsb (Nat.eqb (fst kn)) gone)) (g_nodes g2)))
          (filter (fun p => negb (applied (snd p))) (g_pending g2))).

(** graph.rs:1707-1726 [commit_changes], editing part: node order, buffers and task data are in the
    Order and Alloc models, the hand-over in the Runtime model. *)
Definition commit_edit (applied : nat -> bool) (g : graph) : option graph :=
  g1 <- free_old applied g ;;
  if g_recalc g1 then Some (set_recalc (set_flag g1 (S (g_flag g1))) false) else Some g1.

(** The public edit operations, as one step function.  [OpRaise] is the audio thread setting a node's
    [remove_me] flag. *)
Inductive op :=
| OpPush (inputs outputs : nat) (pdesc : list string) (with_done : bool)
| OpConnect (source : node_or_graph) (so si : nat) (sink : node_or_graph) (additive feedback : bool)
| OpConnectParam (source : node_id) (so : nat) (p : param) (sink : node_id) (additive : bool)
| OpDisconnectOut (source : node_or_graph) (ch : nat)
| OpDisconnectIn (ch : nat) (sink : node_or_graph)
| OpFree (id : node_id)
| OpMortality (id : node_id) (m : bool)
| OpRaise (k : key)
| OpCommit (applied : list nat).

(** dispatch of the public edit operations; what each of them models is said at its definition *)
Definition step (g : graph) (o : op) : option (graph * result) :=
  match o with
  | OpPush i u d w => Some (fst (push_node g i u d (if w then Some false else None)), Ok)
  | OpConnect s so si k a f => connect2 g s so si k a f
  | OpConnectParam s so p k a => connect_to_parameter g s so p k a
  | OpDisconnectOut s ch => disconnect_output g s ch
  | OpDisconnectIn ch k => disconnect_input g ch k
  | OpFree id => edit_free g id
  | OpMortality id m => Some (set_mortality g id m)
  | OpRaise k => Some (update g k n_raise, Ok)
  | OpCommit fl => done (commit_edit (fun f => existsb (Nat.eqb f) fl) g)
  end.

(** A history: every operation runs without a panic, results may be errors. *)
Fixpoint run (g : graph) (ops : list op) : option graph :=
  match ops with
  | [] => Some g
  | o :: ops' => r <- step g o ;; run (fst r) ops'
  end.
