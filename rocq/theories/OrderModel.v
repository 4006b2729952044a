(** Model of the node ordering of knaster_graph/src/graph.rs, on the graph of [GraphModel].
    [visited] (a [HashSet]) is a list of keys; [None] is a panic.  Fuel exhaustion is also [None] and is
    proved impossible. *)
From Verif Require Import Base GraphModel.
Local Open Scope nat_scope.

(** [visited.contains(k)] of the [HashSet] (graph.rs:1944-2018) *)
Definition mem (k : key) (l : list key) : bool := existsb (Nat.eqb k) l.

(** graph.rs:1993-2008, the two inner loops of [get_deepest_output_node]: the first node, in slot order,
    one of whose inputs (feedback ones included) comes from [k] *)
Definition reads_from (k : key) (n : node) : bool :=
  match n_edges n with
  | Some es => existsb (fun o => match o with Some e => from_key k e | None => false end) es
  | None => false
  end.
(** graph.rs:1993-2008: the same, over all nodes *)
Definition next_reader (g : graph) (k : key) : option key :=
  option_map fst (find (fun kn => reads_from k (snd kn)) (g_nodes g)).
(** graph.rs:1998-2004: some graph output comes from [k] *)
Definition is_out (g : graph) (k : key) : bool :=
  existsb (fun o => match o with Some e => from_key k e | None => false end) (g_outs g).
(** graph.rs:1984-2018 [get_deepest_output_node] *)
Fixpoint deepest_loop (g : graph) (visited : list key) (fuel : nat) (last last_out : key) : option key :=
  if mem last visited then Some last_out
  else match next_reader g last with
  | None => Some last_out
  | Some k =>
      match fuel with
      | O => None
      | S fuel' => deepest_loop g visited fuel' k (if is_out g k then k else last_out)
      end
  end.
(** graph.rs:1984-2018, with enough fuel *)
Definition deepest (g : graph) (visited : list key) (start : key) : option key :=
  deepest_loop g visited (S (List.length (g_nodes g))) start start.

(** graph.rs:1951-1974: the first source of [k] not visited yet: ordinary audio connections, then
    parameter links.  Both [node_input_edges[k]] and [node_parameter_edges[k]] panic for a key without
    an entry. *)
Definition audio_sources (es : list (option edge)) : list key :=
  flat_map (fun o => match o with
                     | Some e => if e_fb e then [] else match e_src e with Some s => [s] | None => [] end
                     | None => [] end) es.
(** graph.rs:1951-1974: the search itself *)
Definition next_source (g : graph) (visited : list key) (k : key) : option (option key) :=
  es <- edges_of g k ;;
  match find (fun s => negb (mem s visited)) (audio_sources es) with
  | Some s => Some (Some s)
  | None =>
      ps <- pedges_of g k ;;
      Some (find (fun s => negb (mem s visited)) (map p_src ps))
  end.
(** graph.rs:1938-1980 [depth_first_search].  The head of [stack] is the last element of
    [nodes_to_process]; [out] is [node_order] reversed. *)
Fixpoint dfs (g : graph) (fuel : nat) (visited stack out : list key) : option (list key * list key) :=
  match stack with
  | [] => Some (visited, rev out)
  | k :: stack' =>
      match fuel with
      | O => None
      | S fuel' =>
          r <- next_source g visited k ;;
          match r with
          | Some s => dfs g fuel' (s :: visited) (s :: stack) out
          | None => dfs g fuel' visited stack' (k :: out)
          end
      end
  end.

(** graph.rs:2022-2041: the start nodes, last one first *)
Fixpoint roots_loop (g : graph) (outs : list (option edge)) (visited : list key) : option (list key) :=
  match outs with
  | [] => Some visited
  | Some (mk_edge (Some s) _ _) :: outs' =>
      d <- deepest g visited s ;;
      roots_loop g outs' (if mem d visited then visited else d :: visited)
  | _ :: outs' => roots_loop g outs' visited
  end.
(** graph.rs:2022-2041 *)
Definition roots (g : graph) : option (list key) := roots_loop g (g_outs g) [].

(** graph.rs:2022-2067 [calculate_node_order]: the connected part and the rest *)
Definition node_order2 (g : graph) : option (list key * list key) :=
  r <- roots g ;;
  vo <- dfs g (2 * List.length (g_nodes g) + List.length r) r r [] ;;
  let '(visited, ord) := vo in
  Some (ord, filter (fun k => negb (mem k visited) && negb (is_pending g k)) (map fst (g_nodes g))).
(** graph.rs:2022-2067 [calculate_node_order] *)
Definition node_order (g : graph) : option (list key) :=
  o <- node_order2 g ;; Some (fst o ++ snd o).
