(** Graphs inside graphs: knaster_graph/src/graph.rs:1416-1459 (subgraph, subgraph_init), graph_gen.rs:73-245. The graph generator of
    the inner graph is a node of the outer one: task.rs:25-31 hands it the blocks on the inputs of the node and the memory for its outputs, with the
    block size and the sample rate of the outer graph (graph.rs:1422, 1446). It has its own memory and its own nodes, and no parameters
    (graph_gen.rs:257). Self-removal of graphs is in [FreedModel], changes of the plan between blocks are in [SessionModel]. *)
From Verif Require Import Base GraphModel OrderModel AllocModel RenderModel.
Local Open Scope nat_scope.

(** A graph with the plan it currently runs, and the graphs that are nodes of it. *)
Inductive net := Net (g : graph) (td : task_data) (sub : key -> option net).
(** the graph itself *)
Definition net_graph (n : net) : graph := match n with Net g _ _ => g end.

Section Nest.
Variable F : Type.
Variable zero : F.
Variable St : Type.
(** Behaviour of a node that is not a graph. The first argument is its path: the keys of the graphs around it, innermost first, starting
    with its own key. *)
Variable proc : list key -> St -> list (list F) -> list (N * list F) -> St * (nat -> nat -> F).
Variable bs : nat.

(** State of a node: that of a generator, or the memory and the node states of an inner graph. *)
Inductive nstate := Leaf (s : St) | Inner (m : nat -> F) (st : key -> nstate).

(** graph_gen.rs:73-245, with task.rs:25-31 for the nodes *)
Fixpoint nrender (n : net) (p : list key) (gin : nat -> list F) (ms : memory F * (key -> nstate)) : memory F * (key -> nstate) * list (list F) :=
  match n with
  | Net g td sub =>
      render F zero nstate
        (fun k s ins pars =>
           match sub k with
           | None => match s with Leaf x => let r := proc (k :: p) x ins pars in (Leaf (fst r), snd r) | Inner _ _ => (s, fun _ _ => zero) end
           | Some n' =>
               match s with
               | Inner m st => let '(ms', o) := nrender n' (k :: p) (fun c => nth c ins (repeat zero bs)) (m, st) in
                               (Inner (fst ms') (snd ms'), fun c i => nth i (nth c o []) zero)
               | Leaf _ => (s, fun _ _ => zero)
               end
           end) bs td gin ms
  end.
(** What node [k] of a graph at path [p] does. *)
Definition nproc (sub : key -> option net) (p : list key) (k : key) (s : nstate) (ins : list (list F)) (pars : list (N * list F))
  : nstate * (nat -> nat -> F) :=
  match sub k with
  | None => match s with Leaf x => let r := proc (k :: p) x ins pars in (Leaf (fst r), snd r) | Inner _ _ => (s, fun _ _ => zero) end
  | Some n' =>
      match s with
      | Inner m st => let '(ms', o) := nrender n' (k :: p) (fun c => nth c ins (repeat zero bs)) (m, st) in
                      (Inner (fst ms') (snd ms'), fun c i => nth i (nth c o []) zero)
      | Leaf _ => (s, fun _ _ => zero)
      end
  end.
(** plumbing: block after block *)
Fixpoint nrender_n (n : net) (gins : list (nat -> list F)) (ms : memory F * (key -> nstate)) : memory F * (key -> nstate) * list (list (list F)) :=
  match gins with
  | [] => (ms, [])
  | gin :: gins' => let '(ms1, o) := nrender n [] gin ms in let '(ms2, os) := nrender_n n gins' ms1 in (ms2, o :: os)
  end.
End Nest.
Arguments Leaf {F St}. Arguments Inner {F St}.
