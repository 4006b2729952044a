(** Model of the names of nodes: knaster_graph/src/graph.rs:344-366, 433-450, 2150-2165 and graph_edit.rs:126-145, 730-733, 824-827.
    Names are kept beside the graph of [GraphModel], by key. The name a node gets when it is pushed ([shorten_name] of the name of its
    type, or that of a subgraph) is read from an arbitrary table; theorems hold for every such table. [None] is a panic. *)
From Coq Require Import Ascii.
From Verif Require Import Base GraphModel.
Local Open Scope nat_scope.
Local Notation length := List.length.

(** node.rs:50-85 [name], by key *)
Definition names := key -> string.
(** the graph with the names *)
Record named := mk_named { nm_g : graph; nm_names : names }.
(** graph.rs:435-437 [set_name]: indexing panics if there is no such node; the graph of the id is not looked at *)
Definition set_name (x : named) (id : node_id) (s : string) : option named :=
  _ <- lookup (nm_g x) (id_key id);;
  Some (mk_named (nm_g x) (fun k => if k =? id_key id then s else nm_names x k)).
(** graph.rs:352-366 [node_data_from_name], l.440-450 [node_id_with_name]: the first node in slot order *)
Definition find_name (x : named) (s : string) : option node_id :=
  option_map (fun kn => mk_id (fst kn) (g_id (nm_g x))) (find (fun kn => String.eqb (nm_names x (fst kn)) s) (g_nodes (nm_g x))).
(** graph.rs:344-350 [node_data]; graph_edit.rs:126-132 [GraphEdit::handle] *)
Definition find_node (x : named) (id : node_id) : option node :=
  if negb (id_graph id =? g_id (nm_g x))%N then None else lookup (nm_g x) (id_key id).

(** an edit, or a name is given (graph_edit.rs:730-733, 824-827) *)
Inductive nop := NEdit (o : op) | NName (id : node_id) (s : string).
(** one of these; a pushed node gets the name of the table *)
Definition nstep (x : named) (o : nop) : option named :=
  match o with
  | NEdit o => r <- step (nm_g x) o;; Some (mk_named (fst r) (nm_names x))
  | NName id s => set_name x id s
  end.
(** plumbing: any sequence of them *)
Fixpoint nrun (x : named) (l : list nop) : option named := match l with [] => Some x | o :: l => y <- nstep x o;; nrun y l end.

(** graph.rs:2150-2165 [shorten_name], on characters. [split_inclusive]: pieces end with a delimiter; there is no empty last piece. *)
Definition is_delim (c : ascii) : bool := existsb (Ascii.eqb c) ["<"; ">"; ";"; "("; ")"; "["; "]"]%char.
(** graph.rs:2150-2165: [split_inclusive] *)
Fixpoint pieces (cur : list ascii) (l : list ascii) : list (list ascii) :=
  match l with
  | [] => match cur with [] => [] | _ => [cur] end
  | c :: l => if is_delim c then (cur ++ [c]) :: pieces [] l else pieces (cur ++ [c]) l
  end.
(** [rsplit_once(':')], the part after *)
Fixpoint after_colon (l : list ascii) : option (list ascii) :=
  match l with
  | [] => None
  | c :: l => match after_colon l with Some r => Some r | None => if Ascii.eqb c ":" then Some l else None end
  end.
(** graph.rs:2150-2165: one round of the loop *)
Definition push_piece (short piece : list ascii) : list ascii :=
  let s := short ++ match after_colon piece with Some r => r | None => piece end in
  match rev s with c :: _ => if (Ascii.eqb c "," || Ascii.eqb c ";")%bool then s ++ [" "%char] else s | [] => s end.
(** graph.rs:2150-2165: the loop *)
Definition shorten (l : list ascii) : list ascii := fold_left push_piece (pieces [] l) [].
(** graph.rs:2150-2165 [shorten_name] *)
Definition shorten_name (s : string) : string := string_of_list_ascii (shorten (list_ascii_of_string s)).
