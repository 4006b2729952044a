(** What names are for. *)
From Coq Require Import Ascii.
From Verif Require Import Base GraphModel NameModel.
Local Open Scope nat_scope.

(** [k] is in the graph, has the name, and is the only one with it *)
Definition only_one (x : named) (k : key) (s : string) : Prop :=
  In k (map fst (g_nodes (nm_g x))) /\ nm_names x k = s /\ forall k', In k' (map fst (g_nodes (nm_g x))) -> nm_names x k' = s -> k' = k.
(** No renaming of [k] *)
Definition keeps (k : key) (l : list nop) : Prop := forall id s, In (NName id s) l -> id_key id <> k.

(** The name of a type as the compiler writes it: paths ([a::b::c]), each followed by one of the delimiters (the last one perhaps
    not). Here one path between delimiters, that is, no type with two or more parameters. *)
Record part := mk_part { p_path : list (list ascii); p_last : list ascii; p_delim : option ascii }.
Definition word (w : list ascii) : Prop := forall c, In c w -> is_delim c = false /\ c <> ":"%char /\ c <> ","%char.
Definition colons : list ascii := [":"; ":"]%char.
Definition delim_text (d : option ascii) : list ascii := match d with Some c => [c] | None => [] end.
Definition part_text (p : part) : list ascii := List.concat (map (fun w => w ++ colons) (p_path p)) ++ p_last p ++ delim_text (p_delim p).
Definition full_text (ps : list part) : list ascii := List.concat (map part_text ps).
(** Only the last name of each path; a blank after each [;] *)
Definition short_text (ps : list part) : list ascii :=
  List.concat (map (fun p => p_last p ++ delim_text (p_delim p) ++ match p_delim p with Some ";"%char => [" "%char] | _ => [] end) ps).
(** Words are words, delimiters are delimiters, and only the last part may be without one (then it is not empty) *)
Fixpoint well_formed (ps : list part) : Prop :=
  match ps with
  | [] => True
  | p :: ps => (forall w, In w (p_path p) -> word w) /\ word (p_last p) /\
      match p_delim p with Some c => is_delim c = true | None => ps = [] /\ p_last p <> [] end /\ well_formed ps
  end.
