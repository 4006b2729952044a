(** A graph being edited, committed and rendered.  A commit takes effect before the next block (the hand-over
    between the threads is in the Runtime model). *)
From Verif Require Import Base GraphModel OrderModel AllocModel RenderModel.
Local Open Scope nat_scope.

Section Session.
Variable F : Type.
Variable zero : F.
Variable St : Type.
Variable proc : key -> St -> list (list F) -> list (N * list F) -> St * (nat -> nat -> F).
Variable bs : nat.

(** [s_planned] is a ghost: the graph for which the current tasks were made. *)
Record session := mk_session {
  s_graph : graph; s_alloc : alloc; s_old : key -> bool; s_td : task_data; s_mem : memory F; s_st : key -> St;
  s_planned : graph }.
(** graph.rs:203-333: a new allocation of four blocks, no tasks, no connected output *)
Definition session_new (g : graph) (st : key -> St) : session :=
  mk_session g (alloc_new (bs * 4)) (fun _ => false) (mk_td [] (map (fun _ => None) (g_outs g))) (fun _ => zero) st g.

(** an edit (ended by a commit or not), or a block of audio *)
Inductive sop := SEdit (o : op) | SBlock (gin : nat -> list F).
(** graph.rs:1707-1726 [commit_changes]; a larger allocation is a new one, filled with zeros
    (graph.rs:120-127) *)
Definition session_commit (s : session) (applied : nat -> bool) : option session :=
  g1 <- free_old applied (s_graph s) ;;
  if g_recalc g1 then
    at_ <- plan g1 bs (s_alloc s) (s_old s) ;;
    let '(a1, td) := at_ in
    Some (mk_session (set_recalc (set_flag g1 (S (g_flag g1))) false) a1
            (fun k => s_old s k || mem k (map t_key (td_tasks td))) td
            (if a_size a1 =? a_size (s_alloc s) then s_mem s else fun _ => zero) (s_st s) g1)
  else Some (mk_session g1 (s_alloc s) (s_old s) (s_td s) (s_mem s) (s_st s) (s_planned s)).
(** an edit as in [GraphModel.step], with the new plan if it is a commit (graph.rs:1707-1726); a block as in [RenderModel.render] *)
Definition session_step (s : session) (o : sop) : option (session * list (list F)) :=
  match o with
  | SEdit (OpCommit fl) => s' <- session_commit s (fun f => existsb (Nat.eqb f) fl) ;; Some (s', [])
  | SEdit o =>
      gr <- step (s_graph s) o ;;
      Some (mk_session (fst gr) (s_alloc s) (s_old s) (s_td s) (s_mem s) (s_st s) (s_planned s), [])
  | SBlock gin =>
      let '(m, st, out) := render F zero St proc bs (s_td s) gin (s_mem s, s_st s) in
      Some (mk_session (s_graph s) (s_alloc s) (s_old s) (s_td s) m st (s_planned s), out)
  end.
(** Sessions in which the graph never has 2^64-1 connections or more. *)
Definition few_links (g : graph) : Prop :=
  (N.of_nat (List.length (flat_map (sources g) (map fst (g_nodes g)))) < usize_max)%N.
(** all states a session can reach *)
Inductive in_session : session -> Prop :=
| is_new id inputs outputs slots st : in_session (session_new (graph_new id inputs outputs slots) st)
| is_step s o s' out : in_session s -> session_step s o = Some (s', out) -> few_links (s_planned s') -> in_session s'.
End Session.
