(** The hand-over between the editing thread and the audio thread: who owns each UGen, task lists travelling
    through the ring buffer, change flags, and the clean-up of removed nodes.  What a node computes is left
    open: [proc x k s] is the state of the UGen of node [k] after a block, where [x] stands for everything
    else the block depends on (inputs, parameter changes). *)
From Verif Require Import Base GraphModel OrderModel.
Local Open Scope nat_scope.

Section Runtime.
Variables St X : Type.
Variable init : key -> St.
Variable proc : X -> key -> St -> St.

(** node.rs [NodeUGen]: the UGen is still in the node, or in the task with this index *)
Inductive nugen := NLocal (s : St) | NLive (i : nat).
(** dynugen.rs [UGenEnum]: a UGen, "take it from that task of the previous list", or taken *)
Inductive tugen := Own (s : St) | Take (j : nat) | Gone.
(** task.rs:71-99 [TaskData]: the change flag (numbered; [None] for the one made at graph.rs:265 that nobody
    else holds) and the tasks in order.  [r_seen] is a ghost: the keys below it existed at that commit. *)
Record rtd := mk_rtd { r_flag : option nat; r_seen : nat; r_tasks : list (key * tugen) }.
(** the nodes of a task list (task.rs:70-99) *)
Definition r_keys (t : rtd) : list key := map fst (r_tasks t).

(** Editing thread: the graph, where each UGen is, the last node order ([Graph::node_order]).
    Between: ring buffer of new task lists, ring buffer of old ones, set change flags.
    Audio thread: current list; while the lists found at the start of a block are being applied
    ([y_reading]): those not yet applied, and the one applied but not yet put in place.
    Ghosts: [y_trace] the order and input of each block run, [y_dead] the nodes whose UGen was dropped, [y_lost]
    a commit found the ring buffer full, [y_virgin] nothing was applied yet. *)
Record sys := mk_sys {
  y_g : graph; y_ug : key -> nugen; y_order : list key; y_seen : nat;
  y_cap : nat; y_dcap : nat; y_ring : list rtd; y_trash : list rtd; y_applied : list nat;
  y_started : bool; y_cur : rtd; y_reading : bool; y_chunk : list rtd; y_held : nat; y_next : option rtd;
  y_trace : list (list key * X); y_dead : list key; y_lost : bool; y_virgin : bool }.

(** node.rs:132-150 [make_task], graph.rs:1486-1495 [generate_tasks] *)
Definition task_of (u : nugen) : tugen := match u with NLocal s => Own s | NLive j => Take j end.
(** plumbing: change of a map at one key *)
Definition upd (ug : key -> nugen) (k : key) (u : nugen) : key -> nugen := fun k' => if k' =? k then u else ug k'.
(** graph.rs:1486-1495 [generate_tasks]: [make_task] for all nodes in order *)
Fixpoint make_tasks (i : nat) (order : list key) (ug : key -> nugen) : list (key * tugen) * (key -> nugen) :=
  match order with
  | [] => ([], ug)
  | k :: o => let '(ts, ug') := make_tasks (S i) o (upd ug k (NLive i)) in ((k, task_of (ug k)) :: ts, ug')
  end.

(** task.rs:104-114, first part of [apply_self_on_audio_thread]: move the UGens from the old list ([None] = panic) *)
Fixpoint take_all (new old : list (key * tugen)) : option (list (key * tugen) * list (key * tugen)) :=
  match new with
  | [] => Some ([], old)
  | (k, Take j) :: new' =>
      ku <- nth_error old j ;;
      old1 <- set_nth old j (fst ku, Gone) ;;
      r <- take_all new' old1 ;;
      Some ((k, snd ku) :: fst r, snd r)
  | t :: new' => r <- take_all new' old ;; Some (t :: fst r, snd r)
  end.
(** task.rs:25-31 [Task::run] on every task; anything but a UGen is [unreachable!] (dynugen.rs:208) *)
Fixpoint run_all (x : X) (ts : list (key * tugen)) : option (list (key * tugen)) :=
  match ts with
  | [] => Some []
  | (k, Own s) :: ts' => r <- run_all x ts' ;; Some ((k, Own (proc x k s)) :: r)
  | _ => None
  end.
(** The UGens dropped together with a task list. *)
Definition owned (ts : list (key * tugen)) : list key :=
  flat_map (fun t => match snd t with Own _ => [fst t] | _ => [] end) ts.

(** one step of either thread: edits and commits, and the steps of a block on the audio thread (graph_gen.rs:77-189), in any interleaving *)
Inductive yop := YEdit (o : op) | YCommit | YStart | YRead | YApply | YSwitch | YRun (x : X).

(** graph.rs:1707-1726 [commit_changes] *)
Definition applied_fn (y : sys) (f : nat) : bool := existsb (Nat.eqb f) (y_applied y).
Definition ycommit (y : sys) : option sys :=
  g1 <- free_old (applied_fn y) (y_g y) ;;
  (* the nodes that free_old removed from the slot map; a UGen that never left its node goes with it *)
  let gone := filter (fun k => negb (existsb (Nat.eqb k) (map fst (g_nodes g1)))) (map fst (g_nodes (y_g y))) in
  let dead1 := filter (fun k => match y_ug y k with NLocal _ => true | NLive _ => false end) gone in
  (* free_old_task_data, graph.rs:2194-2206 *)
  let dead := dead1 ++ flat_map (fun t => owned (r_tasks t)) (y_trash y) ++ y_dead y in
  if g_recalc g1 then
    ord <- node_order g1 ;;
    let '(ts, ug) := make_tasks 0 ord (y_ug y) in
    let td := mk_rtd (Some (g_flag g1)) (g_next g1) ts in
    let g2 := set_flag g1 (S (g_flag g1)) in
    (* the slots of a chunk being read are released at the end of the loop, so they still count *)
    if List.length (y_ring y) + y_held y <? y_cap y
    then Some (mk_sys (set_recalc g2 false) ug ord (g_next g1) (y_cap y) (y_dcap y) (y_ring y ++ [td]) []
                 (y_applied y) (y_started y) (y_cur y) (y_reading y) (y_chunk y) (y_held y) (y_next y) (y_trace y) dead
                 (y_lost y) (y_virgin y))
    (* the list is dropped; the change flag was already replaced; the error ends in an unwrap (graph_edit.rs:260) *)
    else Some (mk_sys g2 ug ord (g_next g1) (y_cap y) (y_dcap y) (y_ring y) []
                 (y_applied y) (y_started y) (y_cur y) (y_reading y) (y_chunk y) (y_held y) (y_next y) (y_trace y)
                 (owned ts ++ dead) true (y_virgin y))
  else Some (mk_sys g1 (y_ug y) (y_order y) (y_seen y) (y_cap y) (y_dcap y) (y_ring y) []
               (y_applied y) (y_started y) (y_cur y) (y_reading y) (y_chunk y) (y_held y) (y_next y) (y_trace y) dead
               (y_lost y) (y_virgin y)).

(** One step of either thread.  A step that cannot happen now changes nothing; [None] = panic. *)
Definition ystep (y : sys) (o : yop) : option sys :=
  match o with
  | YEdit (OpCommit _) => Some y
  | YEdit o =>
      gr <- step (y_g y) o ;;
      Some (mk_sys (fst gr) (y_ug y) (y_order y) (y_seen y) (y_cap y) (y_dcap y) (y_ring y) (y_trash y)
              (y_applied y) (y_started y) (y_cur y) (y_reading y) (y_chunk y) (y_held y) (y_next y) (y_trace y) (y_dead y)
              (y_lost y) (y_virgin y))
  | YCommit => ycommit y
  (* end of Graph::new, graph.rs:263-327: a second set of tasks for the same order becomes the current one *)
  | YStart =>
      if y_started y then Some y
      else
        let '(ts, ug) := make_tasks 0 (y_order y) (y_ug y) in
        Some (mk_sys (y_g y) ug (y_order y) (y_seen y) (y_cap y) (y_dcap y) (y_ring y) (y_trash y)
                (y_applied y) true (mk_rtd None (y_seen y) ts) false [] 0 None (y_trace y) (y_dead y)
                (y_lost y) (y_virgin y))
  (* graph_gen.rs:93-95: all new task lists present now *)
  | YRead =>
      if y_started y && negb (y_reading y) then
        Some (mk_sys (y_g y) (y_ug y) (y_order y) (y_seen y) (y_cap y) (y_dcap y) [] (y_trash y)
                (y_applied y) true (y_cur y) true (y_ring y) (List.length (y_ring y)) None (y_trace y) (y_dead y)
                (y_lost y) (y_virgin y))
      else Some y
  (* graph_gen.rs:96-97 and task.rs:101-131: take the UGens over, set the flag *)
  | YApply =>
      match y_reading y, y_next y, y_chunk y with
      | true, None, td :: rest =>
          no <- take_all (r_tasks td) (r_tasks (y_cur y)) ;;
          Some (mk_sys (y_g y) (y_ug y) (y_order y) (y_seen y) (y_cap y) (y_dcap y) (y_ring y) (y_trash y)
                  (match r_flag td with Some f => f :: y_applied y | None => y_applied y end)
                  true (mk_rtd (r_flag (y_cur y)) (r_seen (y_cur y)) (snd no)) true rest (y_held y)
                  (Some (mk_rtd (r_flag td) (r_seen td) (fst no))) (y_trace y) (y_dead y) (y_lost y) false)
      | _, _, _ => Some y
      end
  (* graph_gen.rs:98-107: put it in place, hand the old one back or drop it here *)
  | YSwitch =>
      match y_next y with
      | Some td =>
          let full := negb (List.length (y_trash y) <? y_dcap y) in
          Some (mk_sys (y_g y) (y_ug y) (y_order y) (y_seen y) (y_cap y) (y_dcap y) (y_ring y)
                  (if full then y_trash y else y_trash y ++ [y_cur y])
                  (y_applied y) true td true (y_chunk y) (y_held y) None (y_trace y)
                  (if full then owned (r_tasks (y_cur y)) ++ y_dead y else y_dead y) (y_lost y) (y_virgin y))
      | None => Some y
      end
  (* graph_gen.rs:112-239: the rest of the block *)
  | YRun x =>
      match y_reading y, y_next y, y_chunk y with
      | true, None, [] =>
          ts <- run_all x (r_tasks (y_cur y)) ;;
          Some (mk_sys (y_g y) (y_ug y) (y_order y) (y_seen y) (y_cap y) (y_dcap y) (y_ring y) (y_trash y)
                  (y_applied y) true (mk_rtd (r_flag (y_cur y)) (r_seen (y_cur y)) ts) false [] 0 None
                  (y_trace y ++ [(r_keys (y_cur y), x)]) (y_dead y) (y_lost y) (y_virgin y))
      | _, _, _ => Some y
      end
  end.

(** Before the init callback of Graph::new runs. *)
Definition sys_new (id : N) (inputs outputs : nat) (slots : list nat) (cap dcap : nat) : sys :=
  mk_sys (graph_new id inputs outputs slots) (fun k => NLocal (init k)) [] 0 cap dcap [] [] []
    false (mk_rtd None 0 []) false [] 0 None [] [] false true.
(** plumbing: any sequence of such steps *)
Fixpoint yrun (y : sys) (ops : list yop) : option sys :=
  match ops with
  | [] => Some y
  | o :: ops' => y' <- ystep y o ;; yrun y' ops'
  end.
End Runtime.
Arguments Own {St}. Arguments Take {St}. Arguments Gone {St}. Arguments NLocal {St}. Arguments NLive {St}.
