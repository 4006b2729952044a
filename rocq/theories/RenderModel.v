(** Model of one block of audio: knaster_graph/src/graph_gen.rs (process_block) and task.rs (Task::run).
    Samples, node states and node behaviours are arbitrary.  A node reads all its inputs and then writes all
    its output channels; since the allocation never lets an output overlap an input of the same node (proved
    in [AllocProofs]) reading and writing frame by frame gives the same result. *)
From Verif Require Import Base GraphModel OrderModel AllocModel.
Local Open Scope nat_scope.

Section Render.
Variable F : Type.
Variable zero : F.
Variable St : Type.
(** Behaviour of a node: state, one block per input, one block per audio-rate parameter link (parameter
    index, block); new state, and the output sample of each channel and frame. *)
Variable proc : key -> St -> list (list F) -> list (N * list F) -> St * (nat -> nat -> F).
Variable bs : nat.

(** graph.rs:120-127 [OwnedRawBuffer]: the allocation, by address; reading outside of it is ruled out separately (C19) *)
Definition memory := nat -> F.
(** one block of the allocation (block.rs:57-68) *)
Definition read (m : memory) (addr : nat) : list F := map (fun i => m (addr + i)) (seq 0 bs).
(** what a UGen writes to its output block: all its channels, one block after the other (block.rs:57-68) *)
Definition write (m : memory) (addr channels : nat) (f : nat -> nat -> F) : memory :=
  fun x => if (addr <=? x) && (x <? addr + channels * bs) then f ((x - addr) / bs) ((x - addr) mod bs) else m x.
(** graph_gen.rs:176-183: graph inputs are read where the caller put them *)
Definition read_src (m : memory) (gin : nat -> list F) (i : isrc) : list F :=
  match i with IBuf a => read m a | IGraph c => gin c end.

(** plumbing: the UGen of one node changes, the others do not *)
Definition upd_st (st : key -> St) (k : key) (s : St) : key -> St := fun k' => if k' =? k then s else st k'.
(** task.rs:25-31 *)
Definition run_task (gin : nat -> list F) (ms : memory * (key -> St)) (t : task) : memory * (key -> St) :=
  let '(m, st) := ms in
  let r := proc (t_key t) (st (t_key t)) (map (read_src m gin) (t_ins t))
             (map (fun p => (fst p, read m (snd p))) (t_pars t)) in
  (write m (t_out t) (t_outs t) (snd r), upd_st st (t_key t) (fst r)).
(** graph_gen.rs:197-199: the tasks in order *)
Definition run_tasks (gin : nat -> list F) (ts : list task) (ms : memory * (key -> St)) :=
  fold_left (run_task gin) ts ms.
(** graph_gen.rs:192-215 *)
Definition out_block (m : memory) (gin : nat -> list F) (o : option isrc) : list F :=
  match o with Some i => read_src m gin i | None => repeat zero bs end.
(** graph_gen.rs:197-224: the tasks, then the outputs *)
Definition render (td : task_data) (gin : nat -> list F) (ms : memory * (key -> St))
  : memory * (key -> St) * list (list F) :=
  let ms' := run_tasks gin (td_tasks td) ms in
  (ms', map (out_block (fst ms') gin) (td_out td)).
(** Consecutive blocks without a change of the graph in between. *)
Fixpoint render_n (td : task_data) (gins : list (nat -> list F)) (ms : memory * (key -> St))
  : memory * (key -> St) * list (list (list F)) :=
  match gins with
  | [] => (ms, [])
  | gin :: gins' =>
      let '(ms1, o) := render td gin ms in
      let '(ms2, os) := render_n td gins' ms1 in
      (ms2, o :: os)
  end.
End Render.
