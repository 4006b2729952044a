(** Model of nodes running on the shared memory of a graph: knaster_graph/src/task.rs:18-32 and the pointer blocks of
    knaster_graph/src/block.rs. In [RenderModel] a node reads all its inputs and then writes all its outputs. Here it is a program that
    reads and writes single samples in any order, on memory that other nodes use as well. *)
From Verif Require Import Base GraphModel AllocModel RenderModel.
Local Open Scope nat_scope.

Section Raw.
Variable F : Type.
Variable St : Type.
(** The block code of a node: what it does next may depend on everything read so far. A slice ([channel_as_slice]) is its samples. *)
Inductive prog :=
| Done (s : St)
| RdIn (c f : nat) (k : F -> prog)
| RdPar (c f : nat) (k : F -> prog)
| RdOut (c f : nat) (k : F -> prog)
| Wr (c f : nat) (x : F) (k : prog).
(** The block size, and the length of the allocation that the pointers are into *)
Variables bs size : nat.
(** The blocks of the caller, for the channels that are inputs of the graph (graph_gen.rs:176-183) *)
Variable gin : nat -> list F.
(** block.rs:57-68: one sample is written through the pointer *)
Definition setm (m : memory F) (a : nat) (x : F) : memory F := fun y => if y =? a then x else m y.
(** Access through a pointer; [None]: outside of the allocation, undefined behaviour *)
Definition peek (m : memory F) (a : nat) : option F := if a <? size then Some (m a) else None.
(** block.rs:158-200 [RawAggregateBlockRead::read]; [None] is also the panic of its assertions *)
Definition raw_in (ins : list isrc) (m : memory F) (c f : nat) : option F :=
  i <- nth_error ins c ;;
  if f <? bs then match i with IBuf a => peek m (a + f) | IGraph g => nth_error (gin g) f end else None.
(** wrappers_core/ar_params.rs: the buffers of audio-rate parameters are read at the frames of the block *)
Definition raw_par (pars : list nat) (m : memory F) (c f : nat) : option F :=
  a <- nth_error pars c ;; if f <? bs then peek m (a + f) else None.
(** block.rs:57-68 [RawContiguousBlock::{read, write}]: the position of a sample *)
Definition cell (out outs c f : nat) : option nat :=
  if (c <? outs) && (f <? bs) then (if out + c * bs + f <? size then Some (out + c * bs + f) else None) else None.
(** task.rs:25-31 *)
Fixpoint raw_run (ins : list isrc) (pars : list nat) (out outs : nat) (p : prog) (m : memory F) : option (St * memory F) :=
  match p with
  | Done s => Some (s, m)
  | RdIn c f k => x <- raw_in ins m c f ;; raw_run ins pars out outs (k x) m
  | RdPar c f k => x <- raw_par pars m c f ;; raw_run ins pars out outs (k x) m
  | RdOut c f k => a <- cell out outs c f ;; raw_run ins pars out outs (k (m a)) m
  | Wr c f x k => a <- cell out outs c f ;; raw_run ins pars out outs k (setm m a x)
  end.

(** A block of the whole graph, as in [RenderModel] *)
Variable zero : F.
Variable code : key -> St -> prog.
(** task.rs:25-31: one task, sample by sample *)
Definition raw_task (ms : memory F * (key -> St)) (t : task) : option (memory F * (key -> St)) :=
  r <- raw_run (t_ins t) (map snd (t_pars t)) (t_out t) (t_outs t) (code (t_key t) (snd ms (t_key t))) (fst ms) ;;
  Some (snd r, upd_st St (snd ms) (t_key t) (fst r)).
(** graph_gen.rs:197-199: the tasks in order *)
Fixpoint raw_tasks (ts : list task) (ms : memory F * (key -> St)) : option (memory F * (key -> St)) :=
  match ts with [] => Some ms | t :: ts => ms' <- raw_task ms t ;; raw_tasks ts ms' end.
(** graph_gen.rs:197-224: the tasks, then the outputs *)
Definition raw_render (td : task_data) (ms : memory F * (key -> St)) : option (memory F * (key -> St) * list (list F)) :=
  ms' <- raw_tasks (td_tasks td) ms ;; Some (ms', map (out_block F zero bs (fst ms') gin) (td_out td)).
End Raw.
Arguments Done {F St}. Arguments RdIn {F St}. Arguments RdPar {F St}. Arguments RdOut {F St}. Arguments Wr {F St}.
(** Consecutive blocks *)
Fixpoint raw_render_n F St bs size zero code (td : task_data) (gins : list (nat -> list F)) (ms : memory F * (key -> St))
  : option (memory F * (key -> St) * list (list (list F))) :=
  match gins with
  | [] => Some (ms, [])
  | gin :: gins => r <- raw_render F St bs size gin zero code td ms ;; q <- raw_render_n F St bs size zero code td gins (fst r) ;; Some (fst q, snd r :: snd q)
  end.

(** knaster_core/src/ugen.rs:263-284, the default [process_block]: frame by frame, first the inputs, then all outputs.
    The parameters driven at audio rate are read before each frame (wrappers_core/ar_params.rs). *)
Section Frames.
Variables F St : Type.
Variable step : St -> list F -> list F -> St * list F.
Variables ins pars : nat.
(** ugen.rs:263-284: the inputs of a frame *)
Fixpoint read_ins (n c f : nat) (acc : list F) (k : list F -> prog F St) : prog F St :=
  match n with 0 => k (rev acc) | S n => RdIn c f (fun x => read_ins n (S c) f (x :: acc) k) end.
(** ar_params.rs: the parameters of a frame *)
Fixpoint read_pars (n c f : nat) (acc : list F) (k : list F -> prog F St) : prog F St :=
  match n with 0 => k (rev acc) | S n => RdPar c f (fun x => read_pars n (S c) f (x :: acc) k) end.
(** ugen.rs:263-284: the outputs of a frame *)
Fixpoint write_outs (c f : nat) (l : list F) (k : prog F St) : prog F St :=
  match l with [] => k | x :: l => Wr c f x (write_outs (S c) f l k) end.
(** ugen.rs:263-284: the loop over the frames *)
Fixpoint frame_loop (n f : nat) (s : St) : prog F St :=
  match n with
  | 0 => Done s
  | S n => read_pars pars 0 f [] (fun qs => read_ins ins 0 f [] (fun xs =>
      let r := step s xs qs in write_outs 0 f (snd r) (frame_loop n (S f) (fst r))))
  end.
End Frames.
