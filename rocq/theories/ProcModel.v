(** Model of the memory that the safe methods of [AudioProcessor] reach: knaster_graph/src/processor.rs:46-61, 70-116 [new], 118-148 [run],
    [run_without_inputs] (which is [run] with no inputs), 182-184 [output_block], with the pointer blocks of knaster_graph/src/block.rs. The
    graph inside is any program that takes input channels as slices and writes samples of the output block; its own memory is in
    [AllocModel] and [RawModel]. Clock and queues are in [SchedModel]. *)
From Verif Require Import Base.
Local Open Scope nat_scope.

Section Proc.
Variable F : Type.
Variable zero : F.
(** How a call ends: normally with a result, in a panic, or in undefined behaviour. [Rejected]: the program does not compile, because the
    processor has been moved (dropped) before. *)
Inductive outcome := Fine (r : option F) | Panicked | Undefined | Rejected.
(** What the graph does with the blocks it is given (graph_gen.rs:176-183 takes inputs as slices, graph_gen.rs:200-240 writes outputs) *)
Inductive prog := Done | RdIn (c : nat) (k : list F -> prog) | Wr (c f : nat) (x : F) (k : prog).
(** block.rs:19-23 [RawContiguousBlock]: which allocation it points to, channels, block size *)
Record block := mk_block { b_mem : nat; b_channels : nat; b_size : nat }.
(** processor.rs:46-61; [pr_own] is [_output_buffer], freed when the processor is dropped *)
Record proc := mk_proc { pr_bs : nat; pr_ins : nat; pr_own : nat; pr_block : block }.
(** All allocations ([None]: freed) and all processors ([None]: dropped) made so far *)
Record world := mk_world { w_heap : list (option (list F)); w_procs : list (option proc) }.
(** nothing was made yet *)
Definition empty : world := mk_world [] [].

(** plumbing: change of one element of a list *)
Fixpoint set_at {A} (l : list A) (i : nat) (x : A) : list A :=
  match l, i with [], _ => [] | _ :: l, 0 => x :: l | y :: l, S i => y :: set_at l i x end.
(** the processor, if it was not dropped *)
Definition live (w : world) (i : nat) : option proc := match nth_error (w_procs w) i with Some (Some p) => Some p | _ => None end.
(** the allocation, if it was not freed *)
Definition alloc_at (h : list (option (list F))) (a : nat) : option (list F) := match nth_error h a with Some (Some l) => Some l | _ => None end.

(** block.rs:178-181 [RawAggregateBlockRead::channel_as_slice]: the index is checked, the length of the memory behind the pointer is not *)
Definition take_slice (slices : list (list F)) (bs c : nat) : option (option (list F)) :=
  match nth_error slices c with
  | None => None
  | Some s => Some (if bs <=? length s then Some (firstn bs s) else None)
  end.
(** block.rs:57-68 [RawContiguousBlock::{read, write}]: channel and frame are checked against the block, then the pointer is used *)
Definition position (b : block) (c f : nat) : option nat := if (c <? b_channels b) && (f <? b_size b) then Some (c * b_size b + f) else None.
(** the reads and writes of a program, in order *)
Fixpoint exec (slices : list (list F)) (bs : nat) (b : block) (g : prog) (h : list (option (list F))) : list (option (list F)) * outcome :=
  match g with
  | Done => (h, Fine None)
  | RdIn c k => match take_slice slices bs c with
                | None => (h, Panicked)
                | Some None => (h, Undefined)
                | Some (Some s) => exec slices bs b (k s) h
                end
  | Wr c f x k => match position b c f with
                  | None => (h, Panicked)
                  | Some o => match alloc_at h (b_mem b) with
                              | Some l => if o <? length l then exec slices bs b k (set_at h (b_mem b) (Some (set_at l o x))) else (h, Undefined)
                              | None => (h, Undefined)
                              end
                  end
  end.

(** What a program can do without writing [unsafe] *)
Inductive call :=
| New (bs ins outs : nat)
| Run (i : nat) (slices : list (list F)) (g : prog)
| Output (i c f : nat)
| Swap (i j : nat)
| Drop (i : nat).
Definition step (w : world) (c : call) : world * outcome :=
  match c with
  | New bs ins outs =>
      (* processor.rs:76 the block size must not be 0; l.77 OwnedRawBuffer::new; l.103-109 *)
      if bs =? 0 then (w, Panicked)
      else let a := length (w_heap w) in
           (mk_world (w_heap w ++ [Some (repeat zero (bs * outs))]) (w_procs w ++ [Some (mk_proc bs ins a (mk_block a outs bs))]), Fine None)
  | Run i slices g =>
      match live w i with
      | None => (w, Rejected)
      | Some p =>
          (* processor.rs:119 *)
          if length slices =? pr_ins p then let r := exec slices (pr_bs p) (pr_block p) g (w_heap w) in (mk_world (fst r) (w_procs w), snd r)
          else (w, Panicked)
      end
  | Output i c f =>
      match live w i with
      | None => (w, Rejected)
      | Some p => match position (pr_block p) c f with
                  | None => (w, Panicked)
                  | Some o => match alloc_at (w_heap w) (b_mem (pr_block p)) with
                              | Some l => match nth_error l o with Some x => (w, Fine (Some x)) | None => (w, Undefined) end
                              | None => (w, Undefined)
                              end
                  end
      end
  | Swap i j =>
      (* core::mem::swap(a.output_block(), b.output_block()): both are mutable references, which l.182-184 hands out *)
      match live w i, live w j with
      | Some p, Some q =>
          if i =? j then (w, Rejected)
          else (mk_world (w_heap w) (set_at (set_at (w_procs w) i (Some (mk_proc (pr_bs p) (pr_ins p) (pr_own p) (pr_block q)))) j
                  (Some (mk_proc (pr_bs q) (pr_ins q) (pr_own q) (pr_block p)))), Fine None)
      | _, _ => (w, Rejected)
      end
  | Drop i =>
      match live w i with
      | None => (w, Rejected)
      | Some p => (mk_world (set_at (w_heap w) (pr_own p) None) (set_at (w_procs w) i None), Fine None)
      end
  end.
(** plumbing: call after call *)
Fixpoint run_all (w : world) (cs : list call) : world * list outcome :=
  match cs with [] => (w, []) | c :: cs => let r := step w c in let q := run_all (fst r) cs in (fst q, snd r :: snd q) end.
End Proc.
Arguments Fine {F}. Arguments Panicked {F}. Arguments Undefined {F}. Arguments Rejected {F}.
Arguments Done {F}. Arguments RdIn {F}. Arguments Wr {F}. Arguments mk_world {F}. Arguments w_heap {F}. Arguments w_procs {F}. Arguments empty {F}.
Arguments New {F}. Arguments Run {F}. Arguments Output {F}. Arguments Swap {F}. Arguments Drop {F}.
Arguments exec {F}. Arguments step {F}. Arguments run_all {F}. Arguments live {F}. Arguments alloc_at {F}.
