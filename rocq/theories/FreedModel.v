(** Model of nodes that are done and of the graph that removes itself: [UGenFlags] (ugen.rs:121-219), [WrDone]
    (wrappers_graph/done.rs:26-90) and the end of [GraphGen::process_block] (graph_gen.rs:86-92, 185-239).
    Nodes are arbitrary: next to its outputs a node may mark itself done at some frame of the block; [wrapped k] is the
    done action if the node was pushed with one. *)
From Verif Require Import Base GraphModel OrderModel AllocModel RenderModel.
Local Open Scope nat_scope.

(** lib.rs:72-80 *)
Inductive done_action := DoneNone | FreeSelf | FreeParent.
(** ugen.rs:121-141; [u32::MAX] is 2^32-1 *)
Record uflags := mk_uflags {
  f_self_supported : bool;
  f_done : bool;
  f_done_frame : N;
  f_remove_self : bool;
  f_remove_parent : bool;
  f_parent_frame : N }.
(** [u32::MAX] *)
Definition U32MAX : N := (U32 - 1)%N.
(** ugen.rs:144-153 *)
Definition flags_new : uflags := mk_uflags false false U32MAX false false U32MAX.
(** ugen.rs:158-164 *)
Definition remove_graph (f : uflags) : option N := if f_remove_parent f then Some (f_parent_frame f) else None.
(** ugen.rs:171-177 *)
Definition done_of (f : uflags) : option N := if f_done f then Some (f_done_frame f) else None.
(** ugen.rs:181-187 *)
Definition mark_remove_self (f : uflags) : uflags :=
  if f_self_supported f then mk_uflags (f_self_supported f) (f_done f) (f_done_frame f) true (f_remove_parent f) (f_parent_frame f) else f.
(** ugen.rs:193-196 *)
Definition mark_remove_parent (f : uflags) (frame : N) : uflags :=
  mk_uflags (f_self_supported f) (f_done f) (f_done_frame f) (f_remove_self f) true frame.
(** ugen.rs:201-204 *)
Definition mark_done (f : uflags) (frame : N) : uflags :=
  mk_uflags (f_self_supported f) true frame (f_remove_self f) (f_remove_parent f) (f_parent_frame f).
(** ugen.rs:206-208 *)
Definition mark_self_supported (f : uflags) : uflags :=
  mk_uflags true (f_done f) (f_done_frame f) (f_remove_self f) (f_remove_parent f) (f_parent_frame f).
(** ugen.rs:215-220 *)
Definition clear_node_flags (f : uflags) : uflags :=
  mk_uflags false false U32MAX false (f_remove_parent f) (f_parent_frame f).

(** What an inner UGen does to the flags: it marks itself done or does nothing. *)
Definition inner_flags (d : option N) (f : uflags) : uflags := match d with Some fr => mark_done f fr | None => f end.
(** done.rs:32-45 [process_flags]; the bool is the store to [free_self_flag] *)
Definition process_flags (a : done_action) (f : uflags) : uflags * bool :=
  let f' := match done_of f with
            | Some fr => match a with DoneNone => f | FreeSelf => mark_remove_self f | FreeParent => mark_remove_parent f fr end
            | None => f
            end in
  (f', f_remove_self f').
(** done.rs:77-90 *)
Definition wr_done_flags (a : done_action) (d : option N) (f : uflags) : uflags * bool :=
  process_flags a (inner_flags d (mark_self_supported (clear_node_flags f))).

Section Gen.
Variable F : Type.
Variable zero : F.
Variable St : Type.
Variable proc : key -> St -> list (list F) -> list (N * list F) -> St * (nat -> nat -> F).
(** the frame (if any) at which the node marks itself done in this block *)
Variable done_at : key -> St -> list (list F) -> list (N * list F) -> option N.
Variable wrapped : key -> option done_action.
Variable bs : nat.
Notation mem := (memory F).
Notation states := (key -> St).

(** One task with its effect on the flags; the last component collects the nodes whose [free_self_flag] was set. *)
Definition task_flags (gin : nat -> list F) (ms : mem * states) (t : task) (f : uflags) : uflags * list key :=
  let d := done_at (t_key t) (snd ms (t_key t)) (map (read_src F bs (fst ms) gin) (t_ins t))
             (map (fun p => (fst p, read F bs (fst ms) (snd p))) (t_pars t)) in
  match wrapped (t_key t) with
  | Some a => let r := wr_done_flags a d f in (fst r, if snd r then [t_key t] else [])
  | None => (inner_flags d f, [])
  end.
(** graph_gen.rs:185-189 *)
Fixpoint run_flagged (gin : nat -> list F) (ts : list task) (ms : mem * states) (f : uflags) : (mem * states) * uflags * list key :=
  match ts with
  | [] => (ms, f, [])
  | t :: ts' =>
      let a := task_flags gin ms t f in
      let r := run_flagged gin ts' (run_task F St proc bs gin ms t) (fst a) in
      (fst r, snd a ++ snd r)
  end.
(** graph_gen.rs:228-234: zero a channel from [frame] on *)
Definition silence_from (frame : N) (ch : list F) : list F :=
  if (frame <? N.of_nat bs)%N then firstn (N.to_nat frame) ch ++ repeat zero (List.length ch - N.to_nat frame) else ch.

(** graph_gen.rs:37-75 [GraphGen], the fields used here *)
Record gen := mk_gen { gg_freed : bool; gg_ms : mem * states; gg_remove_me : bool; gg_free_self : list key }.
(** a graph that was just made: nothing is freed (graph.rs:203-333) *)
Definition gen_new (ms : mem * states) : gen := mk_gen false ms false [].
(** graph_gen.rs:77-239 without the pick-up of task lists and parameter changes (see RuntimeModel, SchedModel) *)
Definition gen_block (g : gen) (td : task_data) (gin : nat -> list F) : gen * list (list F) :=
  if gg_freed g then (g, map (fun _ => repeat zero bs) (td_out td))
  else
    let r := run_flagged gin (td_tasks td) (gg_ms g) flags_new in
    let ms' := fst (fst r) in
    let outs := map (out_block F zero bs (fst ms') gin) (td_out td) in
    match remove_graph (snd (fst r)) with
    | Some frame => (mk_gen true ms' true (gg_free_self g ++ snd r), map (silence_from frame) outs)
    | None => (mk_gen false ms' (gg_remove_me g) (gg_free_self g ++ snd r), outs)
    end.
(** plumbing: block after block *)
Fixpoint gen_run (g : gen) (l : list (task_data * (nat -> list F))) : list (list (list F)) :=
  match l with
  | [] => []
  | (td, gin) :: l' => let r := gen_block g td gin in snd r :: gen_run (fst r) l'
  end.
End Gen.
