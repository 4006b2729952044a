(** Model of the two generators a feedback connection is meant to be made of: knaster_graph/src/graph.rs,
    [FeedbackSink] and [FeedbackSource].  ([new_feedback_nodes] creates two [FeedbackSink]s instead,
    graph.rs:891-898; that is in [GraphModel.new_feedback_nodes].) *)
From Verif Require Import Base.
Local Open Scope nat_scope.

Section Feedback.
Variable F : Type.
Variable zero : F.
Variable bs : nat.
(** graph.rs:883-890: two buffers of zeros and the number of the current one, shared by both generators *)
Record fbuf := mk_fbuf { f_bufs : bool -> list F; f_num : bool }.
(** graph.rs:883-890: the buffers of a new pair *)
Definition fbuf_new : fbuf := mk_fbuf (fun _ => repeat zero bs) false.
(** graph.rs:2389-2401 *)
Definition sink_block (s : fbuf) (input : list F) : fbuf :=
  mk_fbuf (fun b => if Bool.eqb b (f_num s) then input else f_bufs s b) (f_num s).
(** graph.rs:2440-2456: [1 - bufnum] *)
Definition source_block (s : fbuf) : fbuf * list F :=
  let prev := negb (f_num s) in
  (mk_fbuf (f_bufs s) prev, f_bufs s prev).
(** One block, in either order of the two generators. *)
Definition feedback_block (sink_first : bool) (s : fbuf) (input : list F) : fbuf * list F :=
  if sink_first then source_block (sink_block s input)
  else let '(s1, out) := source_block s in (sink_block s1 input, out).
(** plumbing: block after block *)
Fixpoint feedback_run (sink_first : bool) (s : fbuf) (ins : list (list F)) : list (list F) :=
  match ins with
  | [] => []
  | i :: ins' => let '(s', out) := feedback_block sink_first s i in out :: feedback_run sink_first s' ins'
  end.
End Feedback.
