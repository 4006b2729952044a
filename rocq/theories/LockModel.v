(** Model of the lock and of the end of an edit: knaster_graph/src/graph_edit.rs:46-71 [GraphRef], l.207-228 [GraphEdit::subgraph],
    l.258-262 [Drop for GraphEdit]; graph.rs:1410-1412 [edit], l.1436-1459 [subgraph_init], l.262 in [Graph::new].

    A closure given to [edit] or [subgraph] gets a [GraphEdit] of its own and may use those of the closures around it, since all
    methods take [&self] (edits are numbered by nesting depth, 0 is the outermost). The lock is [std::sync::RwLock] (feature [std]):
    asking for it again on the thread that holds it for writing does not return; a panic while it is held for writing poisons it; a
    panic during unwinding aborts the process. What the calls do to the graph is left out; whether they panic is given (see the other
    graph models). A single thread edits, and closures do not catch panics. *)
From Verif Require Import Base.
Local Open Scope nat_scope.
Local Notation length := List.length.

(** the state of one [RwLock] of std *)
Inductive lock := Free | Writing | Poisoned.
(** how a call ends *)
Inductive outcome := Done | Panicked | Aborted | Stuck.

(** What a closure does, one call after the other *)
Inductive prog :=
  | PEnd
  | PPanic                                                     (** a panic of its own code, or of a method that holds no lock *)
  | PCall (depth : nat) (write panics : bool) (next : prog)    (** a method of that edit or of a handle made from it, which takes the lock *)
  | PSub (depth : nat) (body : prog) (commit_panics : bool) (next : prog). (** [subgraph] on that edit *)

(** The locks, outermost first *)
Definition lock_at (ls : list lock) (d : nat) : lock := nth d ls Free.
(** plumbing: change of one lock *)
Definition put (ls : list lock) (d : nat) (l : lock) : list lock := firstn d ls ++ match skipn d ls with [] => [] | _ :: r => l :: r end.

(** l.258-262: the lock is taken ([unwrap] of a poisoned lock panics) and the changes are committed ([unwrap]) *)
Definition drop_edit (l : lock) (o : outcome) (commit_panics : bool) : outcome :=
  match o with
  | Done => match l with Free => if commit_panics then Panicked else Done | Poisoned => Panicked | Writing => Stuck end
  | Panicked => match l with Free => if commit_panics then Aborted else Panicked | Poisoned => Aborted | Writing => Stuck end
  | Aborted => Aborted
  | Stuck => Stuck
  end.
(** the calls of a program in order, as described above *)
Fixpoint exec (ls : list lock) (p : prog) : list lock * outcome :=
  match p with
  | PEnd => (ls, Done)
  | PPanic => (ls, Panicked)
  | PCall d write panics next =>
      match lock_at ls d with
      | Writing => (ls, Stuck)
      | Poisoned => (ls, Panicked)
      | Free => if panics then (if write then put ls d Poisoned else ls, Panicked) else exec ls next
      end
  | PSub d body cp next =>
      match lock_at ls d with
      | Writing => (ls, Stuck)
      | Poisoned => (ls, Panicked)
      | Free =>
          let r := exec (put ls d Writing ++ [Free]) body in
          let ls' := removelast (fst r) in
          match drop_edit (last (fst r) Free) (snd r) cp with
          | Done => exec (put ls' d Free) next
          | Panicked => (put ls' d Poisoned, Panicked)
          | o => (ls', o)
          end
      end
  end.
(** graph.rs:1410-1412 *)
Definition edit (p : prog) (commit_panics : bool) : outcome := let r := exec [Free] p in drop_edit (last (fst r) Free) (snd r) commit_panics.
