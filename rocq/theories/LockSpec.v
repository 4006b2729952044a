(** What goes wrong first in an edit, in the order of the program. *)
From Verif Require Import Base LockModel.
Local Open Scope nat_scope.

Inductive event :=
  | Outer                      (** an edit is used inside a closure given to [subgraph], other than that closure's own *)
  | Fails (depth : nat) (write : bool) (* a panic in the closure at that depth: with or without its lock held for writing *).
(** The first event of closure [p] at depth [d], including the commit at the end of the closures within it *)
Fixpoint trouble (d : nat) (p : prog) : option event :=
  match p with
  | PEnd => None
  | PPanic => Some (Fails d false)
  | PCall i write panics next => if negb (i =? d) then Some Outer else if panics then Some (Fails d write) else trouble d next
  | PSub i body cp next =>
      if negb (i =? d) then Some Outer
      else match trouble (S d) body with Some e => Some e | None => if cp then Some (Fails (S d) false) else trouble d next end
  end.
(** Edits that exist: an edit is used only inside its closure *)
Fixpoint scoped (d : nat) (p : prog) : Prop :=
  match p with
  | PEnd | PPanic => True
  | PCall i _ _ next => i <= d /\ scoped d next
  | PSub i body _ next => i <= d /\ scoped (S d) body /\ scoped d next
  end.
