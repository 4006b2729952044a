(** Node programs on memory of their own. *)
From Verif Require Import Base GraphModel GraphSpec AllocModel RawModel.
Local Open Scope nat_scope.
Section Spec.
Context {F St : Type}.
Variable bs : nat.
(** The inputs and parameter signals are lists, the output is a table *)
Fixpoint own_run (ins pars : list (list F)) (outs : nat) (p : prog F St) (o : nat -> nat -> F) : option (St * (nat -> nat -> F)) :=
  match p with
  | Done s => Some (s, o)
  | RdIn c f k => l <- nth_error ins c ;; x <- nth_error l f ;; own_run ins pars outs (k x) o
  | RdPar c f k => l <- nth_error pars c ;; x <- nth_error l f ;; own_run ins pars outs (k x) o
  | RdOut c f k => if (c <? outs) && (f <? bs) then own_run ins pars outs (k (o c f)) o else None
  | Wr c f x k => if (c <? outs) && (f <? bs) then own_run ins pars outs k (fun c' f' => if (c' =? c) && (f' =? f) then x else o c' f') else None
  end.
(** A program for so many inputs, parameters and outputs: it stays within its blocks, whatever it reads *)
Fixpoint fits (ins pars outs : nat) (p : prog F St) : Prop :=
  match p with
  | Done _ => True
  | RdIn c f k => c < ins /\ f < bs /\ forall x, fits ins pars outs (k x)
  | RdPar c f k => c < pars /\ f < bs /\ forall x, fits ins pars outs (k x)
  | RdOut c f k => c < outs /\ f < bs /\ forall x, fits ins pars outs (k x)
  | Wr c f _ k => c < outs /\ f < bs /\ fits ins pars outs k
  end.
(** What is left in the output does not depend on what was there before *)
Definition covers (ins pars outs : nat) (p : prog F St) : Prop := forall ls ps o1 o2 r1 r2,
  List.length ls = ins -> List.length ps = pars -> Forall (fun l => List.length l = bs) ls -> Forall (fun l => List.length l = bs) ps ->
  own_run ls ps outs p o1 = Some r1 -> own_run ls ps outs p o2 = Some r2 ->
  fst r1 = fst r2 /\ forall c f, c < outs -> f < bs -> snd r1 c f = snd r2 c f.
(** The function that a program computes (see [RenderSpec]) *)
Definition computed (zero : F) (outs : nat) (p : prog F St) (s : St) (ins : list (list F)) (pars : list (N * list F)) : St * (nat -> nat -> F) :=
  match own_run ins (map snd pars) outs p (fun _ _ => zero) with Some r => r | None => (s, fun _ _ => zero) end.
(** Two pieces of memory have nothing in common *)
Definition separate (a la b lb : nat) : Prop := forall x, a <= x < a + la -> b <= x < b + lb -> False.
(** The output of a task has no memory in common with what it reads *)
Definition isolated (t : task) : Prop :=
  (forall a, In (IBuf a) (t_ins t) -> separate a bs (t_out t) (t_outs t * bs)) /\
  (forall p, In p (t_pars t) -> separate (snd p) bs (t_out t) (t_outs t * bs)).
End Spec.
(** A generator that goes frame by frame over the columns of its inputs *)
Section Columns.
Context {F St : Type}.
Variable step : St -> list F -> list F -> St * list F.
Variable zero : F.
Definition column (ls : list (list F)) (f : nat) : list F := map (fun l => nth f l zero) ls.
Fixpoint in_frames (s : St) (ls ps : list (list F)) (n f : nat) : St * list (list F) :=
  match n with 0 => (s, []) | S n => let r := step s (column ls f) (column ps f) in let q := in_frames (fst r) ls ps n (S f) in (fst q, snd r :: snd q) end.
End Columns.
