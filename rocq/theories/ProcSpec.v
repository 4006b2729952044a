(** What the safe interface of the processor promises (C85). *)
From Verif Require Import Base ProcModel.
Local Open Scope nat_scope.

Section Spec.
Variable F : Type.
Variable zero : F.
(** No exchange of output blocks *)
Definition keeps (c : call F) : Prop := match c with Swap _ _ => False | _ => True end.
(** The slices of a run are as long as a block of that processor *)
Definition long (w : world F) (c : call F) : Prop :=
  match c with Run i slices _ => forall p, live w i = Some p -> Forall (fun s => pr_bs p <= length s) slices | _ => True end.
Fixpoint careful (w : world F) (cs : list (call F)) : Prop :=
  match cs with [] => True | c :: cs => keeps c /\ long w c /\ careful (fst (step zero w c)) cs end.
(** The sample that a program leaves at channel [c], frame [f]: what it wrote last, or [old] *)
Fixpoint left_at (slices : list (list F)) (bs : nat) (g : prog F) (c f : nat) (old : F) : F :=
  match g with
  | Done => old
  | RdIn d k => left_at slices bs (k (firstn bs (nth d slices []))) c f old
  | Wr c' f' x k => left_at slices bs k c f (if (c =? c') && (f =? f') then x else old)
  end.
End Spec.
