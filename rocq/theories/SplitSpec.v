From Verif Require Import Base MathModel MathSpec.
Open Scope nat_scope.
Section Spec.
Context {F P T : Type}.
Variable zero : F.
(** A generator is described by a state [T], a function from frame to frame, and the effect of the parameters, if every block is made
    frame by frame with them. [pi]: what the state of the generator stands for (all but the done flag, say). *)
Definition described (g : gen F P) (pi : g_state g -> T) (proc : T -> list F -> T * list F) (param : T -> P -> T) : Prop :=
  (forall s n i o, shape (g_ins g) n i -> shape (g_outs g) n o ->
    let r := g_block g s n i o in let q := by_frame proc (pi s) (frames zero (g_ins g) n i) in
    pi (fst r) = fst q /\ shape (g_outs g) n (snd r) /\ frames zero (g_outs g) n (snd r) = snd q) /\
  (forall s p, pi (g_param g s p) = param (pi s) p).
(** The frames of a block with changes before some of them: [(ps, n) :: ...]: the changes [ps], then [n] frames *)
Fixpoint timed (proc : T -> list F -> T * list F) (param : T -> P -> T) (s : T) (l : list (list P * nat)) (xs : list (list F)) : T * list (list F) :=
  match l with
  | [] => (s, [])
  | (ps, n) :: l =>
      let r := by_frame proc (fold_left param ps s) (firstn n xs) in
      let q := timed proc param (fst r) l (skipn n xs) in (fst q, snd r ++ snd q)
  end.
(** The length of the parts together *)
Definition total (l : list (list P * nat)) : nat := list_sum (map snd l).
End Spec.
(** The place of frame [d] of a block within the part it is in *)
Fixpoint place (lens : list nat) (d : N) : N :=
  match lens with
  | [] => d
  | n :: lens => if (d <? N.of_nat n)%N then d else place lens (d - N.of_nat n)
  end.
