From Verif Require Import Base MathModel.
Open Scope nat_scope.
Section Spec.
Context {F P : Type}.
Variable zero : F.
(** A block of [c] channels with [n] samples each *)
Definition shape (c n : nat) (b : list (list F)) : Prop := length b = c /\ Forall (fun ch => length ch = n) b.
(** The frames of a block *)
Definition frames (c n : nat) (b : list (list F)) : list (list F) := map (fun f => map (fun ch => nth f (nth ch b []) zero) (seq 0 c)) (seq 0 n).
(** Processing frame by frame *)
Fixpoint by_frame {S} (proc : S -> list F -> S * list F) (s : S) (xs : list (list F)) : S * list (list F) :=
  match xs with [] => (s, []) | x :: xs => let r := proc s x in let q := by_frame proc (fst r) xs in (fst q, snd r :: snd q) end.
(** Frames have one sample per output *)
Definition frame_ok (g : gen F P) : Prop := forall s x, length x = g_ins g -> length (snd (g_process g s x)) = g_outs g.
(** From every state, for every number of frames, input, and previous contents of the output, processing a block leaves the same
    state and gives the same samples as processing its frames one by one. *)
Definition agrees (g : gen F P) : Prop := forall s n i o, shape (g_ins g) n i -> shape (g_outs g) n o ->
  let r := g_block g s n i o in let q := by_frame (g_process g) s (frames (g_ins g) n i) in
  fst r = fst q /\ shape (g_outs g) n (snd r) /\ frames (g_outs g) n (snd r) = snd q.
(** Histories: parameter changes and blocks of any size (with the previous contents of the output) *)
Inductive hop := HParam (p : P) | HBlock (n : nat) (i o : list (list F)).
Definition hop_ok (g : gen F P) (h : hop) : Prop := match h with HParam _ => True | HBlock n i o => shape (g_ins g) n i /\ shape (g_outs g) n o end.
(** The frames produced with [process_block] and with [process] *)
Fixpoint blocks_run (g : gen F P) (s : g_state g) (l : list hop) : list (list F) :=
  match l with
  | [] => [] | HParam p :: l => blocks_run g (g_param g s p) l
  | HBlock n i o :: l => let r := g_block g s n i o in frames (g_outs g) n (snd r) ++ blocks_run g (fst r) l
  end.
Fixpoint frames_run (g : gen F P) (s : g_state g) (l : list hop) : list (list F) :=
  match l with
  | [] => [] | HParam p :: l => frames_run g (g_param g s p) l
  | HBlock n i o :: l => let r := by_frame (g_process g) s (frames (g_ins g) n i) in snd r ++ frames_run g (fst r) l
  end.
(** The frames of each block of a history *)
Fixpoint block_list (g : gen F P) (s : g_state g) (l : list hop) : list (list (list F)) :=
  match l with
  | [] => [] | HParam p :: l => block_list g (g_param g s p) l
  | HBlock n i o :: l => let r := g_block g s n i o in frames (g_outs g) n (snd r) :: block_list g (fst r) l
  end.
(** What a generator sees of a history when some parameters are meant for another, and the value of those at each block *)
Definition others {V} (set : P -> option V) (l : list hop) : list hop :=
  filter (fun h => match h with HParam p => match set p with Some _ => false | None => true end | HBlock _ _ _ => true end) l.
Fixpoint values {V} (set : P -> option V) (v : V) (l : list hop) : list V :=
  match l with [] => [] | HParam p :: l => values set (match set p with Some w => w | None => v end) l | HBlock _ _ _ :: l => v :: values set v l end.
End Spec.
Arguments hop : clear implicits.
