(** C48: block and sample processing agree. *)
From Verif Require Import Base MathModel MathSpec MathProofs.
Open Scope nat_scope.

(** The generators for every operation on every sample type, and every generator that has only [process] *)
Theorem C48_math : forall F P (zero : F) op channels, agrees (P := P) zero (math_gen zero op channels).
Proof. intros. apply math_agrees. Qed.
Print Assumptions C48_math.
Theorem C48_math1 : forall F P (zero : F) op, agrees (P := P) zero (math1_gen zero op).
Proof. intros. apply math1_agrees. Qed.
Print Assumptions C48_math1.
Theorem C48_default : forall F P (zero : F) S ins outs (proc : S -> list F -> S * list F) (param : S -> P -> S),
  (forall s x, length x = ins -> length (snd (proc s x)) = outs) -> agrees zero (plain_gen zero ins outs proc param).
Proof. intros. apply plain_agrees. assumption. Qed.
Print Assumptions C48_default.
(** What they compute: output channel c is [a op b] of the input channels c and c+channels *)
Theorem C48_value : forall F P (zero : F) op channels s n i o c f, shape (2 * channels) n i -> shape channels n o -> c < channels -> f < n ->
  nth f (nth c (snd (g_block (math_gen (P := P) zero op channels) s n i o)) []) zero = op (nth f (nth c i []) zero) (nth f (nth (c + channels) i []) zero).
Proof.
  intros F P zero op channels s n i o c f Hi Ho Hc Hf. destruct (math_channels_ok zero op channels n i channels 0 o eq_refl Hi Ho) as [_ B]. apply (B c f Hc Hf).
Qed.
Print Assumptions C48_value.
(** The wrappers, around every generator for which it holds: WrMul, WrAdd, WrSub, WrVSub, WrDiv, WrVDiv, WrPowf, WrPowi (any [op]), *)
Theorem C48_wrapper : forall F P (zero : F) V (op : V -> F -> F) set (g : gen F P), agrees zero g -> agrees zero (wr_op op set g).
Proof. intros. apply wr_op_agrees. assumption. Qed.
Print Assumptions C48_wrapper.
(** and the closure wrapper if the closure keeps no state or there is a single channel. *)
Theorem C48_closure_partial : forall F P (zero : F) C (h : F -> F) (g : gen F P), agrees zero g -> agrees zero (wr_closure (C := C) (fun c x => (c, h x)) g).
Proof. intros. apply wr_pure_agrees. assumption. Qed.
Print Assumptions C48_closure_partial.
Theorem C48_closure_mono_partial : forall F P (zero : F) C (f : C -> F -> C * F) (g : gen F P), g_outs g = 1 -> frame_ok g -> agrees zero g -> agrees zero (wr_closure f g).
Proof. intros. apply wr_mono_agrees; assumption. Qed.
Print Assumptions C48_closure_mono_partial.
(** Stacks of wrappers *)
Inductive layer (F P : Type) := LOp (V : Type) (op : V -> F -> F) (set : P -> option V) | LPure (C : Type) (h : F -> F).
Definition put {F P} (l : layer F P) (g : gen F P) : gen F P :=
  match l with LOp _ _ V op set => wr_op op set g | LPure _ _ C h => wr_closure (C := C) (fun c x => (c, h x)) g end.
Theorem C48_stack : forall F P (zero : F) (ls : list (layer F P)) g, agrees zero g -> agrees zero (fold_right put g ls).
Proof. intros F P zero ls g Hg. induction ls as [| [V op set | C h] ls IH]; cbn [fold_right put]; [exact Hg | apply wr_op_agrees; exact IH | apply wr_pure_agrees; exact IH]. Qed.
Print Assumptions C48_stack.
(** Whole histories of parameter changes and blocks of any size *)
Theorem C48_history : forall F P (zero : F) (ls : list (layer F P)) g s l, agrees zero g -> let w := fold_right put g ls in Forall (hop_ok w) l -> blocks_run zero w s l = frames_run zero w s l.
Proof. intros F P zero ls g s l Hg w Hl. apply run_agrees; [apply C48_stack; exact Hg | exact Hl]. Qed.
Print Assumptions C48_history.

(** A wrapper is transparent: it maps what the inner generator gives for the parameters that are not the wrapper's own, each block
    with the value last set *)
Lemma frames_map : forall F (zero : F) (f : F -> F) c n b, length b = c -> Forall (fun ch => length ch = n) b -> frames zero c n (map (map f) b) = map (map f) (frames zero c n b).
Proof.
  intros F zero f c n b Hc Hn. unfold frames. rewrite map_map. apply map_ext_in. intros k Hk. apply in_seq in Hk. rewrite map_map. apply map_ext_in. intros ch Hch. apply in_seq in Hch.
  rewrite Forall_forall in Hn. assert (L : length (nth ch b []) = n) by (apply Hn; apply nth_In; lia).
  rewrite (nth_indep _ [] (map f [])) by (rewrite map_length; lia). rewrite map_nth. rewrite (nth_indep _ zero (f zero)) by (rewrite map_length; lia). apply map_nth.
Qed.
Theorem C48_transparent : forall F P (zero : F) V (op : V -> F -> F) (set : P -> option V) (g : gen F P), agrees zero g -> forall l v s, Forall (hop_ok g) l ->
  block_list zero (wr_op op set g) (v, s) l = map (fun q => map (map (op (fst q))) (snd q)) (combine (values set v l) (block_list zero g s (others set l))).
Proof.
  intros F P zero V op set g Hg l. induction l as [| [p | n i o] l IH]; intros v s Hl; [reflexivity | |]; inversion Hl as [| ? ? Hh Hl2]; subst.
  - cbn [block_list wr_op g_param others filter values fst snd]. destruct (set p) as [w |]; [apply IH; exact Hl2 |]. cbn [block_list]. apply IH. exact Hl2.
  - cbn [block_list wr_op g_block g_outs others filter values fst snd combine map]. destruct Hh as [Hi Ho]. destruct (Hg s n i o Hi Ho) as (_ & [A B] & _). f_equal; [apply frames_map; assumption |]. apply (IH v). exact Hl2.
Qed.
Print Assumptions C48_transparent.
(** The same for closures without a state *)
Theorem C48_closure_transparent : forall F P (zero : F) (h : F -> F) (g : gen F P), agrees zero g -> forall l s, Forall (hop_ok g) l ->
  block_list zero (wr_closure (C := unit) (fun c x => (c, h x)) g) (tt, s) l = map (map (map h)) (block_list zero g s l).
Proof.
  intros F P zero h g Hg l. induction l as [| [p | n i o] l IH]; intros s Hl; [reflexivity | |]; inversion Hl as [| ? ? Hh Hl2]; subst.
  - cbn [block_list wr_closure g_param fst snd]. apply IH. exact Hl2.
  - cbn [block_list wr_closure g_block g_outs fst snd map]. destruct Hh as [Hi Ho]. destruct (Hg s n i o Hi Ho) as (_ & [A B] & _).
    assert (S1 : forall c, map_state (fun (c : unit) x => (c, h x)) tt c = (tt, map h c)) by (induction c as [| x c IHc]; cbn [map_state fst snd map]; [reflexivity | rewrite IHc; reflexivity]).
    assert (S2 : forall b, map_channels (fun (c : unit) x => (c, h x)) tt b = (tt, map (map h) b)) by (induction b as [| c b IHb]; cbn [map_channels map]; [reflexivity | rewrite S1; cbn [fst snd]; rewrite IHb; reflexivity]).
    rewrite S2. cbn [fst snd]. f_equal; [apply frames_map; assumption |]. apply IH. exact Hl2.
Qed.
Print Assumptions C48_closure_transparent.
(** An inner gain, set by even parameters, in a wrapper that adds, set by odd ones *)
Definition gain : gen Z Z := wr_op Z.mul (fun p => if Z.even p then Some (p / 2)%Z else None) (math1_gen 0%Z Z.opp).
Example C48_transparent_case : let l := [HBlock 1 [[5]] [[0]]; HParam 4; HParam 7; HBlock 1 [[5]] [[0]]]%Z in
  block_list 0%Z (wr_op Z.add (fun p => if Z.even p then None else Some p) gain) (1, (1, tt))%Z l = [[[-4]]; [[-3]]]%Z.
Proof. reflexivity. Qed.

(** 2 * (a - b) + 1 on two channels; the factor becomes 3 between the blocks *)
Definition sub2 : gen Z Z := math_gen 0%Z Z.sub 2.
Definition stack2 : gen Z Z := fold_right put sub2 [LOp Z Z Z Z.add (fun _ => None); LOp Z Z Z Z.mul Some].
Definition ops2 : list (hop Z Z) := [HBlock 2 [[10; 20]; [30; 40]; [1; 2]; [3; 4]] [[7; 7]; [7; 7]]; HParam 3; HBlock 1 [[5]; [6]; [7]; [9]] [[0]; [0]]]%Z.
Example stack2_case : Forall (hop_ok stack2) ops2 /\ blocks_run 0%Z stack2 (1, (2, tt))%Z ops2 = [[19; 55]; [37; 73]; [-5; -8]]%Z.
Proof. split; [| reflexivity]. repeat constructor. Qed.
(** A closure that counts its calls, on two channels: called frame by frame it sees the channels in turn, in a block it sees one
    channel after the other. *)
Definition counter : gen Z Z := wr_closure (fun (c : Z) x => (c + 1, x + c)%Z) sub2.
Theorem C48_closure_refuted : let i := [[0; 0]; [0; 0]; [0; 0]; [0; 0]]%Z in let o := [[0; 0]; [0; 0]]%Z in
  shape (g_ins counter) 2 i /\ shape (g_outs counter) 2 o /\ agrees 0%Z sub2 /\
  snd (g_block counter (0%Z, tt) 2 i o) = [[0; 1]; [2; 3]]%Z /\ snd (by_frame (g_process counter) (0%Z, tt) (frames 0%Z 4 2 i)) = [[0; 1]; [2; 3]]%Z /\
  frames 0%Z 2 2 (snd (g_block counter (0%Z, tt) 2 i o)) = [[0; 2]; [1; 3]]%Z.
Proof. cbv zeta. split; [repeat constructor |]. split; [repeat constructor |]. split; [apply math_agrees |]. repeat split; reflexivity. Qed.
Print Assumptions C48_closure_refuted.
