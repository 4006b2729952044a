(** Results: arithmetic on handles that is sent to graph outputs is heard there (C87) *)
From Coq Require Import ZArith.
From Verif Require Import Base GraphModel GraphSpec GraphBase GraphPath GraphInv GraphShape GraphStep OrderSpec AllocModel RenderModel RenderSpec PlanProofs RenderProps SoundSpec SoundProofs SoundProps
  HandleModel HandleSpec HandleProofs HandleWire HandleProps OutModel MathModel MathSpec MathProps SplitModel FormulaSpec FormulaProofs.
Local Open Scope nat_scope.
Local Notation length := List.length.
Local Notation heard := OrderSpec.heard.

Lemma wire_expect_wf a : forall l g g', wf g -> wire_expect a g l = Some g' -> wf g'.
Proof.
  induction l as [| [[s so] [k si]] l IH]; intros g g' W H; cbn [wire_expect] in H; [injection H as <-; exact W |].
  destruct (connect2 g s so si k a false) as [[g1 r] |] eqn:E; cbn [bind fst snd] in H; [| discriminate]. destruct r; [| discriminate].
  apply (IH g1 g'); [eapply connect2_wf; eauto | exact H].
Qed.

(** ** C87 *)
(** Write any expression over handles and constants, in any graph that edits lead to, and send it to different graph outputs.
    If the plan made of the graph is sound, every block has in every frame at these outputs the values of the expression, with the operands in
    the written order, of what its operands put out in the same frame; added to what was connected to the output before, unless that is
    replaced.  The samples, the operators and
    the nodes that are neither constants nor operators are arbitrary.
    Missing: constants on the left of operators that do not commute ([C34_left_refuted]); graphs with feedback; plans that are not sound
    ([C87_reuse_refuted]). *)
Theorem C87_formula_partial : forall F zero den St proc bs (st : state F) e st' h additive cs g a old a1 td,
  reachable (s_g st) -> kinds_ok F st -> left_commutes F den e -> operands_ok F (s_g st) e -> channels F e = Some (length cs) ->
  build F st e = Some (st', h) -> NoDup cs -> send_static additive (s_g st') h cs = Some g ->
  refs_ok g -> (N.of_nat (links g) < usize_max)%N -> (forall k c e, in_edge g k c = Some e -> e_fb e = false) -> 0 < bs ->
  plan g bs a old = Some (a1, td) -> sound_plan g bs td -> behaves F zero den St proc bs (mk_state g (s_kinds st')) ->
  forall gins m s m' s' outs, (forall gin c, In gin gins -> c < g_inputs g -> length (gin c) = bs) -> (forall x, x < bs -> m x = zero) ->
  render_n F zero St proc bs td gins (m, s) = (m', s', outs) -> follows F zero den St proc bs g st e additive cs gins s outs.
Proof.
  intros F zero den St proc bs st e st' h additive cs g a old a1 td R K Lc Ho Hc Hb Nd Hs Hr Hl Hfb Hbs Hp Hso Hbe gins m s m' s' outs Hgin Hm H.
  pose proof (reachable_wf _ R) as W. destruct (kinds_build F e st st' h W K Hb) as [W1 _].
  assert (Hg : forward_graph g) by (constructor; [exact (wire_expect_wf _ _ _ _ W1 Hs) | assumption..]).
  destruct (sound_blocks F zero St proc bs g a old a1 td Hg Hbs Hp Hso gins m s m' s' outs Hm H) as [_ P]. clear H Hm.
  induction P as [s | gin gins s s1 V outs HV HS P IH]; [constructor |].
  apply follows_cons with (s1 := s1) (V := V); [exact HV | exact HS | | apply IH; intros gin' c Hin; apply Hgin; right; exact Hin].
  apply (formula_block F zero den St proc bs st e st' h additive cs g gin s V W K Lc Ho Hc Hb Nd Hs Hg Hbe); [intros c; apply Hgin; left; reflexivity | exact HV].
Qed.
Print Assumptions C87_formula_partial.
(** Building keeps the record of constants and operators right, so that expressions can be written one after the other. *)
Theorem C87_records : forall F e (st st' : state F) h, reachable (s_g st) -> kinds_ok F st -> build F st e = Some (st', h) -> kinds_ok F st'.
Proof. intros F e st st' h R K H. apply (kinds_build F e st st' h (reachable_wf _ R) K H). Qed.
Print Assumptions C87_records.

(** The nodes that are pushed: [MathUGen] with one channel (C48) and [Constant] put out what is asked of them, from any contents of the
    output buffer.  The other nodes: [others] *)
Section Nodes.
Variable F : Type.
Variable zero : F.
Variable den : mop -> F -> F -> F.
Variable St : Type.
Variable bs : nat.
Variable st : state F.
Variable others : key -> St -> list (list F) -> list (N * list F) -> St * (nat -> nat -> F).
Variable before : list F.
Definition of_block (b : list (list F)) : nat -> nat -> F := fun c f => nth f (nth c b []) zero.
Definition pushed (k : key) (s : St) (ins : list (list F)) (pars : list (N * list F)) : St * (nat -> nat -> F) :=
  match kind_of F st k with
  | KOther => others k s ins pars
  | KConst c => (s, of_block (snd (g_block (constant_gen (P := unit) (fun v _ => v)) (c, None) bs [] [before])))
  | KMath o => (s, of_block (snd (g_block (math_gen (P := unit) zero (den o) 1) tt bs ins [before])))
  end.
End Nodes.
Lemma fill_constant {F} (c : F) : forall m i d f, f < m -> nth f (snd (fill (fun (v : F) (_ : N) => (v, v, None)) i m c d)) c = c.
Proof. induction m as [| m IH]; intros i d f Hf; [lia |]. cbn [fill snd fst]. destruct f as [| f]; [reflexivity |]. cbn [nth snd]. apply IH. lia. Qed.
Lemma fill_length {F} (c : F) : forall m i d, length (snd (fill (fun (v : F) (_ : N) => (v, v, None)) i m c d)) = m.
Proof. induction m as [| m IH]; intros i d; [reflexivity |]. cbn [fill snd fst length]. f_equal. apply IH. Qed.
Theorem C87_nodes : forall F zero den St bs (st : state F) others before, length before = bs -> behaves F zero den St (pushed F zero den St bs st others before) bs st.
Proof.
  intros F zero den St bs st others before L. split.
  - intros k c s ins pars f Hk Hf. unfold pushed, of_block. rewrite Hk. cbn [snd constant_gen slice_gen g_block fst upd nth]. rewrite L.
    rewrite (nth_indep _ zero c) by (rewrite fill_length; exact Hf). apply fill_constant. exact Hf.
  - intros k o s x y pars f Hk Hx Hy Hf. unfold pushed, of_block. rewrite Hk. cbn [snd].
    rewrite (C48_value F unit zero (den o) 1 tt bs [x; y] [before] 0 f); [reflexivity | | | lia | exact Hf].
    + split; [reflexivity | repeat constructor; assumption].
    + split; [reflexivity | repeat constructor; assumption].
Qed.
Print Assumptions C87_nodes.

(** ** a concrete case: 1 + (A - B) * 3 on two channels (the expression of [C34_expr_case]), with node 2 on output 0 before *)
Definition case_ops0 : list op := ops0 ++ [OpConnect (nd 2) 0 0 NGraph true false].
Definition case_st : state Z := mk_state (match run (graph_new 7 1 2 []) case_ops0 with Some g => g | None => ex_g end) [].
Definition case_built : state Z * handle := match build Z case_st ex_e with Some r => r | None => (case_st, hA) end.
Definition case_g : graph := match send_static true (s_g (fst case_built)) (snd case_built) [0; 1] with Some g => g | None => ex_g end.
(** The other nodes count frames, from the values of [zenv] and their first state on *)
Definition case_others (k : key) (s : Z) (_ : list (list Z)) (_ : list (N * list Z)) : Z * (nat -> nat -> Z) :=
  ((s + 2)%Z, fun c f => (zenv (Some k, c) + s + Z.of_nat f)%Z).
Definition case_proc := pushed Z 0%Z zden Z 2 (mk_state case_g (s_kinds (fst case_built))) case_others [9; 9]%Z.
Lemma case_edges : forall k c e, in_edge case_g k c = Some e -> edge_ok case_g e /\ e_fb e = false /\ (forall s, e_src e = Some s -> s < 10).
Proof.
  intros k c e. do 12 (destruct k as [| k]; [do 2 (destruct c as [| c]; [vm_compute; intros H; try discriminate H; injection H as <-;
    (split; [eexists; split; [reflexivity |]; split; [discriminate | lia] |]; split; [reflexivity |]; cbn; intros s Hs; injection Hs as <-; lia) |]); vm_compute; destruct c; discriminate |]).
  vm_compute. discriminate.
Qed.
Lemma case_outs : forall c e, out_edge case_g c = Some e -> edge_ok case_g e /\ exists s, e_src e = Some s /\ 10 <= s.
Proof.
  intros c e. do 2 (destruct c as [| c]; [vm_compute; intros H; injection H as <-; (split; [eexists; split; [reflexivity |]; split; [discriminate | lia] |]); eexists; split; [reflexivity | lia] |]).
  vm_compute. destruct c; discriminate.
Qed.
Lemma case_no_par : forall s k, ~ par_feeds case_g s k.
Proof.
  intros s k (n & ps & p & El & E & Hin & _). revert n ps E Hin El.
  do 12 (destruct k as [| k]; [intros n ps E Hin; vm_compute; intros El; injection El as <-; cbn in E; injection E as <-; destruct Hin |]).
  intros n ps _ _. vm_compute. discriminate.
Qed.
Definition case_ops : list op := case_ops0 ++
  [ OpPush 2 1 [] false; OpConnect (nd 0) 0 0 (nd 3) true false; OpConnect (nd 1) 0 1 (nd 3) true false;
    OpPush 2 1 [] false; OpConnect (nd 0) 1 0 (nd 4) true false; OpConnect (nd 1) 1 1 (nd 4) true false;
    OpPush 0 1 ["value"%string] false;
    OpPush 2 1 [] false; OpConnect (nd 3) 0 0 (nd 6) true false; OpConnect (nd 5) 0 1 (nd 6) true false;
    OpPush 2 1 [] false; OpConnect (nd 4) 0 0 (nd 7) true false; OpConnect (nd 5) 0 1 (nd 7) true false;
    OpPush 0 1 ["value"%string] false;
    OpPush 2 1 [] false; OpConnect (nd 6) 0 0 (nd 9) true false; OpConnect (nd 8) 0 1 (nd 9) true false;
    OpPush 2 1 [] false; OpConnect (nd 7) 0 0 (nd 10) true false; OpConnect (nd 8) 0 1 (nd 10) true false;
    OpConnect (nd 9) 0 0 NGraph true false; OpConnect (nd 10) 0 1 NGraph true false ].
Lemma case_plain : plain_graph case_g.
Proof.
  assert (R : reachable case_g) by (exists 7%N, 1, 2, [], case_ops; vm_compute; reflexivity).
  split; [exact R |]. split; [split; [intros k c e H; apply (case_edges k c e H) | intros c e H; apply (case_outs c e H)] |]. split; [vm_compute; reflexivity |].
  split; [intros k c e H; apply (case_edges k c e H) |]. split.
  - assert (A : forall x y, upstream case_g x y -> clos_trans key (feeds case_g) x y).
    { intros x y. induction 1 as [x y [(c & e & H1 & H2 & _) | H] | x y z _ IH1 _ IH2]; [apply t_step; exists c, e; auto | destruct (case_no_par _ _ H) | eapply t_trans; eauto]. }
    intros k Hk. apply A in Hk. apply (GraphProps.C08_never_cyclic case_g R). exists k. exact Hk.
  - intros s k (c & e & He & Es) [(d & e' & He' & Es') | H]; [| exact (case_no_par _ _ H)].
    destruct (case_outs c e He) as (_ & s' & Es2 & Hs). destruct (case_edges k d e' He') as (_ & _ & Hlt). specialize (Hlt s Es'). assert (s' = s) by congruence. lia.
Qed.
(** all hypotheses of [C87_formula_partial], and two blocks of two frames, with A at 5+i, 6+i, B at 11+i, 21+i and node 2 at 102+i in frame i *)
Example C87_case : reachable (s_g case_st) /\ kinds_ok Z case_st /\ left_commutes Z zden ex_e /\ operands_ok Z (s_g case_st) ex_e /\ channels Z ex_e = Some (length [0; 1]) /\
  build Z case_st ex_e = Some case_built /\ NoDup [0; 1] /\ out_edge (s_g case_st) 0 <> None /\
  send_static true (s_g (fst case_built)) (snd case_built) [0; 1] = Some case_g /\
  refs_ok case_g /\ (N.of_nat (links case_g) < usize_max)%N /\ (forall k c e, in_edge case_g k c = Some e -> e_fb e = false) /\
  behaves Z 0%Z zden Z case_proc 2 (mk_state case_g (s_kinds (fst case_built))) /\
  exists a1 td, plan case_g 2 (alloc_new 16) (fun _ => false) = Some (a1, td) /\ sound_plan case_g 2 td /\
    snd (render_n Z 0%Z Z case_proc 2 td [fun _ => [0; 0]%Z; fun _ => [0; 0]%Z] (fun _ => 0%Z, fun k => Z.of_nat k)) = [[[85; 86]; [-44; -44]]; [[87; 88]; [-44; -44]]]%Z.
Proof.
  split; [exists 7%N, 1, 2, [], case_ops0; vm_compute; reflexivity |]. split; [intros k kd [] |]. split; [exact (proj1 C34_expr_case) |]. split.
  { cbn [operands_ok ex_e]. split; intros c [<- | [<- | []]]; (split; [vm_compute; reflexivity | eexists; split; [vm_compute; reflexivity | cbn; lia]]). }
  split; [reflexivity |]. split; [vm_compute; reflexivity |]. split; [repeat constructor; cbn; intuition discriminate |]. split; [vm_compute; discriminate |]. split; [vm_compute; reflexivity |].
  destruct case_plain as (_ & R & L & Nf & _). split; [exact R |]. split; [exact L |]. split; [exact Nf |]. split; [apply C87_nodes; reflexivity |].
  destruct (plan case_g 2 (alloc_new 16) (fun _ => false)) as [[a1 td] |] eqn:Ep; [| vm_compute in Ep; discriminate]. exists a1, td. split; [reflexivity |].
  split; [exact (C17_plain_graphs_sound 2 case_g (alloc_new 16) (fun _ => false) a1 td case_plain ltac:(lia) Ep) |].
  vm_compute in Ep. injection Ep as <- <-. vm_compute. reflexivity.
Qed.

(** ** false without a sound plan *)
(** [let y = x * 2; (y + 1 + 1).to_graph_out_channels(0); y.to_graph_out_channels(1)], with x at 5: output 1 has 12 instead of 10.  The
    memory of y is given away once the node that reads it has run, since graph outputs are not counted as readers. *)
Definition reuse_x : expr Z := EConstR Z OMul (EHandle Z (mk_handle [] [(nd 0, 0)])) 2%Z.
Definition reuse_others (k : key) (s : unit) (_ : list (list Z)) (_ : list (N * list Z)) : unit * (nat -> nat -> Z) := (s, fun c _ => zenv (Some k, c)).
Theorem C87_reuse_refuted : exists st1 y st2 w g1 g a1 td,
  reachable (s_g ex_st) /\ build Z ex_st reuse_x = Some (st1, y) /\
  build Z st1 (EConstR Z OAdd (EConstR Z OAdd (EHandle Z y) 1%Z) 1%Z) = Some (st2, w) /\
  send_static true (s_g st2) w [0] = Some g1 /\ send_static true g1 y [1] = Some g /\
  plan g 2 (alloc_new 16) (fun _ => false) = Some (a1, td) /\
  means Z 0%Z zden zenv ex_st reuse_x [10%Z] /\ behaves Z 0%Z zden unit (pushed Z 0%Z zden unit 2 (mk_state g (s_kinds st2)) reuse_others [0; 0]%Z) 2 (mk_state g (s_kinds st2)) /\
  snd (render Z 0%Z unit (pushed Z 0%Z zden unit 2 (mk_state g (s_kinds st2)) reuse_others [0; 0]%Z) 2 td (fun _ => [0; 0]%Z) (fun _ => 0%Z, fun _ => tt)) = [[12; 12]; [12; 12]]%Z.
Proof.
  destruct (build Z ex_st reuse_x) as [[st1 y] |] eqn:E1; [| vm_compute in E1; discriminate].
  destruct (build Z st1 (EConstR Z OAdd (EConstR Z OAdd (EHandle Z y) 1%Z) 1%Z)) as [[st2 w] |] eqn:E2; [| vm_compute in E1; injection E1 as <- <-; vm_compute in E2; discriminate].
  vm_compute in E1. injection E1 as <- <-. vm_compute in E2. injection E2 as <- <-.
  do 8 eexists. split; [exact ex_reachable |]. split; [reflexivity |]. split; [vm_compute; reflexivity |]. split; [vm_compute; reflexivity |]. split; [vm_compute; reflexivity |].
  split; [vm_compute; reflexivity |]. split; [exists [5%Z]; split; [constructor; [apply (ex_src 0 0); lia | constructor] | reflexivity] |].
  split; [apply C87_nodes; reflexivity |]. vm_compute. reflexivity.
Qed.
Print Assumptions C87_reuse_refuted.
