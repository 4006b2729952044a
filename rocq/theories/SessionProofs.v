(** The silent channel stays silent. *)
From Verif Require Import Base GraphModel GraphSpec GraphBase GraphPath GraphInv GraphShape GraphRefs GraphClean
  OrderModel OrderSpec OrderProofs AllocModel AllocProofs PlaceProofs RenderSpec PlanProofs RenderModel RenderProofs SessionModel.
Local Open Scope nat_scope.

(** ** the first block of the allocation is never granted *)
Definition zinv (bs : nat) (a : alloc) (rem : nat) : Prop :=
  lay a /\ exists b, nth_error (a_blocks a) 0 = Some b /\ b_start b = 0 /\ b_len b = bs /\ (N.of_nat rem < b_borrows b)%N.
Lemma zinv_get bs a rem n bo a' off : zinv bs a rem -> get_block a n bs bo = Some (a', off) -> zinv bs a' rem /\ bs <= off.
Proof.
  intros (Hl & b & Z1 & Z2 & Z3 & Z4) H. destruct (get_spec a n bs bo Hl)
    as (a2 & off2 & E & Hl' & _ & _ & _ & i & len & Hi & _ & Ho & Hcase).
  rewrite H in E. injection E as <- <-.
  assert (Hi0 : i <> 0).
  { intros ->. destruct Hcase as [(E & _)|(_ & (c & Hc & _ & _ & Hz) & _)].
    - assert (Hlt : 0 < List.length (a_blocks a)) by (apply nth_error_Some; congruence). lia.
    - rewrite Hc in Z1. injection Z1 as <-. lia. }
  assert (Z1' : nth_error (a_blocks a') 0 = Some b) by (rewrite Ho by congruence; exact Z1).
  split; [split; [exact Hl'|exists b; auto]|]. assert (Hlt : 0 < i) by lia.
  pose proof (la_order _ Hl' _ _ _ _ Hlt Z1' Hi) as H'. cbn in H'. lia.
Qed.
Lemma zinv_return bs a rem off a' : zinv bs a (S rem) -> return_block a off = Some a' -> zinv bs a' rem.
Proof.
  intros (Hl & b & Z1 & Z2 & Z3 & Z4) H. pose proof (return_lay _ _ _ Hl H) as Hl'. split; [exact Hl'|].
  destruct (return_cases _ _ _ H) as [[-> _]|(i & c & C1 & C2 & C3 & _ & (_ & _ & _ & (d & D1 & D2) & T5) & _)].
  - exists b. repeat (split; [assumption|]). lia.
  - destruct i as [|i].
    + rewrite Z1 in C1, D1. injection C1 as <-. injection D1 as <-. eexists. split; [exact D2|]. cbn.
      repeat (split; [assumption|]). lia.
    + exists b. rewrite T5 by lia. repeat (split; [assumption|]). lia.
Qed.
Lemma zinv_less bs a rem rem' : zinv bs a rem -> rem' <= rem -> zinv bs a rem'.
Proof. intros (Hl & b & Z1 & Z2 & Z3 & Z4) H. split; [exact Hl|]. exists b. repeat (split; [assumption|]). lia. Qed.
Lemma zinv_return_all bs outs srcs : forall a rem a', zinv bs a (List.length srcs + rem) ->
  return_all a outs srcs = Some a' -> zinv bs a' rem.
Proof.
  induction srcs as [|s srcs IH]; intros a rem a' Hz H; cbn [return_all List.length Nat.add] in *.
  - injection H as <-. exact Hz.
  - destruct (outs s) as [|o]; cbn [bind] in H.
    + eapply IH; [|exact H]. eapply zinv_less; [exact Hz|lia].
    + destruct (return_block a o) as [a1|] eqn:E; cbn [bind] in H; [|discriminate].
      eapply IH; [|exact H]. eapply zinv_return; eauto.
Qed.
Lemma zinv_loop g bs : forall order a outs a' outs', zinv bs a (List.length (flat_map (sources g) order)) ->
  alloc_loop g bs a outs order = Some (a', outs') ->
  (forall k, ~ In k order -> outs' k = outs k) /\
  (NoDup order -> forall k, In k order -> exists o, outs' k = Off o /\ bs <= o).
Proof.
  induction order as [|k order IH]; intros a outs a' outs' Hz H; cbn [alloc_loop flat_map] in *.
  { injection H as <- <-. split; [reflexivity|intros _ k []]. }
  destruct (lookup g k) as [n|]; cbn [bind] in H; [|discriminate].
  destruct (get_block a _ bs _) as [[a1 off]|] eqn:Eg; cbn [bind fst snd] in H; [|discriminate].
  destruct (edges_of g k); cbn [bind] in H; [|discriminate].
  destruct (pedges_of g k); cbn [bind] in H; [|discriminate].
  destruct (return_all a1 _ (sources g k)) as [a2|] eqn:Er; cbn [bind] in H; [|discriminate].
  destruct (zinv_get _ _ _ _ _ _ _ Hz Eg) as [Hz1 Hoff]. rewrite app_length in Hz1.
  pose proof (zinv_return_all _ _ _ _ _ _ Hz1 Er) as Hz2. destruct (IH _ _ _ _ Hz2 H) as [I1 I2]. split.
  - intros x Hx. cbn in Hx. rewrite I1 by tauto. unfold upd. destruct (Nat.eqb_spec x k); [exfalso; apply Hx; auto|reflexivity].
  - intros Hnd x [<-|Hx]; inversion Hnd as [|? ? Hk Hnd']; subst; [|auto].
    exists off. split; [|exact Hoff]. rewrite I1 by exact Hk. unfold upd. rewrite Nat.eqb_refl. reflexivity.
Qed.
Lemma Forall2_in_right {A B} (R : A -> B -> Prop) l l' : Forall2 R l l' -> forall y, In y l' -> exists x, In x l /\ R x y.
Proof.
  induction 1 as [|x y l l' Hxy _ IH]; intros z Hz; [destruct Hz|]. destruct Hz as [<-|Hz].
  - exists x. split; [left; reflexivity|exact Hxy].
  - destruct (IH z Hz) as (w & Hw & Hr). exists w. split; [right; exact Hw|exact Hr].
Qed.
(** No task writes to the first block. *)
Definition spared (bs : nat) (td : task_data) : Prop := forall t, In t (td_tasks td) -> bs <= t_out t.
Lemma plan_spared g bs a old a1 td : wf g -> few_links g -> plan g bs a old = Some (a1, td) ->
  spared bs td /\ exists off order, node_order g = Some order /\ Forall2 (task_of g bs order off) order (td_tasks td) /\
    td_out td = map (out_of bs off) (g_outs g).
Proof.
  intros Hw Hf H. destruct (plan_inv _ _ _ _ _ _ H) as (order & a0 & a2 & outs & Ho & Hreset & Hloop & -> & Ht & Htd & _).
  destruct (order_once g order Hw Ho) as [Hnd _].
  destruct (reset_spec a bs) as (a0' & Er & Hl & _ & Hb & _). rewrite Hreset in Er. injection Er as <-.
  assert (Hz : zinv bs a0 (List.length (flat_map (sources g) order))).
  { split; [exact Hl|]. rewrite Hb. exists (mk_blk 0 bs usize_max). cbn. repeat (split; [reflexivity|]).
    destruct (flat_map_sub (sources g) order (keys g) Hnd (order_incl g order Hw Ho)) as [l3 Hp].
    apply Permutation.Permutation_length in Hp. rewrite app_length in Hp. unfold few_links in Hf. unfold keys in Hp. lia. }
  destruct (zinv_loop _ _ _ _ _ _ _ Hz Hloop) as [_ Hoff]. specialize (Hoff Hnd).
  split; [|exists (offs outs), order; auto].
  intros t Hin. assert (Hg : exists k, In k order /\ task_of g bs order (offs outs) k t).
  { exact (Forall2_in_right _ _ _ Ht t Hin). }
  destruct Hg as (k & Hk & n & es & ps & _ & _ & _ & -> & _). cbn. destruct (Hoff k Hk) as (o & Eo & Hle).
  unfold offs. rewrite Eo. exact Hle.
Qed.

Section Session.
Variable F : Type.
Variable zero : F.
Variable St : Type.
Variable proc : key -> St -> list (list F) -> list (N * list F) -> St * (nat -> nat -> F).
Variable bs : nat.
Notation silent := (silent F zero bs).
Notation in_session := (in_session F zero St proc bs).
Notation session_step := (session_step F zero St proc bs).

Lemma tasks_silent gin ts : (forall t, In t ts -> bs <= t_out t) -> forall m st, silent m ->
  silent (fst (run_tasks F St proc bs gin ts (m, st))).
Proof.
  induction ts as [|t ts IH]; intros Ht m st Hm; [exact Hm|]. unfold run_tasks. cbn [fold_left].
  destruct (run_task F St proc bs gin (m, st) t) as [m1 st1] eqn:E. apply IH.
  - intros t' H. apply Ht. right. exact H.
  - unfold run_task in E. injection E as <- _. intros x Hx. specialize (Ht t (or_introl eq_refl)). unfold write.
    destruct (Nat.leb_spec (t_out t) x); [lia|]. cbn. apply Hm. exact Hx.
Qed.
(** The tasks of the session are a plan of [s_planned], and the first block is silent. *)
Definition planned (g : graph) (td : task_data) : Prop :=
  (td_tasks td = [] /\ td_out td = map (fun _ => None) (g_outs g) /\ forall c, out_edge g c = None) \/
  exists off order, Forall2 (task_of g bs order off) order (td_tasks td) /\ td_out td = map (out_of bs off) (g_outs g).
Lemma session_inv s : in_session s -> wf (s_graph _ _ s) /\ silent (s_mem _ _ s) /\ spared bs (s_td _ _ s) /\
  planned (s_planned _ _ s) (s_td _ _ s).
Proof.
  intros H. induction H as [id i o slots st|s op s' out _ (Hw & Hm & Hs & Hp) Hstep Hfew].
  - cbn. split; [apply graph_new_wf|]. split; [intros x _; reflexivity|]. split; [intros t []|].
    left. split; [reflexivity|]. split; [reflexivity|]. intros c. unfold out_edge, graph_new. cbn.
    destruct (nth_error (repeat None o) c) as [x|] eqn:E; [|reflexivity]. apply nth_error_In, repeat_spec in E. exact E.
  - destruct op as [o|gin]; cbn [SessionModel.session_step] in Hstep.
    + assert (Hedit : forall gr, step (s_graph _ _ s) o = Some gr ->
        s' = mk_session F St (fst gr) (s_alloc _ _ s) (s_old _ _ s) (s_td _ _ s) (s_mem _ _ s) (s_st _ _ s) (s_planned _ _ s) ->
        wf (s_graph _ _ s') /\ silent (s_mem _ _ s') /\ spared bs (s_td _ _ s') /\ planned (s_planned _ _ s') (s_td _ _ s')).
      { intros [g1 r] E ->. cbn. split; [eapply step_wf; eauto|]. auto. }
      destruct o; try (destruct (step (s_graph _ _ s) _) as [gr|] eqn:E; cbn [bind] in Hstep; [|discriminate];
        injection Hstep as <- _; apply (Hedit gr eq_refl eq_refl)).
      unfold session_commit in Hstep. set (ap := fun f => existsb (Nat.eqb f) applied) in *.
      destruct (free_old ap (s_graph _ _ s)) as [g1|] eqn:Eg; cbn [bind] in Hstep; [|discriminate].
      assert (Hc : exists g2, step (s_graph _ _ s) (OpCommit applied) = Some (g2, Ok) /\
        g2 = if g_recalc g1 then set_recalc (set_flag g1 (S (g_flag g1))) false else g1).
      { cbn [step]. unfold commit_edit. fold ap. rewrite Eg. cbn [bind]. destruct (g_recalc g1); cbn; eauto. }
      destruct Hc as (g2 & Ec & E2). pose proof (step_wf _ _ _ _ Hw Ec) as Hw2.
      destruct (g_recalc g1) eqn:Er.
      * destruct (plan g1 bs _ _) as [[a1 td]|] eqn:Ep; cbn [bind] in Hstep; [|discriminate].
        injection Hstep as <- _. cbn in *.
        assert (Hw1 : wf g1) by (revert Hw2; subst g2; intros [[[] ?] []]; split; [split; [constructor|]|constructor]; auto).
        destruct (plan_spared g1 bs _ _ _ _ Hw1 Hfew Ep) as [Hsp (off & order & _ & P1 & P2)].
        split; [rewrite <- E2; exact Hw2|]. split; [destruct (_ =? _); [exact Hm|intros x _; reflexivity]|].
        split; [exact Hsp|]. right. exists off, order. auto.
      * injection Hstep as <- _. cbn in *. subst g2. auto.
    + destruct (render F zero St proc bs (s_td _ _ s) gin (s_mem _ _ s, s_st _ _ s)) as [[m st'] o] eqn:E.
      injection Hstep as <- _. cbn. split; [exact Hw|]. split; [|auto]. unfold render in E.
      pose proof (tasks_silent gin (td_tasks (s_td _ _ s)) Hs (s_mem _ _ s) (s_st _ _ s) Hm) as H.
      destruct (run_tasks _ _ _ _ _ _ _) as [m1 st1]. cbn in *. injection E as <- _ _. exact H.
Qed.
Lemma silent_read m : silent m -> read F bs m 0 = repeat zero bs.
Proof.
  intros Hz. unfold read. rewrite <- (seq_length bs 0) at 2.
  assert (forall l, (forall x, In x l -> x < bs) -> map (fun i => m (0 + i)) l = repeat zero (List.length l)) as Hl.
  { induction l as [|x l IH]; intros Hx; [reflexivity|]. cbn. rewrite Hz by (apply Hx; left; reflexivity).
    f_equal. apply IH. intros z Hzz. apply Hx. right. exact Hzz. }
  apply Hl. intros x Hx. apply in_seq in Hx. lia.
Qed.
End Session.
