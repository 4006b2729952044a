(** What an edit or a clean-up can do to keys, pending nodes and live nodes. *)
From Verif Require Import Base GraphModel GraphSpec GraphBase GraphPath GraphInv GraphShape GraphGrow OrderProofs.
Local Open Scope nat_scope.

Lemma live_iff g k : wf g -> live g k <-> In k (keys g) /\ ~ In k (map fst (g_pending g)).
Proof.
  intros [Hi Hs]. split.
  - intros (n & es & El & Ee). split; [eapply lookup_key; eauto|]. intros Hp. apply is_pending_In in Hp.
    apply (sh_pend g Hs k n El) in Hp. congruence.
  - intros [Hk Hp]. destruct (lookup g k) as [n|] eqn:El.
    + exists n. destruct (n_edges n) as [es|] eqn:Ee; [eauto|]. exfalso. apply Hp. apply is_pending_In.
      apply (sh_pend g Hs k n El). exact Ee.
    + exfalso. apply nlookup_None in El. exact (El Hk).
Qed.

(** [A] says which flags the audio thread has set; nodes waiting for those disappear. *)
Record evolves (A : nat -> bool) (g g' : graph) : Prop := {
  ev_wf : wf g';
  ev_flag : g_flag g' = g_flag g;
  ev_next : g_next g <= g_next g';
  ev_new : forall k, In k (keys g') -> In k (keys g) \/ g_next g <= k < g_next g';
  ev_back : forall k, In k (keys g) -> In k (keys g') \/ exists f, In (k, f) (g_pending g) /\ A f = true;
  ev_gone : forall k f, In (k, f) (g_pending g) -> A f = true -> ~ In k (keys g');
  ev_full : forall k, g_next g <= k < g_next g' -> In k (keys g');
  ev_pend : forall k f, In (k, f) (g_pending g') -> (In (k, f) (g_pending g) /\ A f = false) \/ f = g_flag g;
  ev_live : forall k, live g' k -> k < g_next g -> live g k;
  ev_calm : g_recalc g' = false -> g_recalc g = false /\ g_next g' = g_next g /\ forall k, live g k -> live g' k }.

Lemma grow_evolves g g' : wf g -> wf g' -> grow g g' -> evolves (fun _ => false) g g'.
Proof.
  intros Hw Hw' [A B C D F (l & P1 & P2) K].
  assert (Hlt : forall k, In k (keys g') -> k < g_next g') by apply (bi_lt g' (proj1 (proj1 Hw'))).
  constructor; try assumption.
  - intros k Hk. pose proof (Hlt k Hk). apply D in Hk as [Hk|Hk]; [auto|right; lia].
  - intros k Hk. left. apply C. exact Hk.
  - discriminate.
  - intros k f Hk. rewrite P1 in Hk. apply in_app_or in Hk as [Hk|Hk]; [auto|right]. apply (P2 (k, f) Hk).
  - intros k Hl Hk. apply live_iff in Hl as [H1 H2]; [|exact Hw']. apply live_iff; [exact Hw|]. split.
    + apply D in H1 as [H1|H1]; [exact H1|lia].
    + intros Hp. apply H2. rewrite P1, map_app. apply in_or_app. auto.
  - intros Hc. apply K in Hc as (Hc & E1 & E2). split; [exact Hc|]. split; [exact E1|]. intros k Hl.
    apply live_iff in Hl as [H1 H2]; [|exact Hw]. apply live_iff; [exact Hw'|]. rewrite E2. auto.
Qed.
Lemma edit_evolves g o g' r : wf g -> (forall fl, o <> OpCommit fl) -> step g o = Some (g', r) -> evolves (fun _ => false) g g'.
Proof. intros Hw Hne H. apply grow_evolves; [exact Hw|eapply step_wf; eauto|eapply grow_step; eauto]. Qed.

Lemma keys_swept A g k : In k (keys (swept A g)) <-> In k (keys g) /\ ~ In k (gone A g).
Proof.
  unfold keys, swept; cbn [g_nodes set_pending set_nodes]. rewrite !in_map_iff. split.
  - intros (x & <- & Hx). apply filter_In in Hx as [Hx Hn]. split; [eauto|]. apply negb_true_iff in Hn.
    apply not_true_iff_false in Hn. intros Hg. apply Hn. apply existsb_eqb_In. exact Hg.
  - intros [(x & <- & Hx) Hn]. exists x. split; [reflexivity|]. apply filter_In. split; [exact Hx|].
    apply negb_true_iff. apply not_true_iff_false. rewrite existsb_eqb_In. exact Hn.
Qed.
Lemma gone_In A g k : In k (gone A g) <-> exists f, In (k, f) (g_pending g) /\ A f = true.
Proof.
  unfold gone. rewrite in_map_iff. split.
  - intros ([k' f] & E & H). cbn in E. subst k'. apply filter_In in H as [H1 H2]. eauto.
  - intros (f & H1 & H2). exists (k, f). split; [reflexivity|]. apply filter_In. auto.
Qed.
Lemma swept_evolves A g : wf g -> A (g_flag g) = false -> wf (swept A g) -> evolves A g (swept A g).
Proof.
  intros Hw Ha Hw'. constructor; try assumption; try reflexivity.
  - intros k Hk. apply keys_swept in Hk. tauto.
  - intros k Hk. destruct (in_dec Nat.eq_dec k (gone A g)) as [Hg|Hg].
    + right. apply gone_In. exact Hg.
    + left. apply keys_swept. auto.
  - intros k f H1 H2 Hk. apply keys_swept in Hk as [_ Hk]. apply Hk. apply gone_In. eauto.
  - cbn. lia.
  - intros k f Hk. unfold swept in Hk; cbn in Hk. apply filter_In in Hk as [H1 H2]. cbn in H2. apply negb_true_iff in H2. auto.
  - intros k Hl _. apply live_iff in Hl as [H1 H2]; [|exact Hw']. apply live_iff; [exact Hw|].
    apply keys_swept in H1 as [H1 H3]. split; [exact H1|]. intros Hp. apply H2. unfold swept; cbn.
    apply in_map_iff in Hp as ([k' f] & E & Hp). cbn in E. subst k'. apply in_map_iff. exists (k, f). split; [reflexivity|].
    apply filter_In. split; [exact Hp|]. apply negb_true_iff. apply not_true_iff_false. intros E. apply H3. apply gone_In. eauto.
  - intros Hc. split; [exact Hc|]. split; [reflexivity|]. intros k Hl. apply live_iff in Hl as [H1 H2]; [|exact Hw].
    apply live_iff; [exact Hw'|]. split.
    + apply keys_swept. split; [exact H1|]. intros Hg. apply gone_In in Hg as (f & Hg & _). apply H2. apply in_map_iff.
      exists (k, f). auto.
    + intros Hp. apply H2. apply in_map_iff in Hp as (x & <- & Hx). unfold swept in Hx; cbn in Hx. apply filter_In in Hx as [Hx _].
      apply in_map. exact Hx.
Qed.
Lemma filter_all {T} (f : T -> bool) l : (forall x, f x = true) -> filter f l = l.
Proof. intros H. induction l as [|x l IH]; cbn; [reflexivity|]. rewrite H, IH. reflexivity. Qed.
Lemma free_old_evolves A g g' : wf g -> A (g_flag g) = false -> free_old A g = Some g' -> evolves A g g'.
Proof.
  intros Hw Ha H. assert (Hw' : wf g') by (split; [eapply free_old_inv; [exact (proj1 Hw)|exact H]|eapply free_old_shape; [exact (proj2 Hw)|exact H]]).
  pose proof H as H0. apply free_old_unfold in H as (g1 & g2 & E1 & E2 & ->).
  assert (Hg1 : grow g g1).
  { eapply (grow_fold free_ok); [|exact E1]. intros. apply grow_frees. eapply free_ok_frees; eauto. }
  assert (Hg2 : grow g1 g2) by (eapply (grow_fold evaluate); [|exact E2]; intros; eapply grow_evaluate; eauto).
  pose proof (grow_trans _ _ _ Hg1 Hg2) as Hg.
  assert (Hw2 : wf g2).
  { assert (He : free_old (fun _ => false) g = Some (swept (fun _ => false) g2)).
    { unfold free_old. rewrite E1. cbn [bind]. unfold keys in E2. rewrite E2. reflexivity. }
    assert (Hw3 : wf (swept (fun _ => false) g2))
      by (split; [eapply free_old_inv; [exact (proj1 Hw)|exact He]|eapply free_old_shape; [exact (proj2 Hw)|exact He]]).
    assert (Hn : gone (fun _ => false) g2 = []).
    { unfold gone. clear. induction (g_pending g2); [reflexivity|assumption]. }
    assert (Hs : swept (fun _ => false) g2 = g2).
    { unfold swept. rewrite Hn. rewrite !filter_all by reflexivity. destruct g2; reflexivity. }
    rewrite <- Hs. exact Hw3. }
  pose proof (grow_evolves _ _ Hw Hw2 Hg) as [_ B1 B2 B3 B4 _ B6 B7 B8 B9].
  assert (Ha2 : A (g_flag g2) = false) by (rewrite B1; exact Ha).
  pose proof (swept_evolves A g2 Hw2 Ha2 Hw') as [_ C1 C2 C3 C4 C5 C6 C7 C8 C9].
  destruct (gr_pend _ _ Hg) as (l & P1 & P2).
  assert (Hnew : forall k f, In (k, f) (g_pending g2) -> A f = true -> In (k, f) (g_pending g)).
  { intros k f H1 H2. rewrite P1 in H1. apply in_app_or in H1 as [H1|H1]; [exact H1|]. apply P2 in H1. cbn in H1. congruence. }
  constructor.
  - exact Hw'.
  - congruence.
  - lia.
  - intros k Hk. apply C3 in Hk as [Hk|Hk]; [|right; lia]. apply B3 in Hk as [Hk|Hk]; [auto|right; cbn in *; lia].
  - intros k Hk. apply B4 in Hk as [Hk|(f & _ & Hf)]; [|discriminate]. apply C4 in Hk as [Hk|(f & H1 & H2)]; [auto|right]. eauto.
  - intros k f H1 H2. apply (C5 k f); [|exact H2]. rewrite P1. apply in_or_app. auto.
  - intros k Hk. assert (E : g_next (swept A g2) = g_next g2) by reflexivity. rewrite E in Hk.
    specialize (B6 k Hk). apply C4 in B6 as [B6|(f & H1 & H2)]; [exact B6|]. exfalso.
    apply Hnew in H1; [|exact H2]. assert (In k (map fst (g_pending g))) by (apply in_map_iff; exists (k, f); auto).
    apply (sh_pkeys g (proj2 Hw)) in H. apply (bi_lt g (proj1 (proj1 Hw))) in H. lia.
  - intros k f Hk. apply C7 in Hk as [[Hk Hf]|Hk]; [|right; congruence]. apply B7 in Hk as [[Hk _]|Hk]; auto.
  - intros k Hl Hk. apply B8; [|exact Hk]. apply C8; [exact Hl|lia].
  - intros Hc. apply C9 in Hc as (Hc & E1' & Hl). apply B9 in Hc as (Hc & E2' & Hl'). split; [exact Hc|]. split; [congruence|auto].
Qed.
