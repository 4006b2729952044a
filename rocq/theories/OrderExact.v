(** The order puts nodes after their sources exactly under the conditions of [OrderProps]. *)
From Verif Require Import Base GraphModel GraphSpec GraphBase GraphPath GraphInv GraphShape GraphRefs GraphClean
  OrderModel OrderSpec OrderProofs ExactSpec.
Local Open Scope nat_scope.

Lemma before_app_l l l' x y : before l x y -> before (l ++ l') x y.
Proof. intros (a & b & -> & H). exists a, (b ++ l'). rewrite <- app_assoc. split; [reflexivity|]. apply in_or_app. auto. Qed.
Lemma before_cross l l' x y : In x l -> In y l' -> before (l ++ l') x y.
Proof.
  intros Hx Hy. apply in_split in Hx as (a & b & ->). exists a, (b ++ l'). rewrite <- app_assoc. split; [reflexivity|].
  apply in_or_app. auto.
Qed.
Lemma before_app_r l l' x y : before l' x y -> before (l ++ l') x y.
Proof. intros (a & b & -> & H). exists (l ++ a), b. rewrite <- app_assoc. auto. Qed.
Lemma nodup_split (l1 l1' l2 l2' : list key) k : NoDup (l1 ++ k :: l2) -> l1 ++ k :: l2 = l1' ++ k :: l2' -> l1 = l1' /\ l2 = l2'.
Proof.
  revert l1'. induction l1 as [|x l1 IH]; intros [|x' l1'] Hnd E; cbn in *.
  - injection E as ->. auto.
  - injection E as <- E. exfalso. inversion Hnd as [|? ? H _]; subst. apply H. apply in_or_app. right. left. reflexivity.
  - injection E as -> E. exfalso. inversion Hnd as [|? ? H _]; subst. apply H. apply in_or_app. right. left. reflexivity.
  - injection E as <- E. inversion Hnd as [|? ? _ Hnd']; subst. destruct (IH l1' Hnd' E) as [-> ->]. auto.
Qed.
Lemma before_in_r l x y : before l x y -> In y l.
Proof. intros (a & b & -> & H). apply in_or_app. right. right. exact H. Qed.
Lemma before_in_l l x y : before l x y -> In x l.
Proof. intros (a & b & -> & H). apply in_or_app. right. left. reflexivity. Qed.
Lemma before_prefix l1 k l2 s : NoDup (l1 ++ k :: l2) -> before (l1 ++ k :: l2) s k <-> In s l1.
Proof.
  intros Hnd. split.
  - intros (a & b & E & Hb). apply in_split in Hb as (b1 & b2 & ->).
    assert (E' : l1 ++ k :: l2 = (a ++ s :: b1) ++ k :: b2) by (rewrite E, <- app_assoc; reflexivity).
    destruct (nodup_split _ _ _ _ _ Hnd E') as [-> _]. apply in_or_app. right. left. reflexivity.
  - intros H. apply before_cross; [exact H|left; reflexivity].
Qed.
Lemma before_trans l x y z : NoDup l -> before l x y -> before l y z -> before l x z.
Proof.
  intros Hnd Hxy (a & b & -> & Hz). apply before_prefix in Hxy; [|exact Hnd]. apply before_cross; [exact Hxy|right; exact Hz].
Qed.
Lemma before_irrefl l x : NoDup l -> ~ before l x x.
Proof.
  intros Hnd (a & b & -> & H). apply NoDup_remove_2 in Hnd. apply Hnd. apply in_or_app. auto.
Qed.
Lemma after_before g ord k : NoDup ord -> In k ord ->
  after_sources g ord k <-> forall s, same_block g s k -> before ord s k.
Proof.
  intros Hnd Hk. apply in_split in Hk as (a & b & ->). split.
  - intros H s Hs. apply before_prefix; [exact Hnd|]. eapply H; eauto.
  - intros H l1 l2 s E Hs. destruct (nodup_split _ _ _ _ _ Hnd E) as [<- _]. eapply before_prefix; [exact Hnd|]. apply H. exact Hs.
Qed.

(** Nodes leave the stack from its top. *)
Definition due (out stack : list key) (x y : key) : Prop :=
  (exists a b, stack = a ++ x :: b /\ In y b) \/ (In x out /\ In y stack) \/ before out y x.
Lemma due_push out stack x y s : due out stack x y -> due out (s :: stack) x y.
Proof.
  intros [(a & b & -> & H)|[[H1 H2]|H]]; [left; exists (s :: a), b; auto|right; left|right; right; exact H].
  split; [exact H1|right; exact H2].
Qed.
Lemma due_pop out k stack x y : due out (k :: stack) x y -> due (k :: out) stack x y.
Proof.
  intros [(a & b & E & H)|[[H1 H2]|H]].
  - destruct a as [|k' a]; cbn in E; injection E as -> ->.
    + right. left. split; [left; reflexivity|exact H].
    + left. exists a, b. auto.
  - destruct H2 as [->|H2]; [|right; left; split; [right; exact H1|exact H2]].
    right. right. exists [], out. split; [reflexivity|exact H1].
  - right. right. apply (before_app_r [k]). exact H.
Qed.
Lemma before_rev l x y : before l x y -> before (rev l) y x.
Proof.
  intros (a & b & -> & H). rewrite rev_app_distr. cbn [rev]. rewrite <- app_assoc.
  apply before_cross; [apply in_rev in H; exact H|left; reflexivity].
Qed.
Lemma dfs_due g fuel : forall visited stack out v ord x y, due out stack x y ->
  dfs g fuel visited stack out = Some (v, ord) -> before ord x y.
Proof.
  induction fuel as [|fuel IH]; intros visited stack out v ord x y Hd H;
    destruct stack as [|k stack]; cbn [dfs] in H; try discriminate.
  1, 2: injection H as _ <-; destruct Hd as [(a & b & E & _)|[[_ []]|Hd]]; [destruct a; discriminate|];
    apply before_rev; exact Hd.
  destruct (next_source g visited k) as [[s|]|]; cbn [bind] in H; [| |discriminate].
  - eapply IH; [apply due_push; exact Hd|exact H].
  - eapply IH; [apply due_pop; exact Hd|exact H].
Qed.

(** Only nodes upstream of a start node are visited. *)
Lemma dfs_heard g fuel : forall visited stack out v ord, (forall k, In k out \/ In k stack -> heard g k) ->
  dfs g fuel visited stack out = Some (v, ord) -> forall k, In k ord -> heard g k.
Proof.
  induction fuel as [|fuel IH]; intros visited stack out v ord Hh H;
    destruct stack as [|k stack]; cbn [dfs] in H; try discriminate.
  1, 2: injection H as _ <-; intros x Hx; apply Hh; left; apply in_rev; exact Hx.
  destruct (next_source g visited k) as [[s|]|] eqn:E; cbn [bind] in H; [| |discriminate].
  - eapply IH; [|exact H]. intros x [Hx|[<-|Hx]]; [auto| |auto].
    apply next_source_some in E as [Hs _]. destruct (Hh k) as (r & Ho & Hr); [right; left; reflexivity|].
    exists r. split; [exact Ho|]. eapply rt_trans; [apply rt_step; exact Hs|exact Hr].
  - eapply IH; [|exact H]. intros x [[<-|Hx]|Hx]; apply Hh; [right; left; reflexivity|auto|right; right; exact Hx].
Qed.

Lemma order_parts g o1 o2 : wf g -> (forall k c e, in_edge g k c = Some e -> e_fb e = false) ->
  node_order2 g = Some (o1, o2) ->
  NoDup (o1 ++ o2) /\ (forall k, In k o1 <-> heard g k) /\
  o2 = filter (fun k => mem k o2) (map fst (g_nodes g)).
Proof.
  intros Hw Hfb H.
  assert (Hno : node_order g = Some (o1 ++ o2)) by (unfold node_order; rewrite H; reflexivity).
  split; [exact (proj1 (order_once g _ Hw Hno))|]. split.
  - intros k. split; [|eapply heard_connected; eauto].
    unfold node_order2 in H. destruct (roots g) as [r|] eqn:Er; cbn [bind] in H; [|discriminate].
    destruct (roots_spec g r (bi_nodup g (proj1 (proj1 Hw))) Er) as (_ & Hro & _).
    destruct (dfs g _ r r []) as [[v o]|] eqn:Ed; cbn [bind] in H; [|discriminate]. injection H as -> <-.
    eapply dfs_heard; [|exact Ed]. intros x [[]|Hx]. exists x. split; [auto|apply rt_refl].
  - unfold node_order2 in H. destruct (roots g) as [r|] eqn:Er; cbn [bind] in H; [|discriminate].
    destruct (dfs g _ r r []) as [[v o]|] eqn:Ed; cbn [bind] in H; [|discriminate]. injection H as _ <-.
    set (P := fun k => negb (mem k v) && negb (is_pending g k)).
    apply filter_ext_in. intros k Hk. fold P. destruct (P k) eqn:E.
    + symmetry. apply mem_In. apply filter_In. auto.
    + symmetry. apply mem_false. intros Hin. apply filter_In in Hin as [_ Hin]. congruence.
Qed.

Lemma starts_needed g ord r : wf g -> node_order g = Some ord -> roots g = Some r ->
  (forall k c e, in_edge g k c = Some e -> e_fb e = false) ->
  (forall k, heard g k -> after_sources g ord k) ->
  forall l1 x l2 y, r = l1 ++ x :: l2 -> In y l2 -> ~ upstream g y x.
Proof.
  intros Hw H Er Hfb Hall l1 x l2 y Hr Hy Hup.
  unfold node_order in H. destruct (node_order2 g) as [[o1 o2]|] eqn:E; cbn in H; [|discriminate]. injection H as <-.
  destruct (order_parts g o1 o2 Hw Hfb E) as (Hnd & Hh & _).
  assert (Hxy : before o1 x y).
  { unfold node_order2 in E. rewrite Er in E. cbn [bind] in E.
    destruct (dfs g _ r r []) as [[v o]|] eqn:Ed; cbn [bind] in E; [|discriminate]. injection E as -> _.
    eapply dfs_due; [|exact Ed]. left. exists l1, l2. auto. }
  assert (Hyx : forall a b, upstream g a b -> heard g b -> before (o1 ++ o2) a b /\ heard g a).
  { intros a b Hab. induction Hab as [a b Hs|a b c _ IH1 _ IH2].
    - intros Hb. assert (Ha : heard g a).
      { destruct Hb as (r0 & Ho & Hr0). exists r0. split; [exact Ho|]. eapply rt_trans; [apply rt_step; exact Hs|exact Hr0]. }
      split; [|exact Ha]. apply (after_before g (o1 ++ o2) b Hnd); [apply in_or_app; left; apply Hh; exact Hb|auto|exact Hs].
    - intros Hc. destruct (IH2 Hc) as [H2 Hb]. destruct (IH1 Hb) as [H1 Ha]. split; [|exact Ha].
      eapply before_trans; eauto. }
  assert (Hx : heard g x) by (apply Hh; eapply before_in_l; eauto).
  destruct (Hyx y x Hup Hx) as [B _].
  apply (before_irrefl (o1 ++ o2) x Hnd). eapply before_trans; [exact Hnd|apply before_app_l; exact Hxy|exact B].
Qed.

Lemma before_filter P l x y : NoDup l -> P x = true -> P y = true -> before (filter P l) x y <-> before l x y.
Proof.
  intros Hnd Hx Hy. split.
  - induction l as [|z l IH]; intros H; [destruct H as (a & b & E & _); destruct a; discriminate|].
    inversion Hnd as [|? ? Hz Hnd']; subst. cbn in H. destruct (P z) eqn:Ez.
    + destruct H as (a & b & E & Hb). destruct a as [|z' a]; cbn in E; injection E as -> E.
      * exists [], l. split; [reflexivity|]. subst b. apply filter_In in Hb. apply Hb.
      * apply (before_app_r [z']). apply IH; [exact Hnd'|]. exists a, b. auto.
    + apply (before_app_r [z]). apply IH; assumption.
  - intros (a & b & -> & Hb). rewrite filter_app. cbn. rewrite Hx. exists (filter P a), (filter P b).
    split; [reflexivity|]. apply filter_In. auto.
Qed.

Lemma unheard_needed g ord k : wf g -> node_order g = Some ord ->
  (forall k c e, in_edge g k c = Some e -> e_fb e = false) -> sources_live g -> live g k -> ~ heard g k ->
  (after_sources g ord k <-> forall s, same_block g s k -> heard g s \/ before (map fst (g_nodes g)) s k).
Proof.
  intros Hw H Hfb Hlive Hl Hk.
  destruct (order_once g ord Hw H) as [_ Hin].
  unfold node_order in H. destruct (node_order2 g) as [[o1 o2]|] eqn:E; cbn in H; [|discriminate]. injection H as <-.
  destruct (order_parts g o1 o2 Hw Hfb E) as (Hnd & Hh & Ho2).
  assert (Hk2 : In k o2).
  { apply Hin in Hl. apply in_app_or in Hl as [Hl|Hl]; [exfalso; apply Hk; apply Hh; exact Hl|exact Hl]. }
  assert (Hmem : forall s, ~ heard g s -> live g s -> In s o2).
  { intros s Hn Hs. apply Hin in Hs. apply in_app_or in Hs as [Hs|Hs]; [exfalso; apply Hn; apply Hh; exact Hs|exact Hs]. }
  assert (Hdec : forall s, heard g s \/ ~ heard g s).
  { intros s. destruct (in_dec Nat.eq_dec s o1) as [Hi|Hi]; [left|right]; rewrite <- Hh; exact Hi. }
  assert (Hslot : forall s, In s o2 -> before (o1 ++ o2) s k <-> before (map fst (g_nodes g)) s k).
  { intros s Hs. rewrite <- (before_filter (fun k => mem k o2) (map fst (g_nodes g)) s k);
      [|exact (bi_nodup g (proj1 (proj1 Hw)))|apply mem_In; exact Hs|apply mem_In; exact Hk2]. rewrite <- Ho2.
    split; [|apply before_app_r]. intros B.
    apply in_split in Hk2 as (a & b & Ek). rewrite Ek in *. rewrite app_assoc in B, Hnd.
    apply before_prefix in B; [|exact Hnd]. apply in_app_or in B as [B|B].
    - exfalso. rewrite <- app_assoc in Hnd. apply in_split in B as (u & w & ->). rewrite <- app_assoc in Hnd. cbn in Hnd.
      apply NoDup_remove_2 in Hnd. apply Hnd. apply in_or_app. right. apply in_or_app. right. exact Hs.
    - apply before_cross; [exact B|left; reflexivity]. }
  rewrite (after_before g (o1 ++ o2) k Hnd) by (apply in_or_app; right; exact Hk2). split.
  - intros H s Hs. destruct (Hdec s) as [Hd|Hd]; [left; exact Hd|right].
    apply Hslot; [apply Hmem; [exact Hd|exact (proj1 Hlive s k Hs)]|]. apply H. exact Hs.
  - intros H s Hs. destruct (Hdec s) as [Hd|Hd].
    + apply before_cross; [apply Hh; exact Hd|exact Hk2].
    + destruct (H s Hs) as [Hd'|Hb]; [contradiction|]. apply Hslot; [apply Hmem; [exact Hd|exact (proj1 Hlive s k Hs)]|exact Hb].
Qed.
