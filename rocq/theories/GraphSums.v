(** Sums of sources arriving at inputs: what connections, disconnections and clean-ups do to them. *)
From Verif Require Import Base GraphModel GraphSpec GraphBase GraphPath GraphInv GraphShape.
Local Open Scope nat_scope.

(** ** existence and uniqueness *)
Lemma sums_fun g o l1 : sums g o l1 -> forall l2, sums g o l2 -> l1 = l2.
Proof.
  induction 1 as [|e Hn|e k a b Hs Hm _ IHa _ IHb]; intros l2 H2; inversion H2; subst; auto.
  - specialize (Hn k H0). congruence.
  - specialize (H0 k Hs). congruence.
  - assert (k0 = k) by congruence. subst k0. f_equal; auto.
Qed.
Lemma sums_total g o : well_founded (feeds g) -> exists l, sums g o l.
Proof.
  intros Hwf. assert (Hk : forall k, summing g k = true ->
    exists l1 l2, sums g (in_edge g k 0) l1 /\ sums g (in_edge g k 1) l2).
  { intros k. induction (Hwf k) as [k _ IH]. intros _.
    assert (Hc : forall c, exists l, sums g (in_edge g k c) l).
    { intros c. destruct (in_edge g k c) as [e|] eqn:E; [|exists []; constructor].
      destruct (e_src e) as [s|] eqn:Es.
      - destruct (summing g s) eqn:Em.
        + destruct (IH s) as (l1 & l2 & H1 & H2); [exists c, e; auto|exact Em|].
          exists (l1 ++ l2). econstructor; eauto.
        + exists [(e_src e, e_chan e)]. constructor. intros k' Hk'. congruence.
      - exists [(e_src e, e_chan e)]. constructor. intros k' Hk'. congruence. }
    destruct (Hc 0) as [l1 H1], (Hc 1) as [l2 H2]. eauto. }
  destruct o as [e|]; [|exists []; constructor].
  destruct (e_src e) as [s|] eqn:Es.
  - destruct (summing g s) eqn:Em.
    + destruct (Hk s Em) as (l1 & l2 & H1 & H2). exists (l1 ++ l2). econstructor; eauto.
    + exists [(e_src e, e_chan e)]. constructor. intros k' Hk'. congruence.
  - exists [(e_src e, e_chan e)]. constructor. intros k' Hk'. congruence.
Qed.

(** ** transfer along a map of connections *)
(** [older g o]: the connection does not come from a node created later. *)
Definition older (g : graph) (o : option edge) : Prop :=
  forall e s, o = Some e -> e_src e = Some s -> s < g_next g.
Lemma older_in g k c : base_inv g -> older g (in_edge g k c).
Proof. intros Hb e s He Hs. eapply (bi_in g Hb); eauto. Qed.
Lemma older_out g c : base_inv g -> older g (out_edge g c).
Proof. intros Hb e s He Hs. eapply (bi_out g Hb); eauto. Qed.

Lemma sums_frame g g' : base_inv g ->
  (forall k, k < g_next g -> summing g' k = summing g k) ->
  (forall k c, summing g k = true -> in_edge g' k c = in_edge g k c) ->
  forall o l, sums g o l -> older g o -> sums g' o l.
Proof.
  intros Hb Hm Hin o l H. induction H as [|e Hn|e k a b Hs Hk _ IHa _ IHb]; intros Ho.
  - constructor.
  - constructor. intros k Hk. rewrite Hm; [auto|]. eapply Ho; eauto.
  - eapply sums_add with (k := k); [exact Hs| | |].
    + rewrite Hm; [exact Hk|]. eapply Ho; eauto.
    + rewrite Hin by exact Hk. apply IHa. apply older_in. exact Hb.
    + rewrite Hin by exact Hk. apply IHb. apply older_in. exact Hb.
Qed.

Lemma summing_update g k0 f k : (forall n, n_auto_math (f n) = n_auto_math n) ->
  summing (update g k0 f) k = summing g k.
Proof.
  intros Hf. unfold summing. rewrite lookup_update. destruct (k0 =? k); [|reflexivity].
  destruct (lookup g k); cbn; [apply Hf|reflexivity].
Qed.
Lemma summing_set_edge g k0 ch e g' k : set_edge g k0 ch e = Some g' -> summing g' k = summing g k.
Proof.
  intros H. apply set_edge_some in H as (es & es' & _ & _ & ->). apply summing_update. reflexivity.
Qed.
Lemma summing_fresh g k : base_inv g -> g_next g <= k -> summing g k = false.
Proof. intros Hb Hk. unfold summing. rewrite lookup_fresh by auto. reflexivity. Qed.

(** Removing connections: [sel] says which outputs are cut.  No summing node is cut off. *)
Lemma sums_clear P g g' :
  (forall k, summing g' k = summing g k) ->
  (forall k c, in_edge g' k c = clear_if P (in_edge g k c)) ->
  forall sel, (forall e, (forall k, e_src e = Some k -> summing g k = false) -> P e = negb (sel (e_src e, e_chan e))) ->
  (forall e k, e_src e = Some k -> summing g k = true -> P e = false) ->
  forall o l, sums g o l -> sums g' (clear_if P o) (filter sel l).
Proof.
  intros Hm Hin sel Hsel Hmath o l H. induction H as [|e Hn|e k a b Hs Hk _ IHa _ IHb].
  - constructor.
  - cbn. rewrite (Hsel e Hn). destruct (sel (e_src e, e_chan e)); cbn; constructor.
    intros k Hk. rewrite Hm. auto.
  - cbn [clear_if]. rewrite (Hmath e k Hs Hk). rewrite filter_app.
    eapply sums_add with (k := k); [exact Hs|rewrite Hm; exact Hk| |]; rewrite Hin; assumption.
Qed.

(** ** connect_to_node without feedback *)
Lemma connect_core_sums g src sink so si fb additive g' :
  inv g -> (forall s, src = Some s -> s < g_next g /\ ~ reaches g sink s) ->
  summing g sink = false ->
  (if negb additive then set_edge g sink si (Some (mk_edge src so false))
   else existing <- get_edge g sink si ;;
     match existing with
     | Some e =>
         let '(g4, add) := new_additive_node g in
         g5 <- set_edge g4 add 0 (Some e) ;;
         g6 <- set_edge g5 add 1 (Some (mk_edge src so false)) ;;
         set_edge g6 sink si (Some (mk_edge (Some add) 0 false))
     | None => set_edge g sink si (Some (mk_edge src so fb))
     end) = Some g' ->
  (forall k, k < g_next g -> summing g' k = summing g k) /\
  (forall k c, k < g_next g -> (k, c) <> (sink, si) -> in_edge g' k c = in_edge g k c) /\
  g_outs g' = g_outs g /\
  (forall o l, sums g o l -> older g o -> sums g' o l) /\
  (forall lnew, sums g (Some (mk_edge src so false)) lnew ->
     if additive then forall l, sums g (in_edge g sink si) l -> sums g' (in_edge g' sink si) (l ++ lnew)
     else sums g' (in_edge g' sink si) lnew).
Proof.
  intros Hi Hs Hsk H.
  assert (Hframe : forall g', (forall k, k < g_next g -> summing g' k = summing g k) ->
    (forall k c, k < g_next g -> (k, c) <> (sink, si) -> in_edge g' k c = in_edge g k c) ->
    forall o l, sums g o l -> older g o -> sums g' o l).
  { intros g1 Hm1 Hin1. apply sums_frame; [exact (proj1 Hi)|exact Hm1|].
    intros k c Hk. apply Hin1.
    - destruct (Nat.lt_ge_cases k (g_next g)) as [|Hge]; [assumption|].
      rewrite (summing_fresh g k (proj1 Hi) Hge) in Hk. discriminate.
    - intros E. injection E as -> ->. congruence. }
  assert (Hdirect : forall fb' g1, set_edge g sink si (Some (mk_edge src so fb')) = Some g1 ->
    (forall k, k < g_next g -> summing g1 k = summing g k) /\
    (forall k c, k < g_next g -> (k, c) <> (sink, si) -> in_edge g1 k c = in_edge g k c) /\
    g_outs g1 = g_outs g /\
    (forall o l, sums g o l -> older g o -> sums g1 o l) /\
    in_edge g1 sink si = Some (mk_edge src so fb')).
  { intros fb' g1 E. pose proof (set_edge_in_edge _ _ _ _ _ E) as Hin.
    assert (A : forall k, k < g_next g -> summing g1 k = summing g k).
    { intros k _. eapply summing_set_edge; eauto. }
    assert (B : forall k c, k < g_next g -> (k, c) <> (sink, si) -> in_edge g1 k c = in_edge g k c).
    { intros k c _ Hne. rewrite Hin. destruct (Nat.eqb_spec k sink) as [->|]; [|reflexivity].
      destruct (Nat.eqb_spec c si) as [->|]; [exfalso; apply Hne; reflexivity|reflexivity]. }
    repeat split; auto.
    - destruct (set_edge_frame _ _ _ _ _ E) as (_ & _ & Ho & _). exact Ho.
    - rewrite Hin, !Nat.eqb_refl. reflexivity. }
  assert (Hfb : forall g1 fb', (forall l, sums g1 (Some (mk_edge src so false)) l ->
                 sums g1 (Some (mk_edge src so fb')) l)).
  { intros g1 fb' l Hl. inversion Hl; subst.
    - apply (sums_leaf g1 (mk_edge src so fb')). exact H1.
    - eapply sums_add; eauto. }
  assert (Hold : older g (Some (mk_edge src so false))).
  { intros e s E Hse. injection E as <-. apply Hs. exact Hse. }
  destruct additive; cbn [negb] in H.
  2: { destruct (Hdirect false g' H) as (A & B & C & D & E). repeat split; auto.
       intros lnew Hl. rewrite E. apply D; auto. }
  destruct (get_edge g sink si) as [ex|] eqn:Eg; cbn [bind] in H; [|discriminate].
  assert (Hex : in_edge g sink si = ex).
  { unfold get_edge in Eg. unfold in_edge. destruct (edges_of g sink); cbn in Eg; [|discriminate].
    rewrite Eg. reflexivity. }
  destruct ex as [e|].
  2: { destruct (Hdirect fb g' H) as (A & B & C & D & E). repeat split; auto.
       intros lnew Hl l Hl0. rewrite Hex in Hl0. inversion Hl0; subst. cbn. rewrite E.
       apply Hfb. apply D; auto. }
  pose proof (new_additive_spec g Hi) as (Hw & _ & _ & _ & _ & _ & Hl4).
  destruct (new_additive_node g) as [g4 add] eqn:Ea. cbn [fst snd] in Hw, Hl4. subst add.
  destruct (set_edge g4 (g_next g) 0 (Some e)) as [g5|] eqn:E5; cbn [bind] in H; [|discriminate].
  destruct (set_edge g5 (g_next g) 1 _) as [g6|] eqn:E6; cbn [bind] in H; [|discriminate].
  assert (Hg4 : g4 = fst (new_additive_node g)) by (rewrite Ea; reflexivity).
  pose proof E5 as E5'. rewrite Hg4 in E5'.
  destruct (add_node_inv g e (mk_edge src so false) g5 g6 Hi) as (Hi6 & Hn6 & Ho6 & Hu6 & Hin6 & _ & Hl6).
  { intros s He. eapply (bi_in g (proj1 Hi)); eauto. }
  { intros s He. apply Hs. exact He. }
  { exact E5'. } { exact E6. }
  assert (Hsink : sink < g_next g).
  { apply (bi_lt g (proj1 Hi)). eapply in_edge_key; eauto. }
  pose proof (set_edge_in_edge _ _ _ _ _ H) as Hin'.
  assert (Hw' : summing g' (g_next g) = true).
  { rewrite (summing_set_edge _ _ _ _ _ _ H), (summing_set_edge _ _ _ _ _ _ E6),
      (summing_set_edge _ _ _ _ _ _ E5). unfold summing. rewrite Hl4, Nat.eqb_refl. reflexivity. }
  assert (A : forall k, k < g_next g -> summing g' k = summing g k).
  { intros k Hk. rewrite (summing_set_edge _ _ _ _ _ _ H). unfold summing. rewrite Hl6 by lia. reflexivity. }
  assert (B : forall k c, k < g_next g -> (k, c) <> (sink, si) -> in_edge g' k c = in_edge g k c).
  { intros k c Hk Hne. rewrite Hin', Hin6. rewrite (proj2 (Nat.eqb_neq k (g_next g))) by lia.
    destruct (Nat.eqb_spec k sink) as [->|]; [|reflexivity].
    destruct (Nat.eqb_spec c si) as [->|]; [exfalso; apply Hne; reflexivity|reflexivity]. }
  pose proof (Hframe g' A B) as D.
  split; [exact A|]. split; [exact B|]. split.
  { destruct (set_edge_frame _ _ _ _ _ H) as (_ & _ & Ho & _). congruence. }
  split; [exact D|].
  intros lnew Hlnew l Hl. rewrite Hin', !Nat.eqb_refl. cbn [andb].
  eapply sums_add with (k := g_next g); [reflexivity|exact Hw'| |];
    rewrite Hin'; rewrite (proj2 (Nat.eqb_neq (g_next g) sink)) by lia; cbn [andb];
    rewrite Hin6, Nat.eqb_refl; cbn [Nat.eqb].
  - apply D; [rewrite <- Hex; exact Hl|]. rewrite <- Hex. apply older_in. exact (proj1 Hi).
  - apply D; [exact Hlnew|exact Hold].
Qed.

Lemma sums_ext g g' : (forall k, summing g' k = summing g k) -> (forall k c, in_edge g' k c = in_edge g k c) ->
  forall o l, sums g o l -> sums g' o l.
Proof.
  intros Hm Hin o l H. induction H as [|e Hn|e k a b Hs Hk _ IHa _ IHb].
  - constructor.
  - constructor. intros k Hk. rewrite Hm. auto.
  - eapply sums_add with (k := k); [exact Hs|rewrite Hm; exact Hk| |]; rewrite Hin; assumption.
Qed.

Lemma connect_to_node_sums g source sink so si additive g' :
  inv g -> (forall s, source = Some s -> s < g_next g /\ ~ reaches g sink s) -> summing g sink = false ->
  connect_to_node g source sink so si additive false = Some g' ->
  (forall k, k < g_next g -> summing g' k = summing g k) /\
  (forall k c, k < g_next g -> (k, c) <> (sink, si) -> in_edge g' k c = in_edge g k c) /\
  g_outs g' = g_outs g /\
  (forall o l, sums g o l -> older g o -> sums g' o l) /\
  (forall lnew, sums g (Some (mk_edge source so false)) lnew ->
     if additive then forall l, sums g (in_edge g sink si) l -> sums g' (in_edge g' sink si) (l ++ lnew)
     else sums g' (in_edge g' sink si) lnew).
Proof.
  intros Hi Hs Hk H. unfold connect_to_node in H. cbn [bind] in H.
  apply connect_core_sums in H; [|apply inv_recalc; exact Hi|exact Hs|exact Hk].
  destruct H as (A & B & C & D & E). split; [exact A|]. split; [exact B|]. split; [exact C|].
  assert (X : forall o l, sums g o l -> sums (set_recalc g true) o l)
    by (apply sums_ext; reflexivity).
  split.
  - intros o l Hl Ho. apply D; [apply X; exact Hl|exact Ho].
  - intros lnew Hl. specialize (E lnew (X _ _ Hl)). destruct additive; [|exact E].
    intros l Hl0. apply E. apply X. exact Hl0.
Qed.

(** The same with a feedback pair in between: what arrives is the pair's source node. *)
Lemma connect_to_node_fb_sums g source sink so si additive g' :
  inv g -> sink < g_next g -> (forall s, source = Some s -> s < g_next g) -> summing g sink = false ->
  connect_to_node g source sink so si additive true = Some g' ->
  (forall k, k < S (S (g_next g)) -> summing g' k = summing g k) /\
  (forall k c, k < g_next g -> (k, c) <> (sink, si) -> in_edge g' k c = in_edge g k c) /\
  g_outs g' = g_outs g /\
  (forall o l, sums g o l -> older g o -> sums g' o l) /\
  in_edge g' (g_next g) 0 = Some (mk_edge source so true) /\
  (let lnew := [(Some (S (g_next g)), so)] in
   if additive then forall l, sums g (in_edge g sink si) l -> sums g' (in_edge g' sink si) (l ++ lnew)
   else sums g' (in_edge g' sink si) lnew).
Proof.
  intros Hi Hsk Hlt Hk H. unfold connect_to_node in H.
  pose proof (inv_recalc g true Hi) as Hi0. set (g0 := set_recalc g true) in *.
  assert (Hsum1 : forall k, summing (fst (new_feedback_nodes g0)) k = summing g k).
  { intros k. unfold new_feedback_nodes.
    pose proof (fun k => push_lookup g0 1 0 [] None k (proj1 Hi0)) as Hl.
    pose proof (inv_push g0 1 0 [] None Hi0) as Hi1.
    pose proof (push_next g0 1 0 [] None) as Hn. pose proof (push_key g0 1 0 [] None) as Hk1.
    destruct (push_node g0 1 0 [] None) as [g1 k1]. cbn [fst snd] in *.
    pose proof (fun k => push_lookup g1 1 0 [] None k (proj1 Hi1)) as Hl2.
    destruct (push_node g1 1 0 [] None) as [g2 k2]. cbn [fst] in *.
    rewrite !summing_update by reflexivity. unfold summing. rewrite Hl2, Hl, Hn.
    change (g_next g0) with (g_next g). change (lookup g0 k) with (lookup g k).
    destruct (Nat.eqb_spec (S (g_next g)) k) as [<-|]; [rewrite (lookup_fresh g (proj1 Hi)) by lia; reflexivity|].
    destruct (Nat.eqb_spec (g_next g) k) as [<-|]; [rewrite (lookup_fresh g (proj1 Hi)) by lia; reflexivity|].
    reflexivity. }
  destruct (new_feedback_nodes g0) as [g1 [fbs fbk]] eqn:Ef.
  pose proof (new_feedback_spec g0 Hi0) as Hfb. rewrite Ef in Hfb. cbn [fst snd] in Hfb, Hsum1.
  destruct Hfb as (Hkeys & Hi1 & Hn1 & Ho1 & Hin1). injection Hkeys as -> ->.
  change (g_next g0) with (g_next g) in *.
  destruct (set_edge g1 (g_next g) 0 _) as [g2|] eqn:E2; cbn [bind] in H; [|discriminate].
  pose proof (set_edge_in_edge _ _ _ _ _ E2) as Hin2.
  destruct (set_edge_frame _ _ _ _ _ E2) as (_ & Hn2 & Ho2 & _).
  assert (Hi2 : inv g2).
  { eapply inv_set_edge; [exact Hi1|exact E2|]. cbn [e_src]. intros s Hs. split.
    - rewrite Hn1. specialize (Hlt s Hs). cbn. lia.
    - intros Hr. apply unread_reaches in Hr.
      + specialize (Hlt s Hs). cbn in Hr. lia.
      + intros k c e He Hes. rewrite Hin1 in He. pose proof (bi_in g0 (proj1 Hi0) _ _ _ _ He Hes).
        change (g_next g0) with (g_next g) in *. lia. }
  assert (Hsum2 : forall k, summing g2 k = summing g k).
  { intros k. rewrite (summing_set_edge _ _ _ _ _ _ E2). apply Hsum1. }
  assert (Hinlt : forall k c, k < g_next g -> in_edge g2 k c = in_edge g k c).
  { intros k c Hlt'. rewrite Hin2, Hin1. rewrite (proj2 (Nat.eqb_neq k (g_next g))) by lia. reflexivity. }
  assert (X : forall o l, sums g o l -> older g o -> sums g2 o l).
  { apply sums_frame; [exact (proj1 Hi)|auto|]. intros k c Hk'. apply Hinlt.
    destruct (Nat.lt_ge_cases k (g_next g)) as [|Hge]; [assumption|].
    rewrite (summing_fresh g k (proj1 Hi) Hge) in Hk'. discriminate. }
  apply connect_core_sums in H; [|exact Hi2| |rewrite Hsum2; exact Hk].
  2: { intros s Hs. injection Hs as <-. split; [rewrite Hn2, Hn1; lia|].
    intros Hr. apply clos_rt_rtn1 in Hr. inversion Hr as [Heq|y z Hf _ Heq]; [cbn in Heq; lia|].
    destruct Hf as (c & e & He & _). rewrite Hin2, Hin1 in He.
    rewrite (proj2 (Nat.eqb_neq _ _)) in He by lia. cbn [andb] in He.
    rewrite (in_edge_fresh g0 (proj1 Hi0)) in He by (cbn; lia). discriminate. }
  destruct H as (A & B & C & D & E).
  assert (Hlt2 : forall k, k < g_next g -> k < g_next g2) by (intros k; rewrite Hn2, Hn1; lia).
  assert (Hold : forall o, older g o -> older g2 o) by (intros o Ho e s He Hs; apply Hlt2; eapply Ho; eauto).
  split; [|split; [|split; [|split; [|split]]]].
  - intros k Hlt'. rewrite A by (rewrite Hn2, Hn1; exact Hlt'). apply Hsum2.
  - intros k c Hlt' Hne. rewrite B; auto.
  - rewrite C, Ho2, Ho1. reflexivity.
  - intros o l Hl Ho. apply D; auto.
  - rewrite B.
    + rewrite Hin2, Nat.eqb_refl. reflexivity.
    + rewrite Hn2, Hn1. lia.
    + intros E0. injection E0 as E0 _. lia.
  - cbn zeta. specialize (E [(Some (S (g_next g)), so)]).
    assert (Hnew : sums g2 (Some (mk_edge (Some (S (g_next g))) so false)) [(Some (S (g_next g)), so)]).
    { apply (sums_leaf g2 (mk_edge (Some (S (g_next g))) so false)). cbn. intros k Hk'. injection Hk' as <-.
      rewrite Hsum2. apply summing_fresh; [exact (proj1 Hi)|lia]. }
    specialize (E Hnew). destruct additive; [|exact E].
    intros l Hl. apply E. rewrite Hinlt by exact Hsk. apply X; [exact Hl|]. apply older_in. exact (proj1 Hi).
Qed.

Lemma out_edge_set g si o outs c : set_nth (g_outs g) si o = Some outs ->
  out_edge (set_outs g outs) c = if c =? si then o else out_edge g c.
Proof.
  intros H. unfold out_edge; cbn. rewrite (set_nth_spec _ _ _ _ _ H). destruct (c =? si); reflexivity.
Qed.
Lemma connect_to_output_sums g source so si additive g' :
  inv g -> (forall s, source = Some s -> s < g_next g) ->
  connect_to_output g source so si additive = Some g' ->
  (forall k c, k < g_next g -> in_edge g' k c = in_edge g k c) /\
  (forall c, c <> si -> out_edge g' c = out_edge g c) /\
  (forall o l, sums g o l -> older g o -> sums g' o l) /\
  (forall lnew, sums g (Some (mk_edge source so false)) lnew ->
     if additive then forall l, sums g (out_edge g si) l -> sums g' (out_edge g' si) (l ++ lnew)
     else sums g' (out_edge g' si) lnew).
Proof.
  intros Hi Hs H. unfold connect_to_output in H.
  pose proof (inv_recalc g true Hi) as Hi0.
  set (g0 := set_recalc g true) in *.
  assert (X : forall o l, sums g o l -> sums g0 o l) by (apply sums_ext; reflexivity).
  assert (Hdirect : forall outs, set_nth (g_outs g0) si (Some (mk_edge source so false)) = Some outs ->
    g' = set_outs g0 outs ->
    (forall k c, k < g_next g -> in_edge g' k c = in_edge g k c) /\
    (forall c, c <> si -> out_edge g' c = out_edge g c) /\
    (forall o l, sums g o l -> older g o -> sums g' o l) /\
    out_edge g' si = Some (mk_edge source so false)).
  { intros outs Ho ->. repeat split.
    - intros c Hc. rewrite (out_edge_set g0 _ _ _ _ Ho). rewrite (proj2 (Nat.eqb_neq c si)) by exact Hc. reflexivity.
    - intros o l Hl _. apply (sums_ext g); auto.
    - rewrite (out_edge_set g0 _ _ _ _ Ho), Nat.eqb_refl. reflexivity. }
  destruct additive; cbn [negb] in H.
  2: { destruct (set_nth _ _ _) as [outs|] eqn:E; cbn [bind] in H; [|discriminate]. injection H as <-.
       destruct (Hdirect outs eq_refl eq_refl) as (A & B & C & D). repeat split; auto.
       intros lnew Hl. rewrite D. apply C; [exact Hl|]. intros e s He Hes. injection He as <-. apply Hs. exact Hes. }
  destruct (nth_error (g_outs g0) si) as [ex|] eqn:Eg; cbn [bind] in H; [|discriminate].
  assert (Hex : out_edge g si = ex) by (unfold out_edge; cbn in Eg; rewrite Eg; reflexivity).
  destruct ex as [e|].
  2: { destruct (set_nth _ _ _) as [outs|] eqn:E; cbn [bind] in H; [|discriminate]. injection H as <-.
       destruct (Hdirect outs eq_refl eq_refl) as (A & B & C & D). repeat split; auto.
       intros lnew Hl l Hl0. rewrite Hex in Hl0. inversion Hl0; subst. rewrite D. cbn. apply C; [exact Hl|].
       intros e s He Hes. injection He as <-. apply Hs. exact Hes. }
  pose proof (new_additive_spec g0 Hi0) as (Hw & _ & _ & _ & _ & _ & Hl4).
  destruct (new_additive_node g0) as [g4 add] eqn:Ea. cbn [fst snd] in Hw, Hl4. subst add.
  change (g_next g0) with (g_next g) in *.
  destruct (set_edge g4 (g_next g) 0 (Some e)) as [g5|] eqn:E5; cbn [bind] in H; [|discriminate].
  destruct (set_edge g5 (g_next g) 1 _) as [g6|] eqn:E6; cbn [bind] in H; [|discriminate].
  assert (Hg4 : g4 = fst (new_additive_node g0)) by (rewrite Ea; reflexivity).
  pose proof E5 as E5'. rewrite Hg4 in E5'.
  destruct (add_node_inv g0 e (mk_edge source so false) g5 g6 Hi0) as (Hi6 & Hn6 & Ho6 & Hu6 & Hin6 & _ & Hl6).
  { intros s He. eapply (bi_out g0 (proj1 Hi0) si e); [|exact He]. exact Hex. }
  { intros s He. apply Hs. exact He. }
  { exact E5'. } { exact E6. }
  change (g_next g0) with (g_next g) in *.
  destruct (set_nth (g_outs g6) si _) as [outs|] eqn:E; cbn [bind] in H; [|discriminate]. injection H as <-.
  set (g' := set_outs g6 outs).
  assert (Hw' : summing g' (g_next g) = true).
  { change (summing g' (g_next g)) with (summing g6 (g_next g)).
    rewrite (summing_set_edge _ _ _ _ _ _ E6), (summing_set_edge _ _ _ _ _ _ E5).
    unfold summing. rewrite Hl4, Nat.eqb_refl. reflexivity. }
  assert (A : forall k c, k < g_next g -> in_edge g' k c = in_edge g k c).
  { intros k c Hk. change (in_edge g' k c) with (in_edge g6 k c). rewrite Hin6.
    rewrite (proj2 (Nat.eqb_neq k (g_next g))) by lia. reflexivity. }
  assert (D : forall o l, sums g o l -> older g o -> sums g' o l).
  { apply sums_frame; [exact (proj1 Hi)| |].
    - intros k Hk. change (summing g' k) with (summing g6 k). unfold summing. rewrite Hl6 by lia. reflexivity.
    - intros k c Hk. apply A. destruct (Nat.lt_ge_cases k (g_next g)) as [|Hge]; [assumption|].
      rewrite (summing_fresh g k (proj1 Hi) Hge) in Hk. discriminate. }
  split; [exact A|]. split; [|split; [exact D|]].
  - intros c Hc. unfold g'. rewrite (out_edge_set g6 _ _ _ _ E). rewrite (proj2 (Nat.eqb_neq c si)) by exact Hc.
    unfold out_edge. rewrite Ho6. reflexivity.
  - intros lnew Hlnew l Hl. unfold g' at 2. rewrite (out_edge_set g6 _ _ _ _ E), Nat.eqb_refl.
    eapply sums_add with (k := g_next g); [reflexivity|exact Hw'| |];
      change (in_edge g' (g_next g)) with (in_edge g6 (g_next g)); rewrite Hin6, Nat.eqb_refl; cbn [Nat.eqb].
    + rewrite <- Hex. apply D; [exact Hl|]. apply older_out. exact (proj1 Hi).
    + apply D; [exact Hlnew|]. intros e0 s He Hes. injection He as <-. apply Hs. exact Hes.
Qed.

(** ** disconnecting an output of a node *)
Lemma disconnect_output_sums g id ch g' : disconnect_output g (NNode id) ch = Some (g', Ok) ->
  summing g (id_key id) = false ->
  let keep (x : leaf) := negb ((snd x =? ch) && match fst x with Some s => s =? id_key id | None => false end) in
  (forall k c l, sums g (in_edge g k c) l -> sums g' (in_edge g' k c) (filter keep l)) /\
  (forall c l, sums g (out_edge g c) l -> sums g' (out_edge g' c) (filter keep l)).
Proof.
  intros H Hm keep. unfold disconnect_output in H.
  destruct (negb _); [discriminate|]. destruct (lookup g (id_key id)) as [n|] eqn:El; [|discriminate].
  destruct (_ <=? ch); [discriminate|]. injection H as <-.
  match goal with |- context [set_recalc ?x true] => set (g' := set_recalc x true) end.
  set (P := from_output (Some (id_key id)) ch).
  assert (Hin : forall k c, in_edge g' k c = clear_if P (in_edge g k c))
    by (intros k c; apply (in_edge_map_edges (clear_if P) g g' k c eq_refl eq_refl)).
  assert (Hsum : forall k, summing g' k = summing g k).
  { intros k. unfold summing, lookup, g'; cbn [g_nodes set_recalc set_outs set_nodes].
    rewrite lookup_map_edges. unfold lookup. destruct (nlookup (g_nodes g) k); reflexivity. }
  assert (Hall : forall o l, sums g o l -> sums g' (clear_if P o) (filter keep l)).
  { apply sums_clear; auto.
    - intros e _. unfold keep, P, from_output; cbn [fst snd]. rewrite negb_involutive.
      destruct (e_src e) as [s|]; [|reflexivity]. rewrite (Nat.eqb_sym s). reflexivity.
    - intros e k Hs Hk. unfold P, from_output. rewrite Hs.
      destruct (Nat.eqb_spec (id_key id) k) as [<-|]; [congruence|]. apply andb_false_r. }
  split.
  - intros k c l Hl. rewrite Hin. apply Hall. exact Hl.
  - intros c l Hl. rewrite (out_edge_map (clear_if P) g g' c eq_refl eq_refl). apply Hall. exact Hl.
Qed.
