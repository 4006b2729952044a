(** The graph invariant is kept by every edit. *)
From Verif Require Import Base GraphModel GraphSpec GraphBase GraphPath.
Local Open Scope nat_scope.

(** ** generic preservation lemmas *)

(** Same connections. *)
Lemma feeds_same g g' : (forall k c, in_edge g' k c = in_edge g k c) ->
  forall a b, feeds g' a b <-> feeds g a b.
Proof.
  intros H a b. unfold feeds. split; intros (c & e & He & Hs); exists c, e; [rewrite <- H|rewrite H]; auto.
Qed.
Lemma wf_same g g' : (forall k c, in_edge g' k c = in_edge g k c) ->
  well_founded (feeds g) -> well_founded (feeds g').
Proof.
  intros H Hwf. eapply wf_sub; [exact Hwf|]. intros a b Hf. apply t_step. apply (feeds_same g g' H). exact Hf.
Qed.

(** Every connection of [g'] is one of [g], or a shortcut along connections of [g]. *)
Lemma inv_sub g g' :
  inv g ->
  NoDup (keys g') -> incl (keys g') (keys g) -> g_next g' = g_next g ->
  (forall k c e, in_edge g' k c = Some e ->
     (forall s, e_src e = Some s -> s < g_next g /\ clos_trans key (feeds g) s k)) ->
  (forall c e s, out_edge g' c = Some e -> e_src e = Some s -> s < g_next g) ->
  (forall k p, pedge_in g' k p -> p_src p < g_next g) ->
  inv g'.
Proof.
  intros [Hb Hwf] Hnd Hk Hn Hin Hout Hp. split.
  - constructor; rewrite ?Hn; auto.
    + intros k Hx. apply (bi_lt g Hb). auto.
    + intros k c e s He Hs. apply (Hin k c e He s Hs).
  - eapply wf_sub; [exact Hwf|]. intros a b (c & e & He & Hs). apply (Hin b c e He a Hs).
Qed.
Lemma feeds_in g k c e s : base_inv g -> in_edge g k c = Some e -> e_src e = Some s ->
  s < g_next g /\ clos_trans key (feeds g) s k.
Proof.
  intros Hb He Hs. split; [eapply (bi_in g Hb); eauto|]. apply t_step. exists c, e. auto.
Qed.

(** Frames of the setters *)
Lemma inv_frame g g' : g_nodes g' = g_nodes g -> g_next g' = g_next g -> g_outs g' = g_outs g ->
  inv g -> inv g'.
Proof.
  intros H1 H2 H3 [Hb Hwf].
  assert (Hl : forall k, lookup g' k = lookup g k) by (intros k; unfold lookup; rewrite H1; reflexivity).
  assert (Hi : forall k c, in_edge g' k c = in_edge g k c)
    by (intros k c; unfold in_edge, edges_of; rewrite Hl; reflexivity).
  split; [|eapply wf_same; eauto].
  constructor; unfold keys, out_edge; rewrite ?H1, ?H2, ?H3.
  - apply (bi_nodup g Hb).
  - apply (bi_lt g Hb).
  - intros k c e s. rewrite Hi. apply (bi_in g Hb).
  - apply (bi_out g Hb).
  - intros k p (ps & E & Hin). apply (bi_par g Hb k). exists ps. split; [|exact Hin].
    unfold pedges_of in *. rewrite <- Hl. exact E.
Qed.
Lemma inv_outs g outs : inv g ->
  (forall c e s, nth_error outs c = Some (Some e) -> e_src e = Some s -> s < g_next g) ->
  inv (set_outs g outs).
Proof.
  intros [Hb Hwf] Ho. split; [|exact Hwf]. destruct Hb. constructor; auto.
  intros c e s. unfold out_edge; cbn. destruct (nth_error outs c) as [o|] eqn:E; [|discriminate].
  intros -> Hs. eapply Ho; eauto.
Qed.
Lemma inv_update g k f : (forall n, n_edges (f n) = n_edges n) -> (forall n, n_pedges (f n) = n_pedges n) ->
  inv g -> inv (update g k f).
Proof.
  intros Hf Hp [Hb Hwf]. split; [apply update_base; auto|].
  eapply wf_same; [|exact Hwf]. intros k' c. apply in_edge_update. exact Hf.
Qed.
Lemma inv_push g i o d r : inv g -> inv (fst (push_node g i o d r)).
Proof.
  intros [Hb Hwf]. split; [apply push_base; exact Hb|].
  eapply wf_same; [|exact Hwf]. intros k c. apply push_in_edge. exact Hb.
Qed.
Lemma inv_recalc g b : inv g -> inv (set_recalc g b).
Proof. apply inv_frame; reflexivity. Qed.

(** ** adding one connection *)
Lemma inv_set_edge g v ch e g' : inv g -> set_edge g v ch (Some e) = Some g' ->
  (forall s, e_src e = Some s -> s < g_next g /\ ~ reaches g v s) -> inv g'.
Proof.
  intros [Hb Hwf] H Hs. split.
  - eapply set_edge_base; [exact Hb| |exact H]. intros e0 s He. injection He as <-. apply Hs.
  - pose proof (set_edge_in_edge _ _ _ _ _ H) as Hin.
    eapply (wf_add g g' (e_src e) v); [exact Hwf| |intros a Ha; apply Hs; exact Ha].
    intros a b (c & e0 & He & Ha). rewrite Hin in He.
    destruct (Nat.eqb_spec b v) as [->|Hne]; cbn [andb] in He.
    + destruct (Nat.eqb_spec c ch) as [->|Hne].
      * injection He as <-. right. auto.
      * left. exists c, e0. auto.
    + left. exists c, e0. auto.
Qed.

(** Nobody reads from [w]. *)
Definition unread (g : graph) (w : key) : Prop :=
  forall k c e, in_edge g k c = Some e -> e_src e <> Some w.
Lemma unread_reaches g w x : unread g w -> reaches g w x -> x = w.
Proof.
  intros Hu H. apply clos_rt_rt1n in H. destruct H as [|y z Hf _]; [reflexivity|].
  destruct Hf as (c & e & He & Hs). exfalso. exact (Hu _ _ _ He Hs).
Qed.
Lemma fresh_unread g w : base_inv g -> g_next g <= w -> unread g w.
Proof. intros Hb Hw k c e He Hs. pose proof (bi_in g Hb _ _ _ _ He Hs). lia. Qed.

(** ** the additive node *)
Lemma new_additive_spec g : inv g ->
  let g' := fst (new_additive_node g) in
  snd (new_additive_node g) = g_next g /\ inv g' /\
  g_next g' = S (g_next g) /\ g_outs g' = g_outs g /\
  (forall k c, in_edge g' k c = in_edge g k c) /\
  (forall k, pedges_of g' k = if g_next g =? k then Some [] else pedges_of g k) /\
  (forall k, lookup g' k = if g_next g =? k
     then Some (mk_node 2 1 [] true false None None (Some [None; None]) (Some []) true) else lookup g k).
Proof.
  intros Hi. unfold new_additive_node.
  pose proof (push_key g 2 1 [] None) as Hk. pose proof (push_next g 2 1 [] None) as Hn.
  pose proof (push_outs g 2 1 [] None) as Ho.
  pose proof (inv_push g 2 1 [] None Hi) as Hinv.
  pose proof (fun k c => push_in_edge g 2 1 [] None k c (proj1 Hi)) as Hin.
  pose proof (fun k => push_lookup g 2 1 [] None k (proj1 Hi)) as Hl.
  destruct (push_node g 2 1 [] None) as [g1 k]. cbn [fst snd] in *. subst k.
  assert (Hl' : forall k, lookup (update g1 (g_next g) n_set_math) k = if g_next g =? k
     then Some (mk_node 2 1 [] true false None None (Some [None; None]) (Some []) true) else lookup g k).
  { intros k. rewrite lookup_update, Hl. destruct (g_next g =? k); reflexivity. }
  cbn zeta. split; [reflexivity|]. split; [|split; [|split; [|split; [|split]]]].
  - apply (inv_update g1 (g_next g) n_set_math); auto.
  - exact Hn.
  - exact Ho.
  - intros k c. rewrite in_edge_update by reflexivity. apply Hin.
  - intros k. unfold pedges_of. rewrite Hl'. destruct (g_next g =? k); reflexivity.
  - exact Hl'.
Qed.

(** Creating an additive node and connecting its two inputs. *)
Lemma add_node_inv g e e' g5 g6 :
  inv g ->
  let w := g_next g in
  (forall s, e_src e = Some s -> s < g_next g) ->
  (forall s, e_src e' = Some s -> s < g_next g) ->
  set_edge (fst (new_additive_node g)) w 0 (Some e) = Some g5 ->
  set_edge g5 w 1 (Some e') = Some g6 ->
  inv g6 /\ g_next g6 = S w /\ g_outs g6 = g_outs g /\ unread g6 w /\
  (forall k c, in_edge g6 k c =
     if k =? w then (if c =? 0 then Some e else if c =? 1 then Some e' else None) else in_edge g k c) /\
  (forall k, pedges_of g6 k = if w =? k then Some [] else pedges_of g k) /\
  (forall k, k <> w -> lookup g6 k = lookup g k).
Proof.
  intros Hi w He He' H5 H6.
  destruct (new_additive_spec g Hi) as (_ & Hi4 & Hn4 & Ho4 & Hin4 & Hp4 & Hl4).
  set (g4 := fst (new_additive_node g)) in *.
  pose proof (set_edge_in_edge _ _ _ _ _ H5) as Hin5.
  pose proof (set_edge_in_edge _ _ _ _ _ H6) as Hin6.
  destruct (set_edge_frame _ _ _ _ _ H5) as (Hk5 & Hn5 & Ho5 & _ & _ & _ & _ & _ & Hp5).
  destruct (set_edge_frame _ _ _ _ _ H6) as (Hk6 & Hn6 & Ho6 & _ & _ & _ & _ & _ & Hp6).
  assert (Hu4 : unread g4 w).
  { intros k c x Hx Hs. rewrite Hin4 in Hx. pose proof (bi_in g (proj1 Hi) _ _ _ _ Hx Hs).
    unfold w in *. lia. }
  assert (Hu5 : unread g5 w).
  { intros k c x Hx Hs. rewrite Hin5 in Hx. destruct ((k =? w) && (c =? 0)).
    - injection Hx as <-. apply He in Hs. unfold w in Hs. lia.
    - exact (Hu4 _ _ _ Hx Hs). }
  assert (Hu6 : unread g6 w).
  { intros k c x Hx Hs. rewrite Hin6 in Hx. destruct ((k =? w) && (c =? 1)).
    - injection Hx as <-. apply He' in Hs. unfold w in Hs. lia.
    - exact (Hu5 _ _ _ Hx Hs). }
  assert (Hi5 : inv g5).
  { eapply inv_set_edge; [exact Hi4|exact H5|]. intros s Hs. split.
    - rewrite Hn4. specialize (He s Hs). lia.
    - intros Hr. apply unread_reaches in Hr; [|exact Hu4]. specialize (He s Hs). unfold w in Hr. lia. }
  assert (Hi6 : inv g6).
  { eapply inv_set_edge; [exact Hi5|exact H6|]. intros s Hs. split.
    - rewrite Hn5, Hn4. specialize (He' s Hs). lia.
    - intros Hr. apply unread_reaches in Hr; [|exact Hu5]. specialize (He' s Hs). unfold w in Hr. lia. }
  split; [exact Hi6|]. split; [unfold w; congruence|]. split; [congruence|]. split; [exact Hu6|].
  split; [|split].
  - intros k c. rewrite Hin6, Hin5, Hin4.
    destruct (Nat.eqb_spec k w) as [->|Hne]; cbn [andb]; [|reflexivity].
    destruct (Nat.eqb_spec c 1) as [->|H1]; [reflexivity|].
    destruct (Nat.eqb_spec c 0) as [->|H0]; [reflexivity|].
    apply in_edge_fresh; [exact (proj1 Hi)|unfold w; lia].
  - intros k. rewrite Hp6, Hp5. apply Hp4.
  - intros k Hne. apply set_edge_some in H6 as (? & ? & _ & _ & ->).
    apply set_edge_some in H5 as (? & ? & _ & _ & ->).
    rewrite !lookup_update. rewrite (proj2 (Nat.eqb_neq w k)) by congruence.
    rewrite Hl4. fold w. rewrite (proj2 (Nat.eqb_neq w k)) by congruence. reflexivity.
Qed.

(** With nobody reading [w], paths not ending in [w] are those of the old graph. *)
Lemma reaches_old g g6 w : unread g6 w ->
  (forall k c, k <> w -> in_edge g6 k c = in_edge g k c) ->
  forall a x, reaches g6 a x -> x <> w -> reaches g a x.
Proof.
  intros Hu Hin a x Hr. apply clos_rt_rtn1 in Hr. induction Hr as [|y z Hf Hr IH]; intros Hz; [apply rt_refl|].
  assert (Hy : y <> w). { destruct Hf as (c & e & He & Hs). intros ->. exact (Hu _ _ _ He Hs). }
  eapply rt_trans; [apply IH; exact Hy|]. apply rt_step.
  destruct Hf as (c & e & He & Hs). exists c, e. rewrite <- Hin by exact Hz. auto.
Qed.

(** ** connect_to_node *)
Lemma connect_core_inv g src sink so si fb additive g' :
  inv g -> (forall s, src = Some s -> s < g_next g /\ ~ reaches g sink s) ->
  (if negb additive then set_edge g sink si (Some (mk_edge src so false))
   else existing <- get_edge g sink si ;;
     match existing with
     | Some e =>
         let '(g4, add) := new_additive_node g in
         g5 <- set_edge g4 add 0 (Some e) ;;
         g6 <- set_edge g5 add 1 (Some (mk_edge src so false)) ;;
         set_edge g6 sink si (Some (mk_edge (Some add) 0 false))
     | None => set_edge g sink si (Some (mk_edge src so fb))
     end) = Some g' -> inv g'.
Proof.
  intros Hi Hs H. destruct additive; cbn [negb] in H.
  2: { eapply inv_set_edge; [exact Hi|exact H|]. exact Hs. }
  destruct (get_edge g sink si) as [ex|] eqn:Eg; cbn [bind] in H; [|discriminate].
  destruct ex as [e|].
  2: { eapply inv_set_edge; [exact Hi|exact H|]. exact Hs. }
  assert (Hex : in_edge g sink si = Some e).
  { unfold get_edge in Eg. unfold in_edge. destruct (edges_of g sink); cbn in Eg; [|discriminate].
    rewrite Eg. reflexivity. }
  pose proof (new_additive_spec g Hi) as (Hw & _).
  destruct (new_additive_node g) as [g4 add] eqn:Ea. cbn [fst snd] in Hw. subst add.
  destruct (set_edge g4 (g_next g) 0 (Some e)) as [g5|] eqn:E5; cbn [bind] in H; [|discriminate].
  destruct (set_edge g5 (g_next g) 1 _) as [g6|] eqn:E6; cbn [bind] in H; [|discriminate].
  assert (Hg4 : g4 = fst (new_additive_node g)) by (rewrite Ea; reflexivity).
  rewrite Hg4 in E5.
  destruct (add_node_inv g e (mk_edge src so false) g5 g6 Hi) as (Hi6 & Hn6 & Ho6 & Hu6 & Hin6 & _).
  { intros s He. eapply (bi_in g (proj1 Hi)); eauto. }
  { intros s He. apply Hs. exact He. }
  { exact E5. } { exact E6. }
  eapply inv_set_edge; [exact Hi6|exact H|]. cbn [e_src]. intros s Es. injection Es as <-.
  split; [lia|]. intros Hr. apply clos_rt_rtn1 in Hr.
  assert (Hsink : sink < g_next g).
  { apply (bi_lt g (proj1 Hi)). eapply in_edge_key; eauto. }
  inversion Hr as [Heq|y z Hf Hr' Heq]; [lia|]. subst z.
  assert (Hy : y <> g_next g).
  { destruct Hf as (c & x & Hx & Hxs). intros ->. exact (Hu6 _ _ _ Hx Hxs). }
  apply clos_rtn1_rt in Hr'.
  apply (reaches_old g g6 (g_next g) Hu6) in Hr'; [|intros k c Hk; rewrite Hin6;
    rewrite (proj2 (Nat.eqb_neq _ _) Hk); reflexivity|exact Hy].
  destruct Hf as (c & x & Hx & Hxs). rewrite Hin6, Nat.eqb_refl in Hx.
  destruct (c =? 0).
  - injection Hx as <-. apply (wf_no_cycle g (proj2 Hi)). exists sink.
    apply clos_rt_t with (y := y); [exact Hr'|]. apply t_step. exists si, e. auto.
  - destruct (c =? 1); [|discriminate]. injection Hx as <-. cbn in Hxs. apply (Hs y Hxs). exact Hr'.
Qed.

Lemma new_feedback_spec g : inv g ->
  let r := new_feedback_nodes g in
  snd r = (S (g_next g), g_next g) /\ inv (fst r) /\ g_next (fst r) = S (S (g_next g)) /\
  g_outs (fst r) = g_outs g /\ (forall k c, in_edge (fst r) k c = in_edge g k c).
Proof.
  intros Hi. unfold new_feedback_nodes.
  pose proof (push_key g 1 0 [] None) as Hk. pose proof (push_next g 1 0 [] None) as Hn.
  pose proof (push_outs g 1 0 [] None) as Ho.
  pose proof (inv_push g 1 0 [] None Hi) as Hinv.
  pose proof (fun k c => push_in_edge g 1 0 [] None k c (proj1 Hi)) as Hin.
  destruct (push_node g 1 0 [] None) as [g1 k]. cbn [fst snd] in *. subst k.
  pose proof (push_key g1 1 0 [] None) as Hk1. pose proof (push_next g1 1 0 [] None) as Hn1.
  pose proof (push_outs g1 1 0 [] None) as Ho1.
  pose proof (inv_push g1 1 0 [] None Hinv) as Hinv1.
  pose proof (fun k c => push_in_edge g1 1 0 [] None k c (proj1 Hinv)) as Hin1.
  destruct (push_node g1 1 0 [] None) as [g2 k]. cbn [fst snd] in *. subst k.
  rewrite Hn. cbn [fst snd]. split; [reflexivity|].
  split; [apply inv_update; [reflexivity|reflexivity|apply inv_update; auto]|].
  split; [cbn; congruence|]. split; [cbn; congruence|].
  intros k c. rewrite !in_edge_update by reflexivity. rewrite Hin1. apply Hin.
Qed.

Lemma connect_to_node_inv g source sink so si additive feedback g' :
  inv g -> sink < g_next g -> (forall s, source = Some s -> s < g_next g) ->
  (feedback = false -> forall s, source = Some s -> ~ reaches g sink s) ->
  connect_to_node g source sink so si additive feedback = Some g' -> inv g'.
Proof.
  intros Hi Hsk Hlt Hno H. unfold connect_to_node in H.
  pose proof (inv_recalc g true Hi) as Hi0. set (g0 := set_recalc g true) in *.
  destruct feedback.
  - destruct (new_feedback_nodes g0) as [g1 [fbs fbk]] eqn:Ef.
    pose proof (new_feedback_spec g0 Hi0) as Hfb. rewrite Ef in Hfb. cbn [fst snd] in Hfb.
    destruct Hfb as (Hkeys & Hi1 & Hn1 & Ho1 & Hin1). injection Hkeys as -> ->. change (g_next g0) with (g_next g) in *.
    destruct (set_edge g1 (g_next g) 0 _) as [g2|] eqn:E2; cbn [bind] in H; [|discriminate].
    assert (Hi2 : inv g2).
    { eapply inv_set_edge; [exact Hi1|exact E2|]. cbn [e_src]. intros s Hs. split.
      - rewrite Hn1. specialize (Hlt s Hs). cbn. lia.
      - intros Hr. apply unread_reaches in Hr.
        + specialize (Hlt s Hs). cbn in Hr. lia.
        + intros k c e He Hes. rewrite Hin1 in He. pose proof (bi_in g0 (proj1 Hi0) _ _ _ _ He Hes). change (g_next g0) with (g_next g) in *. lia. }
    pose proof (set_edge_in_edge _ _ _ _ _ E2) as Hin2.
    destruct (set_edge_frame _ _ _ _ _ E2) as (_ & Hn2 & _).
    eapply connect_core_inv; [exact Hi2| |exact H].
    intros s Hs. injection Hs as <-. split; [rewrite Hn2, Hn1; lia|].
    intros Hr. apply clos_rt_rtn1 in Hr. inversion Hr as [Heq|y z Hf _ Heq]; [cbn in Heq; lia|].
    destruct Hf as (c & e & He & _). rewrite Hin2, Hin1 in He.
    rewrite (proj2 (Nat.eqb_neq _ _)) in He by lia. cbn [andb] in He.
    rewrite (in_edge_fresh g0 (proj1 Hi0)) in He by (cbn; lia). discriminate.
  - cbn [bind] in H. eapply connect_core_inv; [exact Hi0| |exact H].
    intros s Hs. split; [apply Hlt; exact Hs|]. intros Hr. apply (Hno eq_refl s Hs). exact Hr.
Qed.

(** ** connect_to_output *)
Lemma set_nth_spec {A} (l : list A) i x l' c : set_nth l i x = Some l' ->
  nth_error l' c = if c =? i then Some x else nth_error l c.
Proof.
  intros H. destruct (Nat.eqb_spec c i) as [->|Hne].
  - eapply set_nth_same; eauto.
  - eapply set_nth_other; eauto.
Qed.
Lemma inv_set_out g si e o : inv g -> (forall s, e_src e = Some s -> s < g_next g) ->
  set_nth (g_outs g) si (Some e) = Some o -> inv (set_outs g o).
Proof.
  intros Hi He Ho. apply inv_outs; [exact Hi|]. intros c x s Hx Hs.
  rewrite (set_nth_spec _ _ _ _ _ Ho) in Hx. destruct (c =? si).
  - injection Hx as <-. apply He. exact Hs.
  - apply (bi_out g (proj1 Hi) c x s); [|exact Hs]. unfold out_edge. rewrite Hx. reflexivity.
Qed.
Lemma connect_to_output_inv g source so si additive g' : inv g ->
  (forall s, source = Some s -> s < g_next g) ->
  connect_to_output g source so si additive = Some g' -> inv g'.
Proof.
  intros Hi Hs H. unfold connect_to_output in H.
  pose proof (inv_recalc g true Hi) as Hi0. set (g0 := set_recalc g true) in *.
  assert (Hdirect : forall o, set_nth (g_outs g0) si (Some (mk_edge source so false)) = Some o ->
            inv (set_outs g0 o)).
  { intros o Ho. eapply inv_set_out with (e := mk_edge source so false); [exact Hi0|exact Hs|exact Ho]. }
  destruct additive; cbn [negb] in H.
  2: { destruct (set_nth _ _ _) as [o|] eqn:E; cbn [bind] in H; [|discriminate]. injection H as <-. auto. }
  destruct (nth_error (g_outs g0) si) as [ex|] eqn:Eg; cbn [bind] in H; [|discriminate].
  destruct ex as [e|].
  2: { destruct (set_nth _ _ _) as [o|] eqn:E; cbn [bind] in H; [|discriminate]. injection H as <-. auto. }
  pose proof (new_additive_spec g0 Hi0) as (Hw & _).
  destruct (new_additive_node g0) as [g4 add] eqn:Ea. cbn [fst snd] in Hw. subst add.
  destruct (set_edge g4 (g_next g0) 0 (Some e)) as [g5|] eqn:E5; cbn [bind] in H; [|discriminate].
  destruct (set_edge g5 (g_next g0) 1 _) as [g6|] eqn:E6; cbn [bind] in H; [|discriminate].
  assert (Hg4 : g4 = fst (new_additive_node g0)) by (rewrite Ea; reflexivity).
  rewrite Hg4 in E5.
  destruct (add_node_inv g0 e (mk_edge source so false) g5 g6 Hi0) as (Hi6 & Hn6 & Ho6 & _).
  { intros s He. apply (bi_out g0 (proj1 Hi0) si e); [|exact He]. unfold out_edge. rewrite Eg. reflexivity. }
  { intros s He. apply Hs. exact He. }
  { exact E5. } { exact E6. }
  destruct (set_nth (g_outs g6) si _) as [o|] eqn:E; cbn [bind] in H; [|discriminate]. injection H as <-.
  eapply inv_set_out; [exact Hi6| |exact E]. cbn. intros s Es. injection Es as <-. rewrite Hn6. cbn. lia.
Qed.

(** ** connect_to_parameter *)
Lemma inv_set_pedges g k ps : inv g -> (forall p, In p ps -> p_src p < g_next g) ->
  inv (update g k (fun n => n_set_pedges n (Some ps))).
Proof.
  intros [Hb Hwf] Hp. split.
  - constructor.
    + rewrite keys_update. apply (bi_nodup g Hb).
    + intros k'. rewrite keys_update. apply (bi_lt g Hb).
    + intros k' c e s. rewrite in_edge_update by reflexivity. apply (bi_in g Hb).
    + apply (bi_out g Hb).
    + intros k' p (ps' & E & Hin). unfold pedges_of in E. rewrite lookup_update in E.
      destruct (Nat.eqb_spec k k') as [->|Hne].
      * destruct (lookup g k'); cbn in E; [|discriminate]. injection E as <-. apply Hp. exact Hin.
      * apply (bi_par g Hb k'). exists ps'. auto.
  - eapply wf_same; [|exact Hwf]. intros k' c. apply in_edge_update. reflexivity.
Qed.
Lemma swap_remove_incl {A} (l : list A) i l' : swap_remove l i = Some l' -> incl l' l.
Proof.
  unfold swap_remove. destruct (rev l) as [|last r] eqn:E; [discriminate|].
  assert (Hl : l = rev r ++ [last]) by (rewrite <- (rev_involutive l), E; reflexivity).
  destruct (i =? List.length (rev r)).
  - intros H; injection H as <-. rewrite Hl. intros x Hx. apply in_or_app. auto.
  - intros H x Hx. apply In_nth_error in Hx as [c Hc].
    rewrite (set_nth_spec _ _ _ _ _ H) in Hc. rewrite Hl. apply in_or_app.
    destruct (c =? i); [injection Hc as <-; right; left; reflexivity|].
    left. eapply nth_error_In; eauto.
Qed.
Lemma connect_to_parameter_inv g source so p sink additive g' r : inv g ->
  connect_to_parameter g source so p sink additive = Some (g', r) -> inv g'.
Proof.
  intros Hi H. unfold connect_to_parameter in H.
  assert (Hf : forall e, fail g e = Some (g', r) -> inv g').
  { intros e He. injection He as <- _. exact Hi. }
  destruct (wrong_graph g source); [eauto|]. destruct (wrong_graph g sink); [eauto|].
  destruct (lookup g (id_key sink)) as [nk|] eqn:Ek; cbn [bind] in H; [|discriminate].
  destruct (match p with PIndex i => _ | PDesc d => _ end) as [idx|]; [|eauto].
  destruct (lookup g (id_key source)) as [ns|] eqn:Es; [|eauto].
  destruct (n_outputs ns <=? so); [eauto|].
  assert (Hsrc : id_key source < g_next g).
  { apply (bi_lt g (proj1 Hi)). eapply lookup_key; eauto. }
  destruct (pedges_of g (id_key sink)) as [edges|] eqn:Ep; cbn [bind] in H; [|discriminate].
  assert (Hpe : forall q, In q edges -> p_src q < g_next g).
  { intros q Hq. apply (bi_par g (proj1 Hi) (id_key sink)). exists edges. auto. }
  destruct additive.
  - destruct (find_param idx edges) as [pos|].
    + destruct (nth_error edges pos) as [ex|] eqn:Ex; cbn [bind] in H; [|discriminate].
      destruct (swap_remove edges pos) as [edges'|] eqn:Esw; cbn [bind] in H; [|discriminate].
      assert (Hpe' : forall q, In q edges' -> p_src q < g_next g).
      { intros q Hq. apply Hpe. eapply swap_remove_incl; eauto. }
      set (g1 := update g (id_key sink) (fun n => n_set_pedges n (Some edges'))) in *.
      assert (Hi1 : inv g1) by (apply inv_set_pedges; auto).
      pose proof (new_additive_spec g1 Hi1) as (Hw & _).
      destruct (new_additive_node g1) as [g4 add] eqn:Ea. cbn [fst snd] in Hw. subst add.
      destruct (set_edge g4 (g_next g1) 0 _) as [g5|] eqn:E5; cbn [bind] in H; [|discriminate].
      destruct (set_edge g5 (g_next g1) 1 _) as [g6|] eqn:E6; cbn [bind] in H; [|discriminate].
      assert (Hg4 : g4 = fst (new_additive_node g1)) by (rewrite Ea; reflexivity).
      rewrite Hg4 in E5. clear Hg4 Ea.
      destruct (add_node_inv g1 (mk_edge (Some (p_src ex)) (p_chan ex) false) (mk_edge (Some (id_key source)) so false) g5 g6 Hi1) with (3 := E5) (4 := E6)
        as (Hi6 & Hn6 & Ho6 & _ & _ & Hp6 & _).
      { cbn [e_src]. intros s He. injection He as <-. apply Hpe. eapply nth_error_In; eauto. }
      { cbn [e_src]. intros s He. injection He as <-. exact Hsrc. }
      injection H as <- _. apply inv_set_pedges; [exact Hi6|].
      intros q Hq. rewrite Hn6. apply in_app_or in Hq as [Hq|[<-|[]]].
      * specialize (Hpe' q Hq). cbn. lia.
      * cbn. lia.
    + injection H as <- _. apply inv_set_pedges; [exact Hi|].
      intros q Hq. apply in_app_or in Hq as [Hq|[<-|[]]]; auto.
  - injection H as <- _. apply inv_set_pedges; [exact Hi|].
    intros q Hq. apply in_app_or in Hq as [Hq|[<-|[]]]; auto. apply filter_In in Hq as [Hq _]. auto.
Qed.

(** ** clearing and redirecting *)
Lemma lookup_map_edges f g k :
  nlookup (map_edges f (g_nodes g)) k =
    option_map (fun n => n_set_edges n (option_map (map f) (n_edges n))) (lookup g k).
Proof. unfold map_edges. apply (nlookup_map (fun _ n => n_set_edges n (option_map (map f) (n_edges n)))). Qed.
Lemma in_edge_map_edges f g g' k c : f None = None -> g_nodes g' = map_edges f (g_nodes g) ->
  in_edge g' k c = f (in_edge g k c).
Proof.
  intros Hf Hn. unfold in_edge, edges_of. unfold lookup at 1. rewrite Hn, lookup_map_edges.
  destruct (lookup g k) as [n|]; cbn; [|auto]. destruct (n_edges n) as [es|]; cbn; [|auto].
  rewrite nth_error_map. destruct (nth_error es c); cbn; auto.
Qed.
Lemma pedges_map_edges f g g' k : g_nodes g' = map_edges f (g_nodes g) -> pedges_of g' k = pedges_of g k.
Proof.
  intros Hn. unfold pedges_of. unfold lookup at 1. rewrite Hn, lookup_map_edges.
  destruct (lookup g k); reflexivity.
Qed.
Lemma keys_map_edges f l : map fst (map_edges f l) = map fst l.
Proof. unfold map_edges. rewrite map_map. reflexivity. Qed.
Lemma out_edge_map f g g' c : f None = None -> g_outs g' = map f (g_outs g) ->
  out_edge g' c = f (out_edge g c).
Proof.
  intros Hf Ho. unfold out_edge. rewrite Ho, nth_error_map. destruct (nth_error (g_outs g) c); cbn; auto.
Qed.
Lemma clear_if_some P o e : clear_if P o = Some e -> o = Some e.
Proof. destruct o as [x|]; cbn; [|discriminate]. destruct (P x); congruence. Qed.

Lemma inv_clear P g g' : inv g -> g_nodes g' = map_edges (clear_if P) (g_nodes g) ->
  g_outs g' = map (clear_if P) (g_outs g) -> g_next g' = g_next g -> inv g'.
Proof.
  intros Hi Hn Ho Hx. apply (inv_sub g); auto.
  - unfold keys. rewrite Hn, keys_map_edges. apply (bi_nodup g (proj1 Hi)).
  - unfold keys. rewrite Hn, keys_map_edges. apply incl_refl.
  - intros k c e He s Hs. rewrite (in_edge_map_edges (clear_if P) g g' k c eq_refl Hn) in He.
    apply clear_if_some in He. eapply feeds_in; eauto. exact (proj1 Hi).
  - intros c e s He Hs. rewrite (out_edge_map (clear_if P) g g' c eq_refl Ho) in He.
    apply clear_if_some in He. eapply (bi_out g (proj1 Hi)); eauto.
  - intros k p (ps & E & Hin). rewrite (pedges_map_edges (clear_if P) g g' k Hn) in E.
    apply (bi_par g (proj1 Hi) k). exists ps. auto.
Qed.

(** ** free_node *)
Lemma free_step_in_edge g k g1 k' c :
  g_nodes g1 = map_edges (clear_if (from_key k))
                 (nupdate k (fun n => n_set_pedges (n_set_edges n None) None) (g_nodes g)) ->
  in_edge g1 k' c = if k' =? k then None else clear_if (from_key k) (in_edge g k' c).
Proof.
  intros Hn. set (ga := set_nodes g (nupdate k (fun n => n_set_pedges (n_set_edges n None) None) (g_nodes g))).
  rewrite (in_edge_map_edges (clear_if (from_key k)) ga g1 k' c eq_refl Hn).
  unfold in_edge, edges_of, lookup, ga, set_nodes; cbn [g_nodes]. rewrite nlookup_nupdate.
  rewrite (Nat.eqb_sym k' k). destruct (Nat.eqb_spec k k') as [->|Hne]; [|reflexivity].
  destruct (nlookup (g_nodes g) k'); reflexivity.
Qed.
Lemma free_step_inv g k g1 : inv g ->
  g_nodes g1 = map_edges (clear_if (from_key k))
                 (nupdate k (fun n => n_set_pedges (n_set_edges n None) None) (g_nodes g)) ->
  g_outs g1 = map (clear_if (from_key k)) (g_outs g) -> g_next g1 = g_next g -> inv g1.
Proof.
  intros Hi Hn Ho Hx. apply (inv_sub g); auto.
  - unfold keys. rewrite Hn, keys_map_edges, nupdate_keys. apply (bi_nodup g (proj1 Hi)).
  - unfold keys. rewrite Hn, keys_map_edges, nupdate_keys. apply incl_refl.
  - intros k' c e He s Hs. rewrite (free_step_in_edge g k g1 k' c Hn) in He.
    destruct (k' =? k); [discriminate|]. apply clear_if_some in He. eapply feeds_in; eauto. exact (proj1 Hi).
  - intros c e s He Hs. rewrite (out_edge_map (clear_if (from_key k)) g g1 c eq_refl Ho) in He.
    apply clear_if_some in He. eapply (bi_out g (proj1 Hi)); eauto.
  - intros k' p (ps & E & Hin).
    set (ga := set_nodes g (nupdate k (fun n => n_set_pedges (n_set_edges n None) None) (g_nodes g))) in *.
    rewrite (pedges_map_edges (clear_if (from_key k)) ga g1 k' Hn) in E.
    unfold pedges_of, lookup, ga, set_nodes in E; cbn [g_nodes] in E. rewrite nlookup_nupdate in E.
    destruct (k =? k'); [destruct (nlookup (g_nodes g) k'); discriminate|].
    apply (bi_par g (proj1 Hi) k'). exists ps. auto.
Qed.
Lemma free_node_fuel_inv fuel : forall g k g' r, inv g -> free_node_fuel fuel g k = Some (g', r) -> inv g'.
Proof.
  induction fuel as [|fuel IH]; intros g k g' r Hi H; cbn [free_node_fuel] in H;
    (destruct (lookup g k) as [n|] eqn:El; [|injection H as <- _; exact Hi]);
    (destruct (n_mortal n); cbn [negb] in H; [|injection H as <- _; exact Hi]);
    (destruct (is_pending g k); [injection H as <- _; exact Hi|]);
    match type of H with context [set_pending ?a ?b] => set (g1 := set_pending a b) in * end;
    (assert (Hi1 : inv g1) by (eapply (free_step_inv g k g1); [exact Hi|reflexivity|reflexivity|reflexivity]));
    (destruct (n_strong n) as [dep|]; [|injection H as <- _; exact Hi1]).
  - discriminate.
  - destruct (free_node_fuel fuel g1 dep) as [[g2 r2]|] eqn:E; cbn [bind fst] in H; [|discriminate].
    injection H as <- _. eapply IH; eauto.
Qed.
Lemma free_ok_inv g k g' : inv g -> free_ok g k = Some g' -> inv g'.
Proof.
  intros Hi H. unfold free_ok, free_node in H.
  destruct (free_node_fuel _ g k) as [[g1 r]|] eqn:E; cbn [bind fst] in H; [|discriminate].
  injection H as <-. eapply free_node_fuel_inv; eauto.
Qed.

(** ** evaluate *)
Lemma redirect_inv g k e c0 : inv g -> in_edge g k c0 = Some e ->
  inv (set_outs (set_nodes g (map_edges (redirect k e) (g_nodes g))) (map (redirect k e) (g_outs g))).
Proof.
  intros Hi He. set (g' := set_outs _ _). apply (inv_sub g); auto.
  - unfold keys, g'; cbn [set_outs set_nodes g_nodes]. rewrite keys_map_edges. apply (bi_nodup g (proj1 Hi)).
  - unfold keys, g'; cbn [set_outs set_nodes g_nodes]. rewrite keys_map_edges. apply incl_refl.
  - intros k' c x Hx s Hs. rewrite (in_edge_map_edges (redirect k e) g g' k' c eq_refl eq_refl) in Hx.
    destruct (in_edge g k' c) as [y|] eqn:Ey; cbn in Hx; [|discriminate].
    destruct (from_key k y) eqn:Ek; injection Hx as <-.
    + destruct (feeds_in g k c0 e s (proj1 Hi) He Hs) as [Hlt Ht]. split; [exact Hlt|].
      eapply t_trans; [exact Ht|]. apply t_step. exists c, y. split; [exact Ey|].
      unfold from_key in Ek. destruct (e_src y); [|discriminate]. apply Nat.eqb_eq in Ek. congruence.
    + eapply feeds_in; eauto. exact (proj1 Hi).
  - intros c x s Hx Hs. rewrite (out_edge_map (redirect k e) g g' c eq_refl eq_refl) in Hx.
    destruct (out_edge g c) as [y|] eqn:Ey; cbn in Hx; [|discriminate].
    destruct (from_key k y); injection Hx as <-.
    + eapply (bi_in g (proj1 Hi)); eauto.
    + eapply (bi_out g (proj1 Hi)); eauto.
  - intros k' p (ps & E & Hin). rewrite (pedges_map_edges (redirect k e) g g' k' eq_refl) in E.
    apply (bi_par g (proj1 Hi) k'). exists ps. auto.
Qed.
Lemma evaluate_inv g k g' : inv g -> evaluate g k = Some g' -> inv g'.
Proof.
  intros Hi H. unfold evaluate in H.
  destruct (lookup g k) as [n|] eqn:El; cbn [bind] in H; [|discriminate].
  match type of H with (g1 <- ?X ;; _) = _ => destruct X as [g1|] eqn:E1; cbn [bind] in H; [|discriminate] end.
  assert (Hi1 : inv g1).
  { destruct (n_auto_math n); [|injection E1 as <-; exact Hi].
    destruct (negb _); [discriminate|].
    destruct (n_edges n) as [es|] eqn:Ee; [|injection E1 as <-; exact Hi].
    destruct (nth_error es 0) as [e0|] eqn:E0; cbn [bind] in E1; [|discriminate].
    destruct (nth_error es 1) as [e1|] eqn:E01; cbn [bind] in E1; [|discriminate].
    assert (Hin : forall c o, nth_error es c = Some o -> in_edge g k c = o).
    { intros c o Ho. unfold in_edge, edges_of. rewrite El. cbn. rewrite Ee, Ho. reflexivity. }
    destruct e0 as [e0|], e1 as [e1|].
    - injection E1 as <-. exact Hi.
    - destruct (existsb _ (g_outs g)); [discriminate|].
      eapply free_ok_inv; [|exact E1]. eapply redirect_inv; [exact Hi|]. apply (Hin 0). exact E0.
    - destruct (existsb _ (g_outs g)); [discriminate|].
      eapply free_ok_inv; [|exact E1]. eapply redirect_inv; [exact Hi|]. apply (Hin 1). exact E01.
    - eapply free_ok_inv; eauto. }
  destruct (lookup g1 k) as [n'|]; cbn [bind] in H; [|discriminate].
  destruct (n_auto_free n'); [|injection H as <-; exact Hi1].
  match type of H with (if ?b then _ else _) = _ => destruct b end.
  - injection H as <-. exact Hi1.
  - eapply free_ok_inv; eauto.
Qed.

(** ** disconnects *)
Lemma inv_outs_none g ch outs : inv g -> set_nth (g_outs g) ch None = Some outs -> inv (set_outs g outs).
Proof.
  intros Hi Ho. apply inv_outs; [exact Hi|]. intros c e s He Hs.
  rewrite (set_nth_spec _ _ _ _ _ Ho) in He. destruct (c =? ch); [discriminate|].
  apply (bi_out g (proj1 Hi) c e s); [|exact Hs]. unfold out_edge. rewrite He. reflexivity.
Qed.
Lemma inv_set_edge_none g v ch g' : inv g -> set_edge g v ch None = Some g' -> inv g'.
Proof.
  intros Hi H. pose proof (set_edge_in_edge _ _ _ _ _ H) as Hin.
  destruct (set_edge_frame _ _ _ _ _ H) as (Hk & Hn & Ho & _ & _ & _ & _ & _ & Hp).
  apply (inv_sub g); auto.
  - rewrite Hk. apply (bi_nodup g (proj1 Hi)).
  - rewrite Hk. apply incl_refl.
  - intros k c e He s Hs. rewrite Hin in He. destruct ((k =? v) && (c =? ch)); [discriminate|].
    eapply feeds_in; eauto. exact (proj1 Hi).
  - intros c e s. unfold out_edge. rewrite Ho. apply (bi_out g (proj1 Hi)).
  - intros k p (ps & E & Hi'). rewrite Hp in E. apply (bi_par g (proj1 Hi) k). exists ps; auto.
Qed.
Lemma evaluate_src_inv g o g' : inv g ->
  match o with
  | Some e => match e_src e with Some s => evaluate g s | None => Some g end
  | None => Some g
  end = Some g' -> inv g'.
Proof.
  intros Hi H. destruct o as [e|]; [|injection H as <-; exact Hi].
  destruct (e_src e); [eapply evaluate_inv; eauto|injection H as <-; exact Hi].
Qed.
Lemma disconnect_output_inv g source ch g' r : inv g -> disconnect_output g source ch = Some (g', r) -> inv g'.
Proof.
  intros Hi H. unfold disconnect_output in H.
  assert (Hfin : forall g0 s, inv g0 ->
    inv (set_recalc (set_outs (set_nodes g0 (map_edges (clear_if (from_output s ch)) (g_nodes g0)))
           (map (clear_if (from_output s ch)) (g_outs g0))) true)).
  { intros g0 s H0. eapply (inv_clear (from_output s ch) g0); [exact H0|reflexivity|reflexivity|reflexivity]. }
  destruct source as [|id].
  - destruct (g_inputs g <=? ch); [injection H as <- _; exact Hi|].
    destruct (nth_error (g_outs g) ch) as [o|]; cbn [bind] in H; [|discriminate].
    destruct (set_nth (g_outs g) ch None) as [outs|] eqn:Eo; cbn [bind] in H; [|discriminate].
    match type of H with (g2 <- ?X ;; _) = _ => destruct X as [g2|] eqn:E2; cbn [bind] in H; [|discriminate] end.
    injection H as <- _. apply Hfin. eapply evaluate_src_inv; [|exact E2]. eapply inv_outs_none; eauto.
  - destruct (negb _); [injection H as <- _; exact Hi|].
    destruct (lookup g (id_key id)); [|injection H as <- _; exact Hi].
    destruct (_ <=? ch); injection H as <- _; [exact Hi|]. apply Hfin. exact Hi.
Qed.
Lemma disconnect_input_inv g ch sink g' r : inv g -> disconnect_input g ch sink = Some (g', r) -> inv g'.
Proof.
  intros Hi H. unfold disconnect_input in H. destruct sink as [|id].
  - destruct (g_outputs g <=? ch); [injection H as <- _; exact Hi|].
    destruct (nth_error (g_outs g) ch) as [o|]; cbn [bind] in H; [|discriminate].
    destruct (set_nth (g_outs g) ch None) as [outs|] eqn:Eo; cbn [bind] in H; [|discriminate].
    match type of H with (g2 <- ?X ;; _) = _ => destruct X as [g2|] eqn:E2; cbn [bind] in H; [|discriminate] end.
    injection H as <- _. eapply evaluate_src_inv; [|exact E2]. eapply inv_outs_none; eauto.
  - destruct (negb _); [injection H as <- _; exact Hi|].
    destruct (lookup g (id_key id)) as [n|]; [|injection H as <- _; exact Hi].
    destruct (n_edges n) as [es|]; cbn [bind] in H; [|discriminate].
    destruct (_ <=? ch); [injection H as <- _; exact Hi|].
    destruct (nth_error es ch) as [o|]; cbn [bind] in H; [|discriminate].
    destruct (set_edge g (id_key id) ch None) as [g1|] eqn:E1; cbn [bind] in H; [|discriminate].
    assert (Hi1 : inv g1) by (eapply inv_set_edge_none; eauto).
    match type of H with (g2 <- ?X ;; _) = _ => destruct X as [g2|] eqn:E2; cbn [bind] in H; [|discriminate] end.
    injection H as <- _. apply inv_recalc. destruct o as [e|]; [|injection E2 as <-; exact Hi1].
    destruct (evaluate g1 (id_key id)) as [g3|] eqn:E3; cbn [bind] in E2; [|discriminate].
    pose proof (evaluate_inv _ _ _ Hi1 E3) as Hi3.
    destruct (e_src e); [eapply evaluate_inv; eauto|injection E2 as <-; exact Hi3].
Qed.

(** ** commit *)
Lemma fold_opt_inv {A} (f : graph -> A -> option graph) :
  (forall g x g', inv g -> f g x = Some g' -> inv g') ->
  forall l g g', inv g -> fold_opt f g l = Some g' -> inv g'.
Proof.
  intros Hf. induction l as [|x l IH]; intros g g' Hi H; cbn [fold_opt] in H.
  - injection H as <-. exact Hi.
  - destruct (f g x) as [g1|] eqn:E; cbn [bind] in H; [|discriminate]. eapply IH; [|exact H]. eapply Hf; eauto.
Qed.
Lemma NoDup_map_filter {A B} (f : A -> B) P l : NoDup (map f l) -> NoDup (map f (filter P l)).
Proof.
  induction l as [|x l IH]; cbn; [auto|]. intros H. inversion H; subst.
  destruct (P x); cbn; [constructor|]; auto.
  intros Hin. apply H2. apply in_map_iff in Hin as (y & Hy & Hf). apply filter_In in Hf as [Hf _].
  apply in_map_iff. exists y. auto.
Qed.
Lemma remove_nodes_inv g P pend : inv g ->
  inv (set_pending (set_nodes g (filter (fun kn => P (fst kn)) (g_nodes g))) pend).
Proof.
  intros Hi. set (g' := set_pending _ _).
  assert (Hl : forall k, lookup g' k = if P k then lookup g k else None)
    by (intros k; apply nlookup_filter).
  apply (inv_sub g); auto.
  - apply NoDup_map_filter. apply (bi_nodup g (proj1 Hi)).
  - unfold keys, g'; cbn. intros k Hk. apply in_map_iff in Hk as (x & <- & Hx).
    apply filter_In in Hx as [Hx _]. apply in_map. exact Hx.
  - intros k c e He s Hs. unfold in_edge, edges_of in He. rewrite Hl in He.
    destruct (P k); [|discriminate]. eapply (feeds_in g k c e s (proj1 Hi)); [exact He|exact Hs].
  - apply (bi_out g (proj1 Hi)).
  - intros k p (ps & E & Hin). unfold pedges_of in E. rewrite Hl in E. destruct (P k); [|discriminate].
    apply (bi_par g (proj1 Hi) k). exists ps. auto.
Qed.
Lemma free_old_inv applied g g' : inv g -> free_old applied g = Some g' -> inv g'.
Proof.
  intros Hi H. unfold free_old in H.
  destruct (fold_opt free_ok g _) as [g1|] eqn:E1; cbn [bind] in H; [|discriminate].
  destruct (fold_opt evaluate g1 _) as [g2|] eqn:E2; cbn [bind] in H; [|discriminate].
  injection H as <-.
  assert (Hi1 : inv g1) by (eapply (fold_opt_inv free_ok); [|exact Hi|exact E1]; exact free_ok_inv).
  assert (Hi2 : inv g2) by (eapply (fold_opt_inv evaluate); [|exact Hi1|exact E2]; exact evaluate_inv).
  match goal with |- context [existsb _ ?gone] => set (l := gone) end.
  apply (remove_nodes_inv g2 (fun k => negb (existsb (Nat.eqb k) l))). exact Hi2.
Qed.
Lemma commit_edit_inv applied g g' : inv g -> commit_edit applied g = Some g' -> inv g'.
Proof.
  intros Hi H. unfold commit_edit in H.
  destruct (free_old applied g) as [g1|] eqn:E; cbn [bind] in H; [|discriminate].
  pose proof (free_old_inv _ _ _ Hi E) as Hi1.
  destruct (g_recalc g1); injection H as <-; [|exact Hi1].
  eapply inv_frame; [| | |exact Hi1]; reflexivity.
Qed.

(** ** all edits *)
Lemma done_inv g0 g' r : done g0 = Some (g', r) -> g0 = Some g'.
Proof. unfold done. destruct g0; cbn; [|discriminate]. intros H; injection H as <- _. reflexivity. Qed.

Lemma connect2_inv g s so si k a f g' r : inv g -> connect2 g s so si k a f = Some (g', r) -> inv g'.
Proof.
  intros Hi H.
  assert (Hlk : forall id n, lookup g (id_key id) = Some n -> id_key id < g_next g).
  { intros id n Hl. apply (bi_lt g (proj1 Hi)). eapply lookup_key; eauto. }
  unfold connect2 in H. destruct s as [|s], k as [|k].
  - unfold connect_input_to_output in H.
    destruct (_ <=? so); [injection H as <- _; exact Hi|].
    destruct (_ <=? si); [injection H as <- _; exact Hi|].
    apply done_inv in H. eapply connect_to_output_inv; [exact Hi| |exact H]. discriminate.
  - unfold connect_input_to_node in H.
    destruct (wrong_graph g k); [injection H as <- _; exact Hi|].
    destruct (_ <=? so); [injection H as <- _; exact Hi|].
    destruct (lookup g (id_key k)) as [nk|] eqn:Ek; [|injection H as <- _; exact Hi].
    destruct (_ <=? si); [injection H as <- _; exact Hi|].
    apply done_inv in H. eapply connect_to_node_inv; [exact Hi|eapply Hlk; eauto| | |exact H]; discriminate.
  - unfold connect_node_to_output in H.
    destruct (wrong_graph g s); [injection H as <- _; exact Hi|].
    destruct (_ <=? si); [injection H as <- _; exact Hi|].
    destruct (lookup g (id_key s)) as [ns|] eqn:Es; [|injection H as <- _; exact Hi].
    destruct (_ <=? so); [injection H as <- _; exact Hi|].
    apply done_inv in H. eapply connect_to_output_inv; [exact Hi| |exact H].
    intros x Hx. injection Hx as <-. eapply Hlk; eauto.
  - unfold connect_nodes in H.
    destruct (wrong_graph g s); [injection H as <- _; exact Hi|].
    destruct (wrong_graph g k); [injection H as <- _; exact Hi|].
    destruct (lookup g (id_key s)) as [ns|] eqn:Es; [|injection H as <- _; exact Hi].
    destruct (_ <=? so); [injection H as <- _; exact Hi|].
    destruct (lookup g (id_key k)) as [nk|] eqn:Ek; [|injection H as <- _; exact Hi].
    destruct (_ <=? si); [injection H as <- _; exact Hi|].
    match type of H with (circular <- ?X ;; _) = _ => destruct X as [b|] eqn:Ec; cbn [bind] in H; [|discriminate] end.
    destruct b; [injection H as <- _; exact Hi|].
    apply done_inv in H. eapply connect_to_node_inv; [exact Hi|eapply Hlk; eauto| | |exact H].
    + intros x Hx. injection Hx as <-. eapply Hlk; eauto.
    + intros -> x Hx Hr. injection Hx as <-.
      destruct (has_path_spec g (id_key k) (id_key s) (bi_nodup g (proj1 Hi))) as (b & Eb & Hb).
      rewrite Ec in Eb. injection Eb as <-. apply Hb in Hr. discriminate.
Qed.

Lemma step_inv g o g' r : inv g -> step g o = Some (g', r) -> inv g'.
Proof.
  intros Hi H. destruct o; cbn [step] in H.
  - injection H as <- _. apply inv_push. exact Hi.
  - eapply connect2_inv; eauto.
  - eapply connect_to_parameter_inv; eauto.
  - eapply disconnect_output_inv; eauto.
  - eapply disconnect_input_inv; eauto.
  - unfold edit_free in H. destruct (wrong_graph g id); [injection H as <- _; exact Hi|].
    eapply free_node_fuel_inv; eauto.
  - unfold set_mortality in H. destruct (lookup g (id_key id)); injection H as <- _; [|exact Hi].
    apply inv_update; auto.
  - injection H as <- _. apply inv_update; auto.
  - apply done_inv in H. eapply commit_edit_inv; eauto.
Qed.

Lemma run_inv ops : forall g g', inv g -> run g ops = Some g' -> inv g'.
Proof.
  induction ops as [|o ops IH]; intros g g' Hi H; cbn [run] in H.
  - injection H as <-. exact Hi.
  - destruct (step g o) as [[g1 r]|] eqn:E; cbn [bind fst] in H; [|discriminate].
    eapply IH; [|exact H]. eapply step_inv; eauto.
Qed.

Lemma graph_new_inv id i o slots : inv (graph_new id i o slots).
Proof.
  split.
  - constructor; cbn; try tauto.
    + constructor.
    + intros k c e s H. unfold in_edge, edges_of, lookup in H. cbn in H. discriminate.
    + intros c e s H. unfold out_edge in H. cbn in H. destruct (nth_error (repeat None o) c) eqn:E; [|discriminate].
      apply nth_error_In in E. apply repeat_spec in E. congruence.
    + intros k p (ps & E & _). discriminate.
  - intros x. constructor. intros y (c & e & H & _). discriminate.
Qed.
Lemma reachable_inv g : reachable g -> inv g.
Proof. intros (id & i & o & slots & ops & H). eapply run_inv; [|exact H]. apply graph_new_inv. Qed.
