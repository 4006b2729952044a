(** Chaining with feedback: lists of connections that go through pairs of feedback nodes *)
From Verif Require Import Base GraphModel GraphSpec GraphBase GraphPath GraphInv GraphShape GraphSums GraphStep GraphGrow HandleModel HandleSpec HandleProofs HandleWire.
Local Open Scope nat_scope.
Local Notation length := List.length.

(** ** nodes keep their channels and their partners *)
Record kept (g g' : graph) : Prop := {
  ke_same : same g g';
  ke_next : g_next g <= g_next g';
  ke_pair : forall k n, lookup g k = Some n -> exists n', lookup g' k = Some n' /\ n_strong n' = n_strong n }.
Lemma kept_refl g : kept g g.
Proof. constructor; [constructor; try reflexivity; intros k n H; exists n; auto | lia | intros k n H; exists n; auto]. Qed.
Lemma kept_trans a b c : kept a b -> kept b c -> kept a c.
Proof.
  intros [A1 A2 A3] [B1 B2 B3]. constructor; [eapply same_trans; eauto | lia |]. intros k n H. destruct (A3 k n H) as (n1 & H1 & E1).
  destruct (B3 k n1 H1) as (n2 & H2 & E2). exists n2. split; [exact H2 | congruence].
Qed.
Lemma kept_set_edge g k ch e g' : set_edge g k ch e = Some g' -> kept g g'.
Proof.
  intros H. constructor; [eapply same_set_edge; exact H | rewrite (set_edge_next _ _ _ _ _ H); lia |].
  apply set_edge_some in H as (es & es' & _ & _ & ->). intros k' n H. rewrite lookup_update, H.
  destruct (k =? k'); cbn [option_map]; eexists; split; reflexivity.
Qed.
Lemma kept_recalc g : kept g (set_recalc g true).
Proof. constructor; [constructor; try reflexivity; intros k n H; exists n; auto | cbn; lia | intros k n H; exists n; auto]. Qed.
Lemma kept_additive g : inv g -> kept g (fst (new_additive_node g)).
Proof.
  intros Hi. destruct (new_additive_spec g Hi) as (_ & _ & N & _ & _ & _ & L). constructor; [apply same_additive; exact Hi | rewrite N; lia |].
  intros k n H. rewrite L. destruct (Nat.eqb_spec (g_next g) k) as [<- | _]; [rewrite (lookup_fresh g (proj1 Hi)) in H by lia; discriminate |].
  exists n. auto.
Qed.
Lemma kept_core g src sink so si fb additive g' : inv g ->
  (if negb additive then set_edge g sink si (Some (mk_edge src so false))
   else existing <- get_edge g sink si ;;
     match existing with
     | Some e =>
         let '(g4, add) := new_additive_node g in
         g5 <- set_edge g4 add 0 (Some e) ;;
         g6 <- set_edge g5 add 1 (Some (mk_edge src so false)) ;;
         set_edge g6 sink si (Some (mk_edge (Some add) 0 false))
     | None => set_edge g sink si (Some (mk_edge src so fb))
     end) = Some g' -> kept g g'.
Proof.
  intros Hi H. destruct additive; cbn [negb] in H; [| eapply kept_set_edge; eauto].
  destruct (get_edge g sink si) as [[e |] |]; cbn [bind] in H; [| | discriminate]; [| eapply kept_set_edge; eauto].
  pose proof (kept_additive g Hi) as H4. destruct (new_additive_node g) as [g4 add]. cbn [fst] in H4.
  destruct (set_edge g4 add 0 (Some e)) as [g5 |] eqn:E5; cbn [bind] in H; [| discriminate].
  destruct (set_edge g5 add 1 _) as [g6 |] eqn:E6; cbn [bind] in H; [| discriminate].
  apply kept_set_edge in E5, E6, H. eapply kept_trans; [exact H4 |]. eapply kept_trans; [exact E5 |]. eapply kept_trans; eauto.
Qed.
(** The inserted pair: two nodes that know each other *)
Lemma feedback_lookup g k : inv g -> lookup (fst (new_feedback_nodes g)) k =
  if k =? g_next g then Some (n_set_pair (S (g_next g)) (mk_node 1 0 [] false false None None (Some [None]) (Some []) true))
  else if k =? S (g_next g) then Some (n_set_pair (g_next g) (mk_node 1 0 [] false false None None (Some [None]) (Some []) true))
  else lookup g k.
Proof.
  intros Hi. unfold new_feedback_nodes.
  pose proof (fun k => push_lookup g 1 0 [] None k (proj1 Hi)) as L1. pose proof (inv_push g 1 0 [] None Hi) as Hi1.
  pose proof (push_next g 1 0 [] None) as N1. pose proof (push_key g 1 0 [] None) as K1.
  destruct (push_node g 1 0 [] None) as [g1 k1]. cbn [fst snd] in *.
  pose proof (fun k => push_lookup g1 1 0 [] None k (proj1 Hi1)) as L2. pose proof (push_key g1 1 0 [] None) as K2.
  destruct (push_node g1 1 0 [] None) as [g2 k2]. cbn [fst snd] in *. rewrite N1 in *. subst k1 k2.
  rewrite !lookup_update, L2, L1. rewrite (Nat.eqb_sym k (g_next g)), (Nat.eqb_sym k (S (g_next g))).
  destruct (Nat.eqb_spec (g_next g) k) as [<- | H1]; cbn [option_map].
  - rewrite (proj2 (Nat.eqb_neq (S (g_next g)) (g_next g))) by lia. reflexivity.
  - destruct (Nat.eqb_spec (S (g_next g)) k) as [<- | H2]; reflexivity.
Qed.
Lemma kept_feedback g : inv g -> kept g (fst (new_feedback_nodes g)).
Proof.
  intros Hi. assert (L : forall k n, lookup g k = Some n -> lookup (fst (new_feedback_nodes g)) k = Some n).
  { intros k n H. rewrite feedback_lookup by exact Hi. assert (Hk : k < g_next g) by (apply (bi_lt g (proj1 Hi)); eapply lookup_key; eauto).
    rewrite (proj2 (Nat.eqb_neq k (g_next g))) by lia. rewrite (proj2 (Nat.eqb_neq k (S (g_next g)))) by lia. exact H. }
  destruct (new_feedback_spec g Hi) as (_ & _ & N & _). constructor; [constructor | lia |].
  - unfold new_feedback_nodes, push_node. destruct (g_slots g) as [| p [| q s]]; reflexivity.
  - unfold new_feedback_nodes, push_node. destruct (g_slots g) as [| p [| q s]]; reflexivity.
  - intros k n H. exists n. split; [apply L; exact H | auto].
  - intros k n H. exists n. split; [apply L; exact H | reflexivity].
Qed.
Lemma kept_partner g g' k k' : kept g g' -> partner g k k' -> partner g' k k'.
Proof. intros H (n & L & E). destruct (ke_pair g g' H k n L) as (n' & L' & E'). exists n'. split; [exact L' | congruence]. Qed.
Lemma connect_to_node_kept g source sink so si additive feedback g' : inv g -> (forall s, source = Some s -> s < g_next g) ->
  connect_to_node g source sink so si additive feedback = Some g' ->
  kept g g' /\ (feedback = true -> S (S (g_next g)) <= g_next g' /\ partner g' (g_next g) (S (g_next g)) /\ partner g' (S (g_next g)) (g_next g)).
Proof.
  intros Hi Hlt H. unfold connect_to_node in H. pose proof (kept_recalc g) as K0. pose proof (inv_recalc g true Hi) as Hi0. set (g0 := set_recalc g true) in *.
  destruct feedback.
  - pose proof (kept_feedback g0 Hi0) as Kf. pose proof (new_feedback_spec g0 Hi0) as Hf. pose proof (fun k => feedback_lookup g0 k Hi0) as L.
    destruct (new_feedback_nodes g0) as [g1 [fbs fbk]] eqn:Ef. cbn [fst snd] in Kf, Hf, L.
    destruct Hf as (Hk & Hi1 & N1 & _ & Hin1). injection Hk as -> ->. change (g_next g0) with (g_next g) in *.
    destruct (set_edge g1 (g_next g) 0 _) as [g2 |] eqn:E2; cbn [bind] in H; [| discriminate].
    assert (Hi2 : inv g2).
    { eapply inv_set_edge; [exact Hi1 | exact E2 |]. cbn [e_src]. intros s Hs. split.
      - rewrite N1. specialize (Hlt s Hs). lia.
      - intros Hr. apply unread_reaches in Hr.
        + specialize (Hlt s Hs). lia.
        + intros k c e He Hes. rewrite Hin1 in He. pose proof (bi_in g0 (proj1 Hi0) _ _ _ _ He Hes). change (g_next g0) with (g_next g) in *. lia. }
    apply kept_core in H; [| exact Hi2]. apply kept_set_edge in E2. pose proof (kept_trans _ _ _ E2 H) as K1.
    split; [eapply kept_trans; [exact K0 |]; eapply kept_trans; [exact Kf | exact K1] |]. intros _.
    split; [pose proof (ke_next _ _ K1); lia |]. split; apply (kept_partner g1 g' _ _ K1); (eexists; split; [rewrite L |]).
    + rewrite Nat.eqb_refl. reflexivity.
    + reflexivity.
    + rewrite (proj2 (Nat.eqb_neq (S (g_next g)) (g_next g))) by lia. rewrite Nat.eqb_refl. reflexivity.
    + reflexivity.
  - cbn [bind] in H. apply kept_core in H; [| exact Hi0]. split; [eapply kept_trans; eauto | discriminate].
Qed.

(** ** what is heard at the inputs *)
Lemma connect2_wf2 g s so si k a f g' r : wf g -> connect2 g s so si k a f = Some (g', r) -> wf g'.
Proof. intros W H. exact (step_wf g (OpConnect s so si k a f) g' r W H). Qed.
Lemma connect2_fb_node g s k so si a g' : wf g -> connect2 g (NNode s) so si (NNode k) a true = Some (g', Ok) ->
  connect_to_node g (Some (id_key s)) (id_key k) so si a true = Some g' /\ id_key s < g_next g /\ id_key k < g_next g.
Proof.
  intros [Hi _] H. unfold connect2, connect_nodes in H. destruct (wrong_graph g s); [discriminate |]. destruct (wrong_graph g k); [discriminate |].
  destruct (lookup g (id_key s)) as [ns |] eqn:Es; [| discriminate]. destruct (_ <=? so); [discriminate |].
  destruct (lookup g (id_key k)) as [nk |] eqn:Ek; [| discriminate]. destruct (_ <=? si); [discriminate |].
  cbn [bind] in H. apply done_inv in H. split; [exact H |]. split; apply (bi_lt g (proj1 Hi)); eapply lookup_key; eauto.
Qed.
(** One connection of the list *)
Lemma connect2_fb_one g s so si k a g1 : wf g -> (forall id, s = NNode id -> id_key id < g_next g /\ summing g (id_key id) = false) ->
  id_key k < g_next g -> summing g (id_key k) = false -> connect2 g s so si (NNode k) a true = Some (g1, Ok) ->
  kept g g1 /\ (forall k', k' < g_next g -> summing g1 k' = summing g k') /\
  (forall k' c, k' < g_next g -> (k', c) <> (id_key k, si) -> in_edge g1 k' c = in_edge g k' c) /\ g_outs g1 = g_outs g /\
  (forall o l, sums g o l -> older g o -> sums g1 o l) /\
  exists x, through (g_next g) g1 ((s, so), (NNode k, si)) x /\ (forall y, fst x = Some y -> g_next g <= y < g_next g1) /\
    (if a then forall l, sums g (in_edge g (id_key k) si) l -> sums g1 (in_edge g1 (id_key k) si) (l ++ [x]) else sums g1 (in_edge g1 (id_key k) si) [x]).
Proof.
  intros W Hs Hk Sk H. destruct s as [| s].
  - assert (H' : step g (OpConnect NGraph so si (NNode k) a false) = Some (g1, Ok)) by exact H.
    destruct (step_connect_node g NGraph k so si a g1 W H') as (C & Hlt & _).
    destruct (connect_to_node_sums _ _ _ _ _ _ _ (proj1 W) Hlt Sk C) as (A & B & O & D & X).
    destruct (connect_to_node_kept g None (id_key k) so si a false g1 (proj1 W) ltac:(discriminate) C) as [K _].
    split; [exact K |]. split; [exact A |]. split; [exact B |]. split; [exact O |]. split; [exact D |].
    exists (None, so). split; [reflexivity |]. split; [discriminate |].
    assert (Ls : sums g (Some (mk_edge None so false)) [(None, so)]).
    { apply (sums_leaf g (mk_edge None so false)). cbn [e_src]. discriminate. }
    exact (X _ Ls).
  - destruct (connect2_fb_node g s k so si a g1 W H) as (C & Ls & _).
    assert (Hlt : forall z, Some (id_key s) = Some z -> z < g_next g) by (intros z Hz; injection Hz as <-; exact Ls).
    destruct (connect_to_node_fb_sums g _ _ so si a g1 (proj1 W) Hk Hlt Sk C) as (A & B & O & D & P & X).
    destruct (connect_to_node_kept g _ _ so si a true g1 (proj1 W) Hlt C) as [K Kp]. destruct (Kp eq_refl) as (N & P1 & P2).
    split; [exact K |]. split; [intros k' Hk'; apply A; lia |]. split; [exact B |]. split; [exact O |]. split; [exact D |].
    exists (Some (S (g_next g)), so). split.
    { exists (g_next g), (S (g_next g)). repeat split; auto. }
    split; [intros y Hy; injection Hy as <-; lia |]. exact X.
Qed.
Lemma through_mono lo lo' g g' p x : lo' <= lo -> kept g g' ->
  (forall k c e, lo <= k -> in_edge g k c = Some e -> in_edge g' k c = Some e) -> through lo g p x -> through lo' g' p x.
Proof.
  intros Hl K I. unfold through. destruct (fst (fst p)) as [| s]; [auto |]. intros (fk & fs & L1 & L2 & E & P1 & P2 & He).
  exists fk, fs. split; [lia |]. split; [lia |]. split; [exact E |]. split; [eapply kept_partner; eauto |]. split; [eapply kept_partner; eauto |].
  apply I; assumption.
Qed.
Lemma wire_fb_sums a : forall l g g' rs, wf g -> (forall p, In p l -> fst (snd p) <> NGraph) -> known g l -> wire a true g l = Some (g', rs) ->
  kept g g' /\ (forall k c, k < g_next g -> (forall id, In (NNode id, c) (map snd l) -> id_key id <> k) -> in_edge g' k c = in_edge g k c) /\
  g_outs g' = g_outs g /\
  (forall c l0, sums g (out_edge g c) l0 -> sums g' (out_edge g' c) l0) /\
  exists ls, Forall2 (through (g_next g) g') (accepted l rs) ls /\ apart (g_next g) ls /\
    (forall k c l0, k < g_next g -> sums g (in_edge g k c) l0 -> sums g' (in_edge g' k c) (merge a l0 (heard (accepted l rs) ls k c))).
Proof.
  induction l as [| [[s so] [k si]] l IH]; intros g g' rs W K N H; cbn [wire] in H.
  - injection H as <- <-. cbn [accepted]. split; [apply kept_refl |]. split; [auto |]. split; [reflexivity |]. split; [auto |].
    exists []. split; [constructor |]. split; [split; [constructor | intros ? ? []] |]. intros k c l0 _ Hl. exact Hl.
  - destruct (connect2 g s so si k a true) as [[g1 r] |] eqn:E1; [| discriminate]. cbn [bind fst snd] in H.
    destruct (wire a true g1 l) as [[g2 rs2] |] eqn:E2; [| discriminate]. cbn [bind fst snd] in H. injection H as <- <-.
    pose proof (connect2_wf2 _ _ _ _ _ _ _ _ _ W E1) as W1.
    assert (K' : forall p, In p l -> fst (snd p) <> NGraph) by (intros p Hp; apply K; right; exact Hp).
    assert (N' : known g l) by (intros p id Hp; apply N; right; exact Hp).
    destruct r as [| e].
    2: { apply connect2_err in E1. subst g1. cbn [accepted]. destruct (IH _ _ _ W K' N' E2) as (I0 & I1 & I2 & I4 & I5).
      split; [exact I0 |]. split; [| auto]. intros k' c Hk' Hd. apply I1; [exact Hk' |]. intros id Hid. apply Hd. right. exact Hid. }
    destruct k as [| k]; [exfalso; apply (K ((s, so), (NGraph, si))); [left; reflexivity | reflexivity] |].
    assert (Sk : id_key k < g_next g /\ summing g (id_key k) = false) by (apply (N ((s, so), (NNode k, si))); [left; reflexivity | right; reflexivity]).
    destruct Sk as [Lk Sk].
    destruct (connect2_fb_one g s so si k a g1 W) as (K1 & A & B & O & D & x & Tx & Fx & X); [| exact Lk | exact Sk | exact E1 |].
    { intros id Hid. apply (N ((s, so), (NNode k, si))); [left; reflexivity | left; exact Hid]. }
    pose proof (ke_next _ _ K1) as Hn.
    assert (N1 : known g1 l) by (intros p id Hp Hid; destruct (N' p id Hp Hid) as [L S0]; split; [lia | rewrite A by exact L; exact S0]).
    destruct (IH g1 g2 rs2 W1 K' N1 E2) as (I0 & I1 & I2 & I4 & ls & F & [Nd Lo] & I5).
    split; [eapply kept_trans; eauto |]. split.
    { intros k' c Hk' Hd. rewrite I1; [apply B; [exact Hk' |] | lia | intros id Hid; apply Hd; right; exact Hid].
      intros Ep. injection Ep as -> ->. apply (Hd k); [left; reflexivity | reflexivity]. }
    split; [congruence |]. split.
    { intros c l0 Hl0. apply I4. replace (out_edge g1 c) with (out_edge g c) by (unfold out_edge; rewrite O; reflexivity).
      apply D; [exact Hl0 | apply older_out; exact (proj1 (proj1 W))]. }
    exists (x :: ls). cbn [accepted]. split; [constructor |].
    + revert Tx. apply through_mono; [lia | exact I0 |]. intros k' c e Hk' He. rewrite I1; [exact He | apply (bi_lt g1 (proj1 (proj1 W1))); eapply in_edge_key; eauto |].
      intros id Hid Eid. apply in_map_iff in Hid as (p & Ep & Hp). destruct (N' p id Hp) as [L _]; [right; destruct p as [p1 p2]; cbn [snd] in Ep |- *; subst p2; reflexivity | lia].
    + clear - F Hn. induction F as [| p y ps ys Hp F IHF]; constructor; [| exact IHF]. revert Hp. apply through_mono; [lia | apply kept_refl | auto].
    + split; [split |].
      * cbn [flat_map]. destruct x as [[y |] cx]; cbn [fst app]; [| exact Nd]. constructor; [| exact Nd].
        intros Hy. apply in_flat_map in Hy as ([[z |] cz] & Hz & Ez); cbn [fst] in Ez; [| contradiction]. destruct Ez as [-> | []].
        apply Lo in Hz. specialize (Fx y eq_refl). lia.
      * intros y c [-> | Hy]; [apply (Fx y eq_refl) | apply Lo in Hy; lia].
      * intros k' c l0 Hk' Hl0. unfold heard. cbn [combine filter fst snd].
        destruct ((id_key k =? k') && (si =? c)) eqn:Em.
        -- apply andb_true_iff in Em as [Ek Ec]. apply Nat.eqb_eq in Ek, Ec. subst k' c. cbn [map snd]. unfold merge. cbn [fold_left].
           apply I5; [lia |]. destruct a; [apply X; exact Hl0 | exact X].
        -- apply I5; [lia |]. rewrite B; [apply D; [exact Hl0 | apply older_in; exact (proj1 (proj1 W))] | exact Hk' |].
           intros Ep. injection Ep as -> ->. rewrite !Nat.eqb_refl in Em. discriminate.
Qed.

(** ** everything is accepted *)
Lemma connect_to_node_fb_total g s sink m so si a : inv g -> s < g_next g -> has_ins g sink m -> si < m -> exists g', connect_to_node g (Some s) sink so si a true = Some g'.
Proof.
  intros Hi Hs Hm Hsi. unfold connect_to_node. pose proof (inv_recalc g true Hi) as Hi0. set (g0 := set_recalc g true) in *.
  pose proof (new_feedback_spec g0 Hi0) as Hf. pose proof (fun k => feedback_lookup g0 k Hi0) as L.
  destruct (new_feedback_nodes g0) as [g1 [fbs fbk]] eqn:Ef. cbn [fst snd] in Hf, L.
  destruct Hf as (Hk & Hi1 & N1 & _ & Hin1). injection Hk as -> ->. change (g_next g0) with (g_next g) in *.
  destruct (set_edge_total g1 (g_next g) 1 0 (Some (mk_edge (Some s) so true))) as [g2 E2]; [| lia |].
  { eexists. split; [unfold edges_of; rewrite L, Nat.eqb_refl; reflexivity | reflexivity]. }
  rewrite E2. cbn [bind]. apply (connect_core_total g2 (Some (S (g_next g))) sink m so si true a); [| | exact Hsi].
  - eapply inv_set_edge; [exact Hi1 | exact E2 |]. cbn [e_src]. intros s' Hs'. injection Hs' as <-. split; [lia |].
    intros Hr. apply unread_reaches in Hr; [lia |].
    intros k c e He Hes. rewrite Hin1 in He. pose proof (bi_in g0 (proj1 Hi0) _ _ _ _ He Hes). change (g_next g0) with (g_next g) in *. lia.
  - eapply has_ins_set_edge; [exact E2 |]. destruct Hm as (es & Ee & El). exists es. split; [| exact El]. unfold edges_of in *. rewrite L.
    change (lookup g0 sink) with (lookup g sink). destruct (lookup g sink) as [n |] eqn:En; [| discriminate].
    assert (sink < g_next g) by (apply (bi_lt g (proj1 Hi)); eapply lookup_key; eauto).
    rewrite (proj2 (Nat.eqb_neq sink (g_next g))) by lia. rewrite (proj2 (Nat.eqb_neq sink (S (g_next g)))) by lia. exact Ee.
Qed.
Lemma connect_fb_accepted g s so k si a : wf g -> source_ok g (s, so) -> sink_ok g (k, si) -> exists g', connect2 g s so si k a true = Some (g', Ok) /\ kept g g'.
Proof.
  intros W Hs Hk. destruct k as [| id]; [contradiction |]. pose proof Hk as (Gk & nk & Lk & Ek & Ik). cbn [fst snd] in *.
  destruct s as [| s].
  - destruct (connect_accepted g NGraph so (NNode id) si a W Hs Hk) as (g' & id' & Ei & E & C); [discriminate |].
    exists g'. split; [exact E |]. exact (proj1 (connect_to_node_kept g None _ so si a false g' (proj1 W) ltac:(discriminate) C)).
  - destruct Hs as (Gs & ns & Ls & Os). cbn [fst snd] in *. unfold connect2, connect_nodes.
    rewrite (right_graph g s Gs), (right_graph g id Gk), Ls, Lk. apply Nat.leb_gt in Ik as Ik'. apply Nat.leb_gt in Os as Os'. rewrite Ik', Os'. cbn [bind].
    destruct (n_edges nk) as [es |] eqn:Ee; [| congruence].
    assert (Hs : id_key s < g_next g) by (apply (bi_lt g (proj1 (proj1 W))); eapply lookup_key; eauto).
    destruct (connect_to_node_fb_total g (id_key s) (id_key id) (n_inputs nk) so si a (proj1 W) Hs) as [g' Eg]; [| exact Ik |].
    { exists es. split; [unfold edges_of; rewrite Lk; exact Ee |]. apply (sh_node g (proj2 W) _ _ Lk). exact Ee. }
    exists g'. split; [exact (f_equal done Eg) |]. eapply (connect_to_node_kept g (Some (id_key s))); [exact (proj1 W) | intros z Hz; injection Hz as <-; exact Hs | exact Eg].
Qed.
Lemma wire_fb_accepted a : forall l g, wf g -> (forall p, In p l -> source_ok g (fst p) /\ sink_ok g (snd p)) ->
  exists g' rs, wire a true g l = Some (g', rs) /\ rs = map (fun _ => Ok) l.
Proof.
  induction l as [| [[s so] [k si]] l IH]; intros g W H; cbn [wire map]; [exists g, []; auto |].
  destruct (H _ (or_introl eq_refl)) as [Hs Hk]. cbn [fst snd] in Hs, Hk.
  destruct (connect_fb_accepted g s so k si a W Hs Hk) as (g1 & E1 & K1). rewrite E1. cbn [bind fst snd].
  destruct (IH g1 (connect2_wf2 _ _ _ _ _ _ _ _ _ W E1)) as (g2 & rs & E2 & Ers).
  { intros p Hp. destruct (H p (or_intror Hp)) as [A1 A2]. split; [eapply same_source | eapply same_sink]; eauto; exact (ke_same _ _ K1). }
  rewrite E2. cbn [bind fst snd]. exists g2, (Ok :: rs). split; [reflexivity | rewrite Ers; reflexivity].
Qed.
