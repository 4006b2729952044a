(** Chaining: lists of connections *)
From Verif Require Import Base GraphModel GraphSpec GraphBase GraphPath GraphInv GraphShape GraphSums GraphStep HandleModel HandleSpec HandleProofs.
Local Open Scope nat_scope.
Local Notation length := List.length.

(** ** what is heard at the inputs *)
Definition merge (additive : bool) (old new : list leaf) : list leaf := fold_left (fun acc x => if additive then acc ++ [x] else [x]) new old.
Lemma merge_combined : forall a new old, merge a old new = combined a old new.
Proof.
  intros a. unfold merge, combined. destruct a.
  - induction new as [| x new IH]; intros old; cbn [fold_left]; [rewrite app_nil_r; reflexivity |]. rewrite IH, <- app_assoc. reflexivity.
  - induction new as [| x new IH]; intros old; cbn [fold_left]; [reflexivity |]. rewrite IH. destruct new; reflexivity.
Qed.
Lemma connect2_wf g s so si k a g' r : wf g -> connect2 g s so si k a false = Some (g', r) -> wf g'.
Proof. intros W H. exact (step_wf g (OpConnect s so si k a false) g' r W H). Qed.
Lemma connect2_err g s so si k a f g' e : connect2 g s so si k a f = Some (g', Err e) -> g' = g.
Proof. intros H. exact (step_err g (OpConnect s so si k a f) g' e H). Qed.
Lemma wire_sums a : forall l g g' rs, wf g -> (forall p, In p l -> fst (snd p) <> NGraph) -> known g l -> wire a false g l = Some (g', rs) ->
  g_next g <= g_next g' /\
  (forall k c l0, k < g_next g -> sums g (in_edge g k c) l0 -> sums g' (in_edge g' k c) (merge a l0 (new_leaves (accepted l rs) k c))) /\
  (forall c l0, sums g (out_edge g c) l0 -> sums g' (out_edge g' c) l0) /\ g_outs g' = g_outs g.
Proof.
  induction l as [| [[s so] [k si]] l IH]; intros g g' rs W K N H; cbn [wire] in H.
  - injection H as <- <-. cbn [accepted]. auto.
  - destruct (connect2 g s so si k a false) as [[g1 r] |] eqn:E1; [| discriminate]. cbn [bind fst snd] in H.
    destruct (wire a false g1 l) as [[g2 rs2] |] eqn:E2; [| discriminate]. cbn [bind fst snd] in H. injection H as <- <-.
    pose proof (connect2_wf _ _ _ _ _ _ _ _ W E1) as W1.
    assert (K' : forall p, In p l -> fst (snd p) <> NGraph) by (intros p Hp; apply K; right; exact Hp).
    assert (N' : known g l) by (intros p id Hp; apply N; right; exact Hp).
    destruct r as [| e].
    2: { apply connect2_err in E1. subst g1. cbn [accepted]. exact (IH _ _ _ W K' N' E2). }
    destruct k as [| k]; [exfalso; apply (K ((s, so), (NGraph, si))); [left; reflexivity | reflexivity] |].
    destruct (step_connect_node g s k so si a g1 W E1) as (C & Hlt & Hk).
    assert (Sk : summing g (id_key k) = false) by (apply (N ((s, so), (NNode k, si))); [left; reflexivity | right; reflexivity]).
    destruct (connect_to_node_sums _ _ _ _ _ _ _ (proj1 W) Hlt Sk C) as (A & B & O & D & X).
    pose proof (connect_to_node_next _ _ _ _ _ _ _ (proj1 W) C) as Hn.
    assert (N1 : known g1 l) by (intros p id Hp Hid; destruct (N' p id Hp Hid) as [L S0]; split; [lia | rewrite A by exact L; exact S0]).
    destruct (IH g1 g2 rs2 W1 K' N1 E2) as (I0 & I1 & I2 & I3).
    assert (Ls : sums g (Some (mk_edge (src_of s) so false)) [(src_of s, so)]).
    { apply (sums_leaf g (mk_edge (src_of s) so false)). cbn [e_src]. intros b Hb. destruct s as [| s]; [discriminate |]. injection Hb as <-.
      apply (N ((NNode s, so), (NNode k, si))); [left; reflexivity | left; reflexivity]. }
    split; [lia |]. split; [| split].
    + intros k' c l0 Hk' Hl0. cbn [accepted]. unfold new_leaves. cbn [filter fst snd].
      destruct ((id_key k =? k') && (si =? c)) eqn:Em.
      * apply andb_true_iff in Em as [Ek Ec]. apply Nat.eqb_eq in Ek, Ec. subst k' c. cbn [map fst snd]. unfold merge. cbn [fold_left].
        apply I1; [lia |]. specialize (X _ Ls). destruct a; [apply X; exact Hl0 | exact X].
      * apply I1; [lia |]. rewrite B; [apply D; [exact Hl0 | apply older_in; exact (proj1 (proj1 W))] | exact Hk' |].
        intros Ep. injection Ep as -> ->. rewrite !Nat.eqb_refl in Em. discriminate.
    + intros c l0 Hl0. apply I2. replace (out_edge g1 c) with (out_edge g c) by (unfold out_edge; rewrite O; reflexivity).
      apply D; [exact Hl0 | apply older_out; exact (proj1 (proj1 W))].
    + congruence.
Qed.

(** ** everything is accepted *)
Record same (g g' : graph) : Prop := {
  sa_id : g_id g' = g_id g;
  sa_inputs : g_inputs g' = g_inputs g;
  sa_node : forall k n, lookup g k = Some n -> exists n', lookup g' k = Some n' /\ n_inputs n' = n_inputs n /\ n_outputs n' = n_outputs n /\ (n_edges n <> None -> n_edges n' <> None) }.
Lemma same_trans a b c : same a b -> same b c -> same a c.
Proof.
  intros [A1 A2 A3] [B1 B2 B3]. constructor; try congruence. intros k n H. destruct (A3 k n H) as (n1 & H1 & I1 & O1 & E1).
  destruct (B3 k n1 H1) as (n2 & H2 & I2 & O2 & E2). exists n2. repeat split; [exact H2 | congruence | congruence | auto].
Qed.
Lemma same_set_edge g k ch e g' : set_edge g k ch e = Some g' -> same g g'.
Proof.
  intros H. apply set_edge_some in H as (es & es' & _ & _ & ->). constructor; try reflexivity. intros k' n H. rewrite lookup_update, H.
  destruct (k =? k'); cbn [option_map]; eexists; repeat split; try reflexivity; auto. intros _. discriminate.
Qed.
Lemma same_additive g : inv g -> same g (fst (new_additive_node g)).
Proof.
  intros Hi. destruct (new_additive_spec g Hi) as (_ & _ & _ & _ & _ & _ & L). constructor.
  - unfold new_additive_node, push_node. destruct (g_slots g); reflexivity.
  - unfold new_additive_node, push_node. destruct (g_slots g); reflexivity.
  - intros k n H. rewrite L. destruct (Nat.eqb_spec (g_next g) k) as [<- | _]; [rewrite (lookup_fresh g (proj1 Hi)) in H by lia; discriminate |].
    exists n. auto.
Qed.
Lemma same_source g g' c : same g g' -> source_ok g c -> source_ok g' c.
Proof.
  intros [A1 A2 A3]. unfold source_ok. destruct (fst c) as [| id]; [rewrite A2; auto |]. intros (Hg & n & Hn & Hc). split; [congruence |].
  destruct (A3 _ _ Hn) as (n' & H1 & _ & O & _). exists n'. rewrite O. auto.
Qed.
Lemma same_sink g g' c : same g g' -> sink_ok g c -> sink_ok g' c.
Proof.
  intros [A1 A2 A3]. unfold sink_ok. destruct (fst c) as [| id]; [auto |]. intros (Hg & n & Hn & He & Hc). split; [congruence |].
  destruct (A3 _ _ Hn) as (n' & H1 & I & _ & E). exists n'. rewrite I. auto.
Qed.
(** Where a connection of the new graph comes from *)
Definition from_old (g : graph) (src : option key) (sink : key) (g' : graph) : Prop := forall y x, feeds g' y x ->
  feeds g y x \/ (src = Some y /\ (x = sink \/ x = g_next g)) \/ (y = g_next g /\ x = sink) \/ (x = g_next g /\ feeds g y sink).
Lemma from_old_set g k si src so fb g' : set_edge g k si (Some (mk_edge src so fb)) = Some g' -> from_old g src k g'.
Proof.
  intros H y x (c & e & He & Hs). rewrite (set_edge_in_edge _ _ _ _ _ H) in He. destruct (Nat.eqb_spec x k) as [-> | Hx]; cbn [andb] in He.
  - destruct (c =? si); [injection He as <-; right; left; auto | left; exists c, e; auto].
  - left. exists c, e. auto.
Qed.
Lemma connect_to_node_old g src sink so si a g' : inv g -> (forall s, src = Some s -> s < g_next g) ->
  connect_to_node g src sink so si a false = Some g' -> same g g' /\ from_old g src sink g'.
Proof.
  intros Hi Hs H. unfold connect_to_node in H. cbn [bind] in H. apply (inv_recalc g true) in Hi.
  assert (S0 : same g (set_recalc g true)) by (constructor; try reflexivity; intros k n Hk; exists n; auto).
  change (same g g' /\ from_old (set_recalc g true) src sink g'). change (g_next g) with (g_next (set_recalc g true)) in Hs.
  set (g0 := set_recalc g true) in *. destruct a; cbn [negb] in H.
  2: { split; [eapply same_trans; [exact S0 | eapply same_set_edge; exact H] | eapply from_old_set; exact H]. }
  destruct (get_edge g0 sink si) as [ex |] eqn:Eg; cbn [bind] in H; [| discriminate]. destruct ex as [e |].
  2: { split; [eapply same_trans; [exact S0 | eapply same_set_edge; exact H] | eapply from_old_set; exact H]. }
  assert (Hex : in_edge g0 sink si = Some e).
  { unfold get_edge in Eg. unfold in_edge. destruct (edges_of g0 sink); cbn [bind] in Eg; [| discriminate]. rewrite Eg. reflexivity. }
  pose proof (new_additive_spec g0 Hi) as (Hw & _). pose proof (same_additive g0 Hi) as S4.
  destruct (new_additive_node g0) as [g4 add] eqn:Ea. cbn [fst snd] in Hw, S4. subst add.
  destruct (set_edge g4 (g_next g0) 0 (Some e)) as [g5 |] eqn:E5; cbn [bind] in H; [| discriminate].
  destruct (set_edge g5 (g_next g0) 1 _) as [g6 |] eqn:E6; cbn [bind] in H; [| discriminate].
  split.
  - eapply same_trans; [exact S0 |]. eapply same_trans; [exact S4 |]. eapply same_trans; [eapply same_set_edge; exact E5 |].
    eapply same_trans; [eapply same_set_edge; exact E6 | eapply same_set_edge; exact H].
  - assert (Hg4 : g4 = fst (new_additive_node g0)) by (rewrite Ea; reflexivity). rewrite Hg4 in E5.
    destruct (add_node_inv g0 e (mk_edge src so false) g5 g6 Hi) as (_ & _ & _ & _ & Hin6 & _).
    { intros s He. eapply (bi_in g0 (proj1 Hi)); eauto. }
    { intros s He. apply Hs. exact He. }
    { exact E5. } { exact E6. }
    intros y x (c & e' & He & Hy). rewrite (set_edge_in_edge _ _ _ _ _ H) in He. destruct ((x =? sink) && (c =? si)) eqn:Ex.
    + apply andb_true_iff in Ex as [Ex _]. apply Nat.eqb_eq in Ex. injection He as <-. cbn [e_src] in Hy. injection Hy as <-. right. right. left. auto.
    + rewrite Hin6 in He. destruct (Nat.eqb_spec x (g_next g0)) as [-> | Hx].
      * destruct (c =? 0); [injection He as <-; right; right; right; split; [reflexivity | exists si, e; auto] |].
        destruct (c =? 1); [| discriminate]. injection He as <-. right. left. auto.
      * left. exists c, e'. auto.
Qed.
Lemma feeds_old g a b : base_inv g -> feeds g a b -> a < g_next g /\ b < g_next g.
Proof. intros B (c & e & He & Hs). split; [eapply (bi_in g B); eauto | apply (bi_lt g B); eapply in_edge_key; eauto]. Qed.
Lemma reaches_old g src sink g' : base_inv g -> (forall s, src = Some s -> s < g_next g) -> sink < g_next g -> from_old g src sink g' -> forall a b, a < g_next g -> b < g_next g -> reaches g' a b ->
  reaches g a b \/ (exists s, src = Some s /\ reaches g a s /\ reaches g sink b).
Proof.
  intros B Hsrc Hsk F. set (w := g_next g). pose (phi := fun k => if k =? w then sink else k).
  assert (P : forall a b, reaches g' a b -> reaches g (phi a) (phi b) \/ (exists s, src = Some s /\ reaches g (phi a) s /\ reaches g sink (phi b))).
  { intros a b H. apply clos_rt_rt1n in H. induction H as [a | a m b Hf _ IH]; [left; apply rt_refl |].
    assert (O : forall k, k < w -> phi k = k) by (intros k Hk; unfold phi; destruct (Nat.eqb_spec k w); [lia | reflexivity]).
    assert (Pw : phi w = sink) by (unfold phi; rewrite Nat.eqb_refl; reflexivity).
    destruct (F a m Hf) as [Ho | [(Es & Hm) | [(-> & ->) | (-> & Ho)]]].
    - destruct (feeds_old g _ _ B Ho) as [La Lm]. rewrite (O a La). rewrite (O m Lm) in IH.
      destruct IH as [IH | (s & E & R1 & R2)]; [left; eapply rt_trans; [apply rt_step; exact Ho | exact IH] |].
      right. exists s. split; [exact E |]. split; [eapply rt_trans; [apply rt_step; exact Ho | exact R1] | exact R2].
    - assert (Em : phi m = sink) by (destruct Hm as [-> | ->]; [apply O; exact Hsk | exact Pw]). rewrite Em in IH. rewrite (O a (Hsrc a Es)).
      right. exists a. split; [exact Es |]. split; [apply rt_refl |]. destruct IH as [IH | (s & _ & _ & R2)]; [exact IH | exact R2].
    - fold w. rewrite Pw. rewrite (O sink Hsk) in IH. exact IH.
    - destruct (feeds_old g _ _ B Ho) as [La _]. rewrite (O a La). fold w in IH. rewrite Pw in IH.
      destruct IH as [IH | (s & E & R1 & R2)]; [left; eapply rt_trans; [apply rt_step; exact Ho | exact IH] |].
      right. exists s. split; [exact E |]. split; [eapply rt_trans; [apply rt_step; exact Ho | exact R1] | exact R2]. }
  intros a b Ha Hb H. apply P in H. unfold phi in H. destruct (Nat.eqb_spec a w); [unfold w in *; lia |]. destruct (Nat.eqb_spec b w); [unfold w in *; lia |]. exact H.
Qed.
Lemma chan_old g c b : base_inv g -> source_ok g c \/ sink_ok g c -> src_of (fst c) = Some b -> b < g_next g.
Proof.
  intros B H E. destruct c as [[| id] ch]; cbn [fst src_of] in E; [discriminate |]. injection E as <-. apply (bi_lt g B). unfold source_ok, sink_ok in H. cbn [fst snd] in H.
  destruct H as [(_ & n & H & _) | (_ & n & H & _)]; eapply lookup_key; eauto.
Qed.
Lemma connect_accepted g s so k si a : wf g -> source_ok g (s, so) -> sink_ok g (k, si) -> (forall x y, src_of s = Some x -> src_of k = Some y -> ~ reaches g y x) ->
  exists g' id, k = NNode id /\ connect2 g s so si k a false = Some (g', Ok) /\ connect_to_node g (src_of s) (id_key id) so si a false = Some g'.
Proof.
  intros W Hs Hk Hr. destruct k as [| id]; [contradiction |]. destruct Hk as (Gk & nk & Lk & Ek & Ik). cbn [fst snd] in *.
  assert (R : exists g', connect2 g s so si (NNode id) a false = Some (g', Ok)).
  { destruct s as [| s].
    - cbn [source_ok fst snd] in Hs. unfold connect2, connect_input_to_node. rewrite (right_graph g id Gk). apply Nat.leb_gt in Hs. rewrite Hs, Lk. apply Nat.leb_gt in Ik as Ik'. rewrite Ik'.
      destruct (n_edges nk) as [es |] eqn:Ee; [| congruence].
      destruct (connect_to_node_total g None (id_key id) (n_inputs nk) so si a (proj1 W)) as [g' Eg]; [| exact Ik |].
      { exists es. split; [unfold edges_of; rewrite Lk; exact Ee |]. apply (sh_node g (proj2 W) _ _ Lk). exact Ee. }
      rewrite Eg. exists g'. reflexivity.
    - destruct Hs as (Gs & ns & Ls & Os). cbn [fst snd] in *.
      destruct (connect_circular g s id so si a ns nk W (right_graph g s Gs) (right_graph g id Gk) Ls Os Lk Ek Ik) as (g' & r & E & [(-> & X) | (-> & _)]).
      + exfalso. exact (Hr _ _ eq_refl eq_refl X).
      + exists g'. exact E. }
  destruct R as [g' E]. exists g', id. split; [reflexivity |]. split; [exact E |]. exact (proj1 (step_connect_node g s id so si a g' W E)).
Qed.
Lemma wire_accepted a : forall l g, wf g -> (forall p, In p l -> source_ok g (fst p) /\ sink_ok g (snd p)) -> no_way_back g l ->
  exists g' rs, wire a false g l = Some (g', rs) /\ rs = map (fun _ => Ok) l.
Proof.
  induction l as [| [[s so] [k si]] l IH]; intros g W H R; cbn [wire map].
  - exists g, []. auto.
  - destruct (H _ (or_introl eq_refl)) as [Hs Hk]. cbn [fst snd] in Hs, Hk.
    destruct (connect_accepted g s so k si a W Hs Hk) as (g1 & id & Ek & E1 & C).
    { intros x y Ex Ey. exact (R ((s, so), (k, si)) ((s, so), (k, si)) x y (or_introl eq_refl) (or_introl eq_refl) Ex Ey). }
    rewrite E1. cbn [bind fst snd]. pose proof (connect2_wf _ _ _ _ _ _ _ _ W E1) as W1. pose proof (proj1 (proj1 W)) as B.
    assert (Lsrc : forall x, src_of s = Some x -> x < g_next g) by (intros x; apply (chan_old g (s, so) x B); left; exact Hs).
    assert (Lsk : id_key id < g_next g) by (apply (chan_old g (k, si) _ B); [right; exact Hk | rewrite Ek; reflexivity]).
    destruct (connect_to_node_old _ _ _ _ _ _ _ (proj1 W) Lsrc C) as [S F].
    destruct (IH g1 W1) as (g2 & rs & E2 & Ers).
    + intros p Hp. destruct (H p (or_intror Hp)) as [A1 A2]. split; [eapply same_source; eauto | eapply same_sink; eauto].
    + intros p q x y Hp Hq Ex Ey Hr. destruct (H p (or_intror Hp)) as [A1 _]. destruct (H q (or_intror Hq)) as [_ A2].
      destruct (reaches_old g _ _ g1 B Lsrc Lsk F y x) as [X | (z & Ez & X & _)]; [apply (chan_old g (snd q) y B); auto | apply (chan_old g (fst p) x B); auto | exact Hr | |].
      * exact (R p q x y (or_intror Hp) (or_intror Hq) Ex Ey X).
      * exact (R ((s, so), (k, si)) q z y (or_introl eq_refl) (or_intror Hq) Ez Ey X).
    + rewrite E2. cbn [bind fst snd]. exists g2, (Ok :: rs). split; [reflexivity | rewrite Ers; reflexivity].
Qed.
