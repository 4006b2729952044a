(** Facts about single edits used by the property theorems: which connects succeed, immortal nodes,
    what is left after a free. *)
From Verif Require Import Base GraphModel GraphSpec GraphBase GraphPath GraphInv GraphShape GraphSums GraphRefs GraphClean.
Local Open Scope nat_scope.

(** ** connecting to a live node never panics *)
Definition has_ins (g : graph) (k m : nat) : Prop := exists es, edges_of g k = Some es /\ List.length es = m.
Lemma edges_of_update g k f k' : edges_of (update g k f) k' =
  (n <- lookup g k' ;; n_edges (if k =? k' then f n else n)).
Proof. unfold edges_of. rewrite lookup_update. destruct (k =? k'), (lookup g k'); reflexivity. Qed.
Lemma set_edge_total g k m ch e : has_ins g k m -> ch < m -> exists g', set_edge g k ch e = Some g'.
Proof.
  intros (es & E & Hl) Hc. unfold set_edge. rewrite E. cbn [bind].
  destruct (set_nth_some es ch e) as [es' ->]; [lia|]. cbn [bind]. eauto.
Qed.
Lemma has_ins_set_edge g k ch e g' k' m : set_edge g k ch e = Some g' -> has_ins g k' m -> has_ins g' k' m.
Proof.
  intros H (es & E & Hl). apply set_edge_some in H as (es1 & es2 & E1 & E2 & ->).
  unfold has_ins. rewrite edges_of_update. unfold edges_of in *. destruct (lookup g k') as [n|] eqn:El; [|discriminate].
  cbn [bind] in *. destruct (Nat.eqb_spec k k') as [->|]; [|eauto].
  rewrite El in E1. cbn [bind] in E1. exists es2. split; [reflexivity|].
  assert (es1 = es) by congruence. subst es1. apply set_nth_length in E2. congruence.
Qed.
Lemma has_ins_additive g k m : inv g -> has_ins g k m -> has_ins (fst (new_additive_node g)) k m.
Proof.
  intros Hi (es & E & Hl). destruct (new_additive_spec g Hi) as (_ & _ & _ & _ & _ & _ & L).
  unfold has_ins, edges_of in *. rewrite L. destruct (Nat.eqb_spec (g_next g) k) as [<-|]; [|eauto].
  rewrite (lookup_fresh g (proj1 Hi)) in E by lia. discriminate.
Qed.
Lemma has_ins_new_additive g : inv g -> has_ins (fst (new_additive_node g)) (g_next g) 2.
Proof.
  intros Hi. destruct (new_additive_spec g Hi) as (_ & _ & _ & _ & _ & _ & L).
  unfold has_ins, edges_of. rewrite L, Nat.eqb_refl. cbn. eauto.
Qed.
Lemma connect_core_total g src sink m so si fb additive : inv g -> has_ins g sink m -> si < m ->
  exists g', (if negb additive then set_edge g sink si (Some (mk_edge src so false))
   else existing <- get_edge g sink si ;;
     match existing with
     | Some e =>
         let '(g4, add) := new_additive_node g in
         g5 <- set_edge g4 add 0 (Some e) ;;
         g6 <- set_edge g5 add 1 (Some (mk_edge src so false)) ;;
         set_edge g6 sink si (Some (mk_edge (Some add) 0 false))
     | None => set_edge g sink si (Some (mk_edge src so fb))
     end) = Some g'.
Proof.
  intros Hi Hm Hsi. destruct additive; cbn [negb]; [|eapply set_edge_total; eauto].
  pose proof Hm as (es & E & Hl).
  unfold get_edge. rewrite E. cbn [bind].
  destruct (nth_error es si) as [o|] eqn:Eo; [|apply nth_error_None in Eo; lia]. cbn [bind].
  destruct o as [e|]; [|eapply set_edge_total; eauto].
  pose proof (has_ins_additive g sink m Hi Hm) as H4. pose proof (has_ins_new_additive g Hi) as H4'.
  destruct (new_additive_spec g Hi) as (Hk & _).
  destruct (new_additive_node g) as [g4 add]. cbn [fst snd] in *. subst add.
  destruct (set_edge_total g4 (g_next g) 2 0 (Some e) H4') as [g5 E5]; [lia|]. rewrite E5. cbn [bind].
  destruct (set_edge_total g5 (g_next g) 2 1 (Some (mk_edge src so false))) as [g6 E6];
    [eapply has_ins_set_edge; eauto|lia|]. rewrite E6. cbn [bind].
  eapply set_edge_total with (m := m); [|exact Hsi]. eapply has_ins_set_edge; [exact E6|]. eapply has_ins_set_edge; eauto.
Qed.
Lemma connect_to_node_total g src sink m so si additive : inv g -> has_ins g sink m -> si < m ->
  exists g', connect_to_node g src sink so si additive false = Some g'.
Proof.
  intros Hi Hm Hsi. unfold connect_to_node. cbn [bind].
  eapply connect_core_total; [apply inv_recalc; exact Hi| |exact Hsi]. exact Hm.
Qed.
Lemma connect_to_output_total g src so si additive : inv g -> shape g -> si < g_outputs g ->
  exists g', connect_to_output g src so si additive = Some g'.
Proof.
  intros Hi Hs Hsi. unfold connect_to_output. pose proof (inv_recalc g true Hi) as Hi0.
  rewrite <- (sh_outs g Hs) in Hsi.
  assert (Hset : forall l (o : option edge), List.length l = List.length (g_outs g) -> exists l', set_nth l si o = Some l').
  { intros l o El. apply set_nth_some. lia. }
  destruct additive; cbn [negb].
  2: { destruct (Hset (g_outs (set_recalc g true)) (Some (mk_edge src so false)) eq_refl) as [l' ->]. cbn. eauto. }
  destruct (nth_error (g_outs (set_recalc g true)) si) as [o|] eqn:Eo;
    [|apply nth_error_None in Eo; cbn in Eo; lia]. cbn [bind].
  destruct o as [e|].
  2: { destruct (Hset (g_outs (set_recalc g true)) (Some (mk_edge src so false)) eq_refl) as [l' ->]. cbn. eauto. }
  set (g0 := set_recalc g true) in *.
  pose proof (has_ins_new_additive g0 Hi0) as H4.
  destruct (new_additive_spec g0 Hi0) as (Hk & _ & _ & Ho & _).
  destruct (new_additive_node g0) as [g4 add]. cbn [fst snd] in *. subst add.
  destruct (set_edge_total g4 (g_next g0) 2 0 (Some e) H4) as [g5 E5]; [lia|]. rewrite E5. cbn [bind].
  destruct (set_edge_total g5 (g_next g0) 2 1 (Some (mk_edge src so false))) as [g6 E6];
    [eapply has_ins_set_edge; eauto|lia|]. rewrite E6. cbn [bind].
  destruct (set_edge_frame _ _ _ _ _ E5) as (_ & _ & Ho5 & _).
  destruct (set_edge_frame _ _ _ _ _ E6) as (_ & _ & Ho6 & _).
  destruct (Hset (g_outs g6) (Some (mk_edge (Some (g_next g0)) 0 false))) as [l' ->]; [|cbn; eauto].
  rewrite Ho6, Ho5, Ho. reflexivity.
Qed.

(** ** circular connections *)
Lemma connect_circular g s k so si additive ns nk : wf g ->
  wrong_graph g s = false -> wrong_graph g k = false ->
  lookup g (id_key s) = Some ns -> so < n_outputs ns ->
  lookup g (id_key k) = Some nk -> n_edges nk <> None -> si < n_inputs nk ->
  exists g' r, step g (OpConnect (NNode s) so si (NNode k) additive false) = Some (g', r) /\
    (r = Err ECircular /\ reaches g (id_key k) (id_key s) \/ r = Ok /\ ~ reaches g (id_key k) (id_key s)).
Proof.
  intros [Hi Hs] Ws Wk Es Hso Ek Hne Hsi. cbn [step]. unfold connect2, connect_nodes.
  rewrite Ws, Wk, Es. apply Nat.leb_gt in Hso as Hso'. rewrite Hso', Ek. apply Nat.leb_gt in Hsi as Hsi'. rewrite Hsi'.
  destruct (has_path_spec g (id_key k) (id_key s) (bi_nodup g (proj1 Hi))) as (b & -> & Hb). cbn [bind].
  destruct b.
  - exists g, (Err ECircular). split; [reflexivity|]. left. split; [reflexivity|]. apply Hb. reflexivity.
  - destruct (n_edges nk) as [es|] eqn:Ee; [|congruence].
    destruct (connect_to_node_total g (Some (id_key s)) (id_key k) (n_inputs nk) so si additive Hi) as [g' Eg].
    { exists es. split; [unfold edges_of; rewrite Ek; exact Ee|]. apply (sh_node g Hs _ _ Ek). exact Ee. }
    { exact Hsi. }
    rewrite Eg. exists g', Ok. split; [reflexivity|]. right. split; [reflexivity|].
    intros Hr. apply Hb in Hr. discriminate.
Qed.
Lemma circular_sound g s k so si additive g' : wf g ->
  step g (OpConnect (NNode s) so si (NNode k) additive false) = Some (g', Err ECircular) ->
  reaches g (id_key k) (id_key s).
Proof.
  intros [Hi Hs]. cbn [step]. unfold connect2, connect_nodes.
  destruct (wrong_graph g s); [discriminate|]. destruct (wrong_graph g k); [discriminate|].
  destruct (lookup g (id_key s)); [|discriminate]. destruct (_ <=? so); [discriminate|].
  destruct (lookup g (id_key k)); [|discriminate]. destruct (_ <=? si); [discriminate|].
  destruct (has_path_spec g (id_key k) (id_key s) (bi_nodup g (proj1 Hi))) as (b & -> & Hb). cbn [bind].
  destruct b; [intros _; apply Hb; reflexivity|]. intros H. apply done_err in H. contradiction.
Qed.

(** ** connects at the level of a step *)
Lemma step_connect_node g s k so si additive g' : wf g ->
  step g (OpConnect s so si (NNode k) additive false) = Some (g', Ok) ->
  connect_to_node g (src_of s) (id_key k) so si additive false = Some g' /\
  (forall a, src_of s = Some a -> a < g_next g /\ ~ reaches g (id_key k) a) /\
  id_key k < g_next g.
Proof.
  intros [Hi Hs]. cbn [step]. unfold connect2. destruct s as [|s].
  - unfold connect_input_to_node. destruct (wrong_graph g k); [discriminate|]. destruct (_ <=? so); [discriminate|].
    destruct (lookup g (id_key k)) as [nk|] eqn:Ek; [|discriminate]. destruct (_ <=? si); [discriminate|].
    intros H. apply done_inv in H. split; [exact H|]. split; [discriminate|].
    apply (bi_lt g (proj1 Hi)). eapply lookup_key; eauto.
  - unfold connect_nodes. destruct (wrong_graph g s); [discriminate|]. destruct (wrong_graph g k); [discriminate|].
    destruct (lookup g (id_key s)) as [ns|] eqn:Es; [|discriminate]. destruct (_ <=? so); [discriminate|].
    destruct (lookup g (id_key k)) as [nk|] eqn:Ek; [|discriminate]. destruct (_ <=? si); [discriminate|].
    destruct (has_path_spec g (id_key k) (id_key s) (bi_nodup g (proj1 Hi))) as (b & -> & Hb). cbn [bind].
    destruct b; [discriminate|]. intros H. apply done_inv in H. split; [exact H|]. split.
    + intros a Ha. injection Ha as <-. split.
      * apply (bi_lt g (proj1 Hi)). eapply lookup_key; eauto.
      * intros Hr. apply Hb in Hr. discriminate.
    + apply (bi_lt g (proj1 Hi)). eapply lookup_key; eauto.
Qed.
Lemma step_connect_output g s so si additive fb g' : wf g ->
  step g (OpConnect s so si NGraph additive fb) = Some (g', Ok) ->
  connect_to_output g (src_of s) so si additive = Some g' /\
  (forall a, src_of s = Some a -> a < g_next g).
Proof.
  intros [Hi Hs]. cbn [step]. unfold connect2. destruct s as [|s].
  - unfold connect_input_to_output. destruct (_ <=? so); [discriminate|]. destruct (_ <=? si); [discriminate|].
    intros H. apply done_inv in H. split; [exact H|discriminate].
  - unfold connect_node_to_output. destruct (wrong_graph g s); [discriminate|]. destruct (_ <=? si); [discriminate|].
    destruct (lookup g (id_key s)) as [ns|] eqn:Es; [|discriminate]. destruct (_ <=? so); [discriminate|].
    intros H. apply done_inv in H. split; [exact H|].
    intros a Ha. injection Ha as <-. apply (bi_lt g (proj1 Hi)). eapply lookup_key; eauto.
Qed.

(** ** immortal nodes *)
Lemma safe_update g k0 f k : (forall n, n_mortal (f n) = n_mortal n) ->
  (forall n, n_edges n <> None -> n_edges (f n) <> None) -> safe g k -> safe (update g k0 f) k.
Proof.
  intros Hm He (n & El & Hn & Hs). unfold safe. rewrite lookup_update, El. destruct (k0 =? k); [|eauto].
  cbn. eexists. split; [reflexivity|]. rewrite Hm. auto.
Qed.
Lemma safe_set_edge g k0 ch e g' k : set_edge g k0 ch e = Some g' -> safe g k -> safe g' k.
Proof.
  intros H. apply set_edge_some in H as (es & es' & _ & _ & ->). apply safe_update; [reflexivity|discriminate].
Qed.
Lemma safe_push g i o d r k : base_inv g -> safe g k -> safe (fst (push_node g i o d r)) k.
Proof.
  intros Hb (n & El & Hn & Hs). unfold safe. rewrite push_lookup by exact Hb.
  destruct (Nat.eqb_spec (g_next g) k) as [<-|]; [|eauto].
  rewrite (lookup_fresh g Hb) in El by lia. discriminate.
Qed.
Lemma safe_additive g k : inv g -> safe g k -> safe (fst (new_additive_node g)) k.
Proof.
  intros Hi H. unfold new_additive_node. pose proof (safe_push g 2 1 [] None k (proj1 Hi) H) as H1.
  destruct (push_node g 2 1 [] None). cbn [fst] in *. apply safe_update; auto.
Qed.
Lemma safe_feedback g k : inv g -> safe g k -> safe (fst (new_feedback_nodes g)) k.
Proof.
  intros Hi H. unfold new_feedback_nodes. pose proof (safe_push g 1 0 [] None k (proj1 Hi) H) as H1.
  pose proof (inv_push g 1 0 [] None Hi) as Hi1.
  destruct (push_node g 1 0 [] None) as [g1 k1]. cbn [fst] in *.
  pose proof (safe_push g1 1 0 [] None k (proj1 Hi1) H1) as H2.
  destruct (push_node g1 1 0 [] None) as [g2 k2]. cbn [fst] in *.
  apply safe_update; auto. apply safe_update; auto.
Qed.
Lemma safe_map f g g' k : g_nodes g' = map_edges f (g_nodes g) -> safe g k -> safe g' k.
Proof.
  intros Hn (n & El & Hm & Hs). unfold safe, lookup. rewrite Hn, lookup_map_edges, El. cbn.
  eexists. split; [reflexivity|]. cbn. split; [exact Hm|]. destruct (n_edges n); cbn; congruence.
Qed.
Lemma safe_frame g g' k : g_nodes g' = g_nodes g -> safe g k -> safe g' k.
Proof. intros Hn (n & El & H). exists n. unfold lookup. rewrite Hn. auto. Qed.
Lemma safe_freed g k0 k : k <> k0 -> safe g k -> safe (freed_state g k0) k.
Proof.
  intros Hne (n & El & Hm & Hs). unfold safe. rewrite lookup_freed, El. cbn.
  destruct (Nat.eqb_spec k0 k) as [E|_]; [congruence|]. eexists. split; [reflexivity|]. cbn. split; [exact Hm|].
  destruct (n_edges n); cbn; congruence.
Qed.
Lemma safe_frees g g' k : frees g g' -> safe g k -> safe g' k.
Proof.
  induction 1 as [|g k0 n g' El Hm _ _ IH]; intros H; [exact H|]. apply IH. apply safe_freed; [|exact H].
  intros ->. destruct H as (n' & El' & Hm' & _). congruence.
Qed.
Lemma safe_evaluate g k0 g' k : evaluate g k0 = Some g' -> safe g k -> safe g' k.
Proof.
  intros H Hs. apply evaluate_spec in H. destruct H as [H|n c e _ _ _ _ _ H].
  - eapply safe_frees; eauto.
  - eapply safe_frees; [exact H|]. eapply safe_map; [reflexivity|exact Hs].
Qed.
Lemma safe_evaluate_src g o g' k : safe g k ->
  match o with
  | Some e => match e_src e with Some s => evaluate g s | None => Some g end
  | None => Some g
  end = Some g' -> safe g' k.
Proof.
  intros Hi H. destruct o as [e|]; [|injection H as <-; exact Hi].
  destruct (e_src e); [eapply safe_evaluate; eauto|injection H as <-; exact Hi].
Qed.
Lemma safe_swept applied g k : shape g -> safe g k -> safe (swept applied g) k.
Proof.
  intros Hs (n & El & Hm & Hn). exists n. rewrite lookup_swept, (gone_dead applied g k n Hs El Hn). auto.
Qed.
Lemma safe_core g src sink so si fb additive g' k : inv g -> safe g k ->
  (if negb additive then set_edge g sink si (Some (mk_edge src so false))
   else existing <- get_edge g sink si ;;
     match existing with
     | Some e =>
         let '(g4, add) := new_additive_node g in
         g5 <- set_edge g4 add 0 (Some e) ;;
         g6 <- set_edge g5 add 1 (Some (mk_edge src so false)) ;;
         set_edge g6 sink si (Some (mk_edge (Some add) 0 false))
     | None => set_edge g sink si (Some (mk_edge src so fb))
     end) = Some g' -> safe g' k.
Proof.
  intros Hi Hs H. destruct additive; cbn [negb] in H; [|eapply safe_set_edge; eauto].
  destruct (get_edge g sink si) as [ex|] eqn:Eg; cbn [bind] in H; [|discriminate].
  destruct ex as [e|]; [|eapply safe_set_edge; eauto].
  pose proof (safe_additive g k Hi Hs) as Ha. destruct (new_additive_node g) as [g4 add]. cbn [fst] in Ha.
  destruct (set_edge g4 add 0 _) as [g5|] eqn:E5; cbn [bind] in H; [|discriminate].
  destruct (set_edge g5 add 1 _) as [g6|] eqn:E6; cbn [bind] in H; [|discriminate].
  eapply safe_set_edge; [exact H|]. eapply safe_set_edge; [exact E6|]. eapply safe_set_edge; eauto.
Qed.
Lemma safe_connect_to_node g src sink so si additive fb g' k : inv g -> safe g k ->
  connect_to_node g src sink so si additive fb = Some g' -> safe g' k.
Proof.
  intros Hi Hs H. unfold connect_to_node in H. pose proof (inv_recalc g true Hi) as Hi0.
  assert (Hs0 : safe (set_recalc g true) k) by exact Hs. set (g0 := set_recalc g true) in *.
  destruct fb.
  - pose proof (safe_feedback g0 k Hi0 Hs0) as Hf. destruct (new_feedback_spec g0 Hi0) as (Hp & Hif & Hnx & _ & _).
    destruct (new_feedback_nodes g0) as [g1 [fs fk]]. cbn [fst snd] in *. injection Hp as -> ->.
    match type of H with context [set_edge g1 ?a 0 ?b] => destruct (set_edge g1 a 0 b) as [g2|] eqn:E2; cbn [bind] in H; [|discriminate] end.
    destruct additive; cbn [negb] in H; [|eapply safe_set_edge; [exact H|]; eapply safe_set_edge; eauto].
    destruct (get_edge g2 sink si) as [ex|]; cbn [bind] in H; [|discriminate].
    assert (Hs2 : safe g2 k) by (eapply safe_set_edge; eauto).
    destruct ex as [e|]; [|eapply safe_set_edge; eauto].
    assert (Hlt : k < g_next g2).
    { destruct (set_edge_frame _ _ _ _ _ E2) as (Hk2 & Hn2 & _). rewrite Hn2.
      destruct Hs2 as (n & El & _). apply (bi_lt g1 (proj1 Hif)). rewrite <- Hk2. eapply lookup_key; eauto. }
    assert (Ha : safe (fst (new_additive_node g2)) k).
    { unfold new_additive_node, push_node. destruct Hs2 as (n & El & Hm & Hn).
      assert (Hins : forall pos (x : node), nlookup (insert_at pos (g_next g2, x) (g_nodes g2)) k = Some n).
      { intros pos x. unfold insert_at. clear - El Hlt. unfold lookup in El.
        revert pos. induction (g_nodes g2) as [|[k1 n1] l IH]; intros pos; [discriminate|].
        cbn [nlookup] in El. destruct pos; cbn [firstn skipn app nlookup].
        - destruct (Nat.eqb_spec (g_next g2) k); [lia|]. exact El.
        - destruct (k1 =? k); [exact El|]. apply IH. exact El. }
      unfold safe.
      destruct (g_slots g2); cbn [fst]; rewrite lookup_update; unfold lookup; cbn [g_nodes]; rewrite Hins;
        (destruct (Nat.eqb_spec (g_next g2) k); [lia|]); eauto. }
    destruct (new_additive_node g2) as [g4 add]. cbn [fst] in Ha.
    destruct (set_edge g4 add 0 _) as [g5|] eqn:E5; cbn [bind] in H; [|discriminate].
    destruct (set_edge g5 add 1 _) as [g6|] eqn:E6; cbn [bind] in H; [|discriminate].
    eapply safe_set_edge; [exact H|]. eapply safe_set_edge; [exact E6|]. eapply safe_set_edge; eauto.
  - cbn [bind] in H. eapply safe_core; eauto.
Qed.
Lemma safe_connect_to_output g src so si additive g' k : inv g -> safe g k ->
  connect_to_output g src so si additive = Some g' -> safe g' k.
Proof.
  intros Hi Hs H. unfold connect_to_output in H. pose proof (inv_recalc g true Hi) as Hi0.
  assert (Hs0 : safe (set_recalc g true) k) by exact Hs. set (g0 := set_recalc g true) in *.
  destruct additive; cbn [negb] in H.
  2: { destruct (set_nth _ _ _); cbn [bind] in H; [|discriminate]. injection H as <-. exact Hs0. }
  destruct (nth_error _ _) as [ex|]; cbn [bind] in H; [|discriminate]. destruct ex as [e|].
  2: { destruct (set_nth _ _ _); cbn [bind] in H; [|discriminate]. injection H as <-. exact Hs0. }
  pose proof (safe_additive g0 k Hi0 Hs0) as Ha. destruct (new_additive_node g0) as [g4 add]. cbn [fst] in Ha.
  destruct (set_edge g4 add 0 _) as [g5|] eqn:E5; cbn [bind] in H; [|discriminate].
  destruct (set_edge g5 add 1 _) as [g6|] eqn:E6; cbn [bind] in H; [|discriminate].
  destruct (set_nth _ _ _); cbn [bind] in H; [|discriminate]. injection H as <-.
  apply (safe_frame g6); [reflexivity|]. eapply safe_set_edge; [exact E6|]. eapply safe_set_edge; eauto.
Qed.
Lemma step_safe g o g' r k : wf g -> safe g k ->
  (forall id m, o = OpMortality id m -> id_key id <> k) ->
  step g o = Some (g', r) -> safe g' k.
Proof.
  intros [Hi Hsh] Hs Hmo H. destruct o; cbn [step] in H.
  - injection H as <- _. apply safe_push; [exact (proj1 Hi)|exact Hs].
  - destruct r; [|apply step_err with (o := OpConnect source so si sink additive feedback) in H; congruence].
    unfold connect2 in H. destruct source, sink.
    + unfold connect_input_to_output in H. destruct (_ <=? so); [discriminate|]. destruct (_ <=? si); [discriminate|].
      apply done_inv in H. eapply safe_connect_to_output; eauto.
    + unfold connect_input_to_node in H. destruct (wrong_graph _ _); [discriminate|]. destruct (_ <=? so); [discriminate|].
      destruct (lookup _ _); [|discriminate]. destruct (_ <=? si); [discriminate|].
      apply done_inv in H. eapply safe_connect_to_node; eauto.
    + unfold connect_node_to_output in H. destruct (wrong_graph _ _); [discriminate|]. destruct (_ <=? si); [discriminate|].
      destruct (lookup _ _); [|discriminate]. destruct (_ <=? so); [discriminate|].
      apply done_inv in H. eapply safe_connect_to_output; eauto.
    + unfold connect_nodes in H. destruct (wrong_graph _ _); [discriminate|]. destruct (wrong_graph _ _); [discriminate|].
      destruct (lookup _ _); [|discriminate]. destruct (_ <=? so); [discriminate|].
      destruct (lookup _ _); [|discriminate]. destruct (_ <=? si); [discriminate|].
      match type of H with (circular <- ?X ;; _) = _ => destruct X as [b|] eqn:Ec; cbn [bind] in H; [|discriminate] end.
      destruct b; [discriminate|]. apply done_inv in H. eapply safe_connect_to_node; eauto.
  - destruct r; [|apply step_err with (o := OpConnectParam source so p sink additive) in H; congruence].
    unfold connect_to_parameter in H. destruct (wrong_graph _ _); [discriminate|]. destruct (wrong_graph _ _); [discriminate|].
    destruct (lookup g (id_key sink)) as [nk|] eqn:Ek; cbn [bind] in H; [|discriminate].
    destruct (match p with PIndex i => _ | PDesc d => _ end) as [idx|]; [|discriminate].
    destruct (lookup g (id_key source)) as [ns|]; [|discriminate]. destruct (_ <=? so); [discriminate|].
    destruct (pedges_of g (id_key sink)) as [edges|] eqn:Ep; cbn [bind] in H; [|discriminate].
    destruct additive; [|injection H as <-; apply safe_update; auto].
    destruct (find_param _ _) as [pos|]; [|injection H as <-; apply safe_update; auto].
    destruct (nth_error _ _); cbn [bind] in H; [|discriminate].
    destruct (swap_remove _ _) as [edges'|] eqn:Esw; cbn [bind] in H; [|discriminate].
    set (g1 := update g (id_key sink) (fun n => n_set_pedges n (Some edges'))) in *.
    assert (Hi1 : inv g1).
    { apply inv_set_pedges; [exact Hi|]. intros q Hq.
      apply (bi_par g (proj1 Hi) (id_key sink)). exists edges. split; [exact Ep|]. eapply swap_remove_incl; eauto. }
    assert (Hs1 : safe g1 k) by (apply safe_update; auto).
    pose proof (safe_additive g1 k Hi1 Hs1) as Ha. destruct (new_additive_node g1) as [g4 add]. cbn [fst] in Ha.
    destruct (set_edge g4 add 0 _) as [g5|] eqn:E5; cbn [bind] in H; [|discriminate].
    destruct (set_edge g5 add 1 _) as [g6|] eqn:E6; cbn [bind] in H; [|discriminate].
    injection H as <-. apply safe_update; auto. eapply safe_set_edge; [exact E6|]. eapply safe_set_edge; eauto.
  - destruct r; [|apply step_err with (o := OpDisconnectOut source ch) in H; congruence].
    unfold disconnect_output in H. destruct source.
    + destruct (_ <=? ch); [discriminate|]. destruct (nth_error _ _); cbn [bind] in H; [|discriminate].
      destruct (set_nth _ _ _); cbn [bind] in H; [|discriminate].
      match type of H with (g2 <- ?X ;; _) = _ => destruct X as [g2|] eqn:E2; cbn [bind] in H; [|discriminate] end.
      injection H as <-. eapply (safe_map _ g2); [reflexivity|]. eapply safe_evaluate_src; [|exact E2]. exact Hs.
    + destruct (negb _); [discriminate|]. destruct (lookup _ _); [|discriminate]. destruct (_ <=? ch); [discriminate|].
      injection H as <-. eapply (safe_map _ g); [reflexivity|exact Hs].
  - destruct r; [|apply step_err with (o := OpDisconnectIn ch sink) in H; congruence].
    unfold disconnect_input in H. destruct sink.
    + destruct (_ <=? ch); [discriminate|]. destruct (nth_error _ _); cbn [bind] in H; [|discriminate].
      destruct (set_nth _ _ _); cbn [bind] in H; [|discriminate].
      match type of H with (g2 <- ?X ;; _) = _ => destruct X as [g2|] eqn:E2; cbn [bind] in H; [|discriminate] end.
      injection H as <-. eapply safe_evaluate_src; [|exact E2]. exact Hs.
    + destruct (negb _); [discriminate|]. destruct (lookup _ _) as [n|]; [|discriminate].
      destruct (n_edges n); cbn [bind] in H; [|discriminate]. destruct (_ <=? ch); [discriminate|].
      destruct (nth_error _ _) as [o|]; cbn [bind] in H; [|discriminate].
      destruct (set_edge _ _ _ _) as [g1|] eqn:E1; cbn [bind] in H; [|discriminate].
      match type of H with (g2 <- ?X ;; _) = _ => destruct X as [g2|] eqn:E2; cbn [bind] in H; [|discriminate] end.
      injection H as <-. apply (safe_frame g2); [reflexivity|].
      assert (H1 : safe g1 k) by (eapply safe_set_edge; eauto).
      destruct o as [e|]; [|injection E2 as <-; exact H1].
      destruct (evaluate g1 (id_key id)) as [g3|] eqn:E3; cbn [bind] in E2; [|discriminate].
      pose proof (safe_evaluate _ _ _ _ E3 H1) as H3.
      destruct (e_src e); [eapply safe_evaluate; eauto|injection E2 as <-; exact H3].
  - unfold edit_free in H. destruct (wrong_graph _ _); [injection H as <- _; exact Hs|].
    eapply safe_frees; [|exact Hs]. eapply free_fuel_frees; eauto.
  - unfold set_mortality in H. specialize (Hmo id m eq_refl).
    destruct (lookup g (id_key id)); injection H as <- _; [|exact Hs].
    destruct Hs as (n1 & El & Hm & Hn). unfold safe. rewrite lookup_update.
    destruct (Nat.eqb_spec (id_key id) k); [congruence|]. eauto.
  - injection H as <- _. apply safe_update; auto.
  - apply done_inv in H. unfold commit_edit in H.
    destruct (free_old _ g) as [g1|] eqn:E; cbn [bind] in H; [|discriminate].
    assert (Hs1 : safe g1 k).
    { apply free_old_unfold in E as (ga & gb & E1 & E2 & ->).
      assert (Ha : safe ga k /\ shape ga).
      { split.
        - eapply (fold_opt_P (fun g => safe g k) free_ok); [|exact Hs|exact E1].
          intros. eapply safe_frees; [|eassumption]. eapply free_ok_frees; eauto.
        - eapply (fold_opt_shape free_ok); [|exact Hsh|exact E1].
          intros. eapply frees_shape; [|eassumption]. eapply free_ok_frees; eauto. }
      apply safe_swept.
      - eapply (fold_opt_shape evaluate); [|exact (proj2 Ha)|exact E2]. intros. eapply eval_shape'; eauto.
      - eapply (fold_opt_P (fun g => safe g k) evaluate); [|exact (proj1 Ha)|exact E2].
        intros. eapply safe_evaluate; eauto. }
    destruct (g_recalc g1); injection H as <-; exact Hs1.
Qed.

(** ** after a free *)
Lemma frees_unref g g' k : frees g g' -> (forall k' c e, in_edge g k' c = Some e -> e_src e <> Some k) ->
  (forall c e, out_edge g c = Some e -> e_src e <> Some k) -> ~ live g k ->
  (forall k' c e, in_edge g' k' c = Some e -> e_src e <> Some k) /\
  (forall c e, out_edge g' c = Some e -> e_src e <> Some k) /\ ~ live g' k.
Proof.
  induction 1 as [|g k0 n g' El Hm _ _ IH]; intros A B C; [auto|]. apply IH.
  - intros k' c e He. rewrite in_edge_freed in He. destruct (k' =? k0); [discriminate|].
    apply clear_if_some in He. eauto.
  - intros c e He. rewrite out_edge_freed in He. apply clear_if_some in He. eauto.
  - intros H. apply live_freed in H. tauto.
Qed.
Lemma freed_unref g k : (forall k' c e, in_edge (freed_state g k) k' c = Some e -> e_src e <> Some k) /\
  (forall c e, out_edge (freed_state g k) c = Some e -> e_src e <> Some k) /\ ~ live (freed_state g k) k.
Proof.
  assert (H : forall o e, clear_if (from_key k) o = Some e -> e_src e <> Some k).
  { intros [x|] e; cbn; [|discriminate]. destruct (from_key k x) eqn:E; [discriminate|].
    intros X; injection X as <-. intros Hk. apply from_key_spec in Hk. congruence. }
  split; [|split].
  - intros k' c e. rewrite in_edge_freed. destruct (k' =? k); [discriminate|]. apply H.
  - intros c e. rewrite out_edge_freed. apply H.
  - intros Hl. apply live_freed in Hl. tauto.
Qed.
Lemma edit_free_unref g id g' : live g (id_key id) -> wf g -> edit_free g id = Some (g', Ok) ->
  (forall k' c e, in_edge g' k' c = Some e -> e_src e <> Some (id_key id)) /\
  (forall c e, out_edge g' c = Some e -> e_src e <> Some (id_key id)) /\ ~ live g' (id_key id).
Proof.
  intros (n & es & El & Ee) [_ Hs] H. unfold edit_free in H. destruct (wrong_graph g id); [discriminate|].
  unfold free_node in H. cbn [free_node_fuel] in H. rewrite El in H.
  destruct (negb (n_mortal n)); [discriminate|].
  assert (Hp : is_pending g (id_key id) = false).
  { apply not_true_iff_false. intros Hp. apply (sh_pend g Hs _ _ El) in Hp. congruence. }
  rewrite Hp in H. fold (freed_state g (id_key id)) in H.
  destruct (freed_unref g (id_key id)) as (A & B & C).
  destruct (n_strong n) as [dep|]; [|injection H as <-; auto].
  destruct (free_node_fuel _ (freed_state g (id_key id)) dep) as [[g2 r]|] eqn:E; cbn [bind] in H; [|discriminate].
  injection H as <-. cbn [fst]. eapply frees_unref; eauto. eapply free_fuel_frees; eauto.
Qed.

(** ** plain histories build clean graphs *)
Lemma naf_update g k f : (forall n, n_auto_free (f n) = n_auto_free n) -> no_auto_free g -> no_auto_free (update g k f).
Proof.
  intros Hf Hn k' n. rewrite lookup_update. destruct (k =? k'); [|apply Hn].
  destruct (lookup g k') as [m|] eqn:E; [|discriminate]. cbn. intros H; injection H as <-. rewrite Hf. eauto.
Qed.
Lemma naf_map f g g' : g_nodes g' = map_edges f (g_nodes g) -> no_auto_free g -> no_auto_free g'.
Proof.
  intros Hg Hn k n. unfold lookup. rewrite Hg, lookup_map_edges. destruct (lookup g k) as [m|] eqn:E; [|discriminate].
  cbn. intros H; injection H as <-. cbn. eauto.
Qed.
Lemma naf_swept applied g : no_auto_free g -> no_auto_free (swept applied g).
Proof. intros Hn k n. rewrite lookup_swept. destruct (existsb _ _); [discriminate|]. apply Hn. Qed.
Lemma naf_evaluate_src g o g' : no_auto_free g ->
  match o with
  | Some e => match e_src e with Some s => evaluate g s | None => Some g end
  | None => Some g
  end = Some g' -> no_auto_free g'.
Proof.
  intros Hi H. destruct o as [e|]; [|injection H as <-; exact Hi].
  destruct (e_src e); [eapply naf_eval; eauto|injection H as <-; exact Hi].
Qed.
Lemma naf_core g src sink so si fb additive g' : inv g -> no_auto_free g ->
  (if negb additive then set_edge g sink si (Some (mk_edge src so false))
   else existing <- get_edge g sink si ;;
     match existing with
     | Some e =>
         let '(g4, add) := new_additive_node g in
         g5 <- set_edge g4 add 0 (Some e) ;;
         g6 <- set_edge g5 add 1 (Some (mk_edge src so false)) ;;
         set_edge g6 sink si (Some (mk_edge (Some add) 0 false))
     | None => set_edge g sink si (Some (mk_edge src so fb))
     end) = Some g' -> no_auto_free g'.
Proof.
  intros Hi Hs H. destruct additive; cbn [negb] in H; [|eapply naf_set_edge; eauto].
  destruct (get_edge g sink si) as [ex|] eqn:Eg; cbn [bind] in H; [|discriminate].
  destruct ex as [e|]; [|eapply naf_set_edge; eauto].
  pose proof (naf_additive g Hi Hs) as Ha. destruct (new_additive_node g) as [g4 add]. cbn [fst] in Ha.
  destruct (set_edge g4 add 0 _) as [g5|] eqn:E5; cbn [bind] in H; [|discriminate].
  destruct (set_edge g5 add 1 _) as [g6|] eqn:E6; cbn [bind] in H; [|discriminate].
  eapply naf_set_edge; [exact H|]. eapply naf_set_edge; [exact E6|]. eapply naf_set_edge; eauto.
Qed.
Lemma naf_connect_to_output g src so si additive g' : inv g -> no_auto_free g ->
  connect_to_output g src so si additive = Some g' -> no_auto_free g'.
Proof.
  intros Hi Hs H. unfold connect_to_output in H. pose proof (inv_recalc g true Hi) as Hi0.
  assert (Hs0 : no_auto_free (set_recalc g true)) by exact Hs. set (g0 := set_recalc g true) in *.
  destruct additive; cbn [negb] in H.
  2: { destruct (set_nth _ _ _); cbn [bind] in H; [|discriminate]. injection H as <-. exact Hs0. }
  destruct (nth_error _ _) as [ex|]; cbn [bind] in H; [|discriminate]. destruct ex as [e|].
  2: { destruct (set_nth _ _ _); cbn [bind] in H; [|discriminate]. injection H as <-. exact Hs0. }
  pose proof (naf_additive g0 Hi0 Hs0) as Ha. destruct (new_additive_node g0) as [g4 add]. cbn [fst] in Ha.
  destruct (set_edge g4 add 0 _) as [g5|] eqn:E5; cbn [bind] in H; [|discriminate].
  destruct (set_edge g5 add 1 _) as [g6|] eqn:E6; cbn [bind] in H; [|discriminate].
  destruct (set_nth _ _ _); cbn [bind] in H; [|discriminate]. injection H as <-.
  assert (no_auto_free g6) by (eapply naf_set_edge; [exact E6|]; eapply naf_set_edge; eauto). assumption.
Qed.
Lemma step_naf g o g' r : wf g -> no_auto_free g -> plain_edit g o -> step g o = Some (g', r) -> no_auto_free g'.
Proof.
  intros [Hi Hsh] Hs Hpl H. destruct r; [|apply step_err in H; subst g'; exact Hs]. destruct o; cbn [step] in H.
  - injection H as <-. intros k n. rewrite push_lookup by exact (proj1 Hi).
    destruct (_ =? _); [|apply Hs]. intros X; injection X as <-. reflexivity.
  - destruct Hpl as [-> _]. unfold connect2 in H. destruct source, sink.
    + unfold connect_input_to_output in H. destruct (_ <=? so); [discriminate|]. destruct (_ <=? si); [discriminate|].
      apply done_inv in H. eapply naf_connect_to_output; eauto.
    + unfold connect_input_to_node in H. destruct (wrong_graph _ _); [discriminate|]. destruct (_ <=? so); [discriminate|].
      destruct (lookup _ _); [|discriminate]. destruct (_ <=? si); [discriminate|].
      apply done_inv in H. unfold connect_to_node in H. cbn [bind] in H. eapply naf_core; [| |exact H]; [apply inv_recalc; exact Hi|exact Hs].
    + unfold connect_node_to_output in H. destruct (wrong_graph _ _); [discriminate|]. destruct (_ <=? si); [discriminate|].
      destruct (lookup _ _); [|discriminate]. destruct (_ <=? so); [discriminate|].
      apply done_inv in H. eapply naf_connect_to_output; eauto.
    + unfold connect_nodes in H. destruct (wrong_graph _ _); [discriminate|]. destruct (wrong_graph _ _); [discriminate|].
      destruct (lookup _ _); [|discriminate]. destruct (_ <=? so); [discriminate|].
      destruct (lookup _ _); [|discriminate]. destruct (_ <=? si); [discriminate|].
      match type of H with (circular <- ?X ;; _) = _ => destruct X as [b|] eqn:Ec; cbn [bind] in H; [|discriminate] end.
      destruct b; [discriminate|]. apply done_inv in H. unfold connect_to_node in H. cbn [bind] in H.
      eapply naf_core; [| |exact H]; [apply inv_recalc; exact Hi|exact Hs].
  - unfold connect_to_parameter in H. destruct (wrong_graph _ _); [discriminate|]. destruct (wrong_graph _ _); [discriminate|].
    destruct (lookup g (id_key sink)) as [nk|] eqn:Ek; cbn [bind] in H; [|discriminate].
    destruct (match p with PIndex i => _ | PDesc d => _ end) as [idx|]; [|discriminate].
    destruct (lookup g (id_key source)) as [ns|]; [|discriminate]. destruct (_ <=? so); [discriminate|].
    destruct (pedges_of g (id_key sink)) as [edges|] eqn:Ep; cbn [bind] in H; [|discriminate].
    destruct additive; [|injection H as <-; apply naf_update; auto].
    destruct (find_param _ _) as [pos|]; [|injection H as <-; apply naf_update; auto].
    destruct (nth_error _ _); cbn [bind] in H; [|discriminate].
    destruct (swap_remove _ _) as [edges'|] eqn:Esw; cbn [bind] in H; [|discriminate].
    set (g1 := update g (id_key sink) (fun n => n_set_pedges n (Some edges'))) in *.
    assert (Hi1 : inv g1).
    { apply inv_set_pedges; [exact Hi|]. intros q Hq.
      apply (bi_par g (proj1 Hi) (id_key sink)). exists edges. split; [exact Ep|]. eapply swap_remove_incl; eauto. }
    assert (Hs1 : no_auto_free g1) by (apply naf_update; auto).
    pose proof (naf_additive g1 Hi1 Hs1) as Ha. destruct (new_additive_node g1) as [g4 add]. cbn [fst] in Ha.
    destruct (set_edge g4 add 0 _) as [g5|] eqn:E5; cbn [bind] in H; [|discriminate].
    destruct (set_edge g5 add 1 _) as [g6|] eqn:E6; cbn [bind] in H; [|discriminate].
    injection H as <-. apply naf_update; auto. eapply naf_set_edge; [exact E6|]. eapply naf_set_edge; eauto.
  - unfold disconnect_output in H. destruct source.
    + destruct (_ <=? ch); [discriminate|]. destruct (nth_error _ _); cbn [bind] in H; [|discriminate].
      destruct (set_nth _ _ _); cbn [bind] in H; [|discriminate].
      match type of H with (g2 <- ?X ;; _) = _ => destruct X as [g2|] eqn:E2; cbn [bind] in H; [|discriminate] end.
      injection H as <-. eapply (naf_map _ g2); [reflexivity|]. eapply naf_evaluate_src; [|exact E2]. exact Hs.
    + destruct (negb _); [discriminate|]. destruct (lookup _ _); [|discriminate]. destruct (_ <=? ch); [discriminate|].
      injection H as <-. eapply (naf_map _ g); [reflexivity|exact Hs].
  - unfold disconnect_input in H. destruct sink.
    + destruct (_ <=? ch); [discriminate|]. destruct (nth_error _ _); cbn [bind] in H; [|discriminate].
      destruct (set_nth _ _ _); cbn [bind] in H; [|discriminate].
      match type of H with (g2 <- ?X ;; _) = _ => destruct X as [g2|] eqn:E2; cbn [bind] in H; [|discriminate] end.
      injection H as <-. eapply naf_evaluate_src; [|exact E2]. exact Hs.
    + destruct (negb _); [discriminate|]. destruct (lookup _ _) as [n|]; [|discriminate].
      destruct (n_edges n); cbn [bind] in H; [|discriminate]. destruct (_ <=? ch); [discriminate|].
      destruct (nth_error _ _) as [o|]; cbn [bind] in H; [|discriminate].
      destruct (set_edge _ _ _ _) as [g1|] eqn:E1; cbn [bind] in H; [|discriminate].
      match type of H with (g2 <- ?X ;; _) = _ => destruct X as [g2|] eqn:E2; cbn [bind] in H; [|discriminate] end.
      injection H as <-.
      assert (H1 : no_auto_free g1) by (eapply naf_set_edge; eauto).
      assert (H2 : no_auto_free g2).
      { destruct o as [e|]; [|injection E2 as <-; exact H1].
        destruct (evaluate g1 (id_key id)) as [g3|] eqn:E3; cbn [bind] in E2; [|discriminate].
        pose proof (naf_eval _ _ _ E3 H1) as H3.
        destruct (e_src e); [eapply naf_eval; eauto|injection E2 as <-; exact H3]. }
      exact H2.
  - unfold edit_free in H. destruct (wrong_graph _ _); [discriminate|].
    eapply naf_frees; [|exact Hs]. eapply free_fuel_frees; eauto.
  - unfold set_mortality in H. destruct (lookup g (id_key id)); injection H as <-; [|exact Hs]. apply naf_update; auto.
  - injection H as <-. apply naf_update; auto.
  - apply done_inv in H. unfold commit_edit in H.
    destruct (free_old _ g) as [g1|] eqn:E; cbn [bind] in H; [|discriminate].
    assert (Hs1 : no_auto_free g1).
    { apply free_old_unfold in E as (ga & gb & E1 & E2 & ->). apply naf_swept.
      eapply (fold_opt_P no_auto_free evaluate); [| |exact E2]; [intros; eapply naf_eval; eauto|].
      eapply (fold_opt_P no_auto_free free_ok); [|exact Hs|exact E1].
      intros. eapply naf_frees; [|eassumption]. eapply free_ok_frees; eauto. }
    destruct (g_recalc g1); injection H as <-; exact Hs1.
Qed.
Lemma plain_run_naf g ops g' : plain_run g ops g' -> wf g -> no_auto_free g -> no_auto_free g'.
Proof.
  induction 1 as [|g o ops g1 r g2 Hp Hs _ IH]; intros Hw Hr; [auto|].
  apply IH; [eapply step_wf; eauto|eapply step_naf; eauto].
Qed.
Lemma plain_run_clean id i o slots ops g : plain_run (graph_new id i o slots) ops g -> clean g.
Proof.
  intros H. destruct (plain_run_refs _ _ _ H (graph_new_wf id i o slots) (graph_new_refs id i o slots)) as [A B].
  split; [exact B|]. split; [exact A|]. eapply plain_run_naf; [exact H|apply graph_new_wf|].
  intros k n. unfold lookup. cbn. discriminate.
Qed.
Lemma none_raised_nil g : NoDup (keys g) -> none_raised g -> raised (g_nodes g) = [].
Proof.
  intros Hd Hn. unfold raised. destruct (filter _ (g_nodes g)) as [|[k n] l] eqn:E; [reflexivity|].
  exfalso. assert (Hin : In (k, n) (filter (fun kn => match n_remove_me (snd kn) with Some b => b | None => false end) (g_nodes g)))
    by (rewrite E; left; reflexivity).
  apply filter_In in Hin as [Hin Hr]. cbn in Hr. apply (Hn k n).
  - unfold keys in Hd. unfold lookup. clear - Hd Hin. induction (g_nodes g) as [|[k0 n0] l IH]; [destruct Hin|].
    cbn in *. inversion Hd as [|? ? Hni Hd']; subst. destruct (Nat.eqb_spec k0 k) as [->|Hne].
    + destruct Hin as [H|H]; [congruence|]. exfalso. apply Hni. apply in_map_iff. exists (k, n). auto.
    + destruct Hin as [H|H]; [congruence|]. apply IH; auto.
  - destruct (n_remove_me n) as [[]|]; congruence.
Qed.
Lemma frees_summing g g' : frees g g' -> forall k, summing g' k = summing g k.
Proof. induction 1; auto. intros k0. rewrite IHfrees. apply summing_freed. Qed.
Lemma frees_raised g g' : frees g g' -> none_raised g -> none_raised g'.
Proof.
  induction 1 as [|g k n g' _ _ _ _ IH]; auto. intros Hn. apply IH. intros k' m. rewrite lookup_freed.
  destruct (lookup g k') as [m0|] eqn:E; [|discriminate]. cbn. intros X; injection X as <-.
  destruct (k =? k'); cbn; eapply Hn; eauto.
Qed.
Lemma free_then_commit g id g' r applied : wf g -> no_auto_free g -> none_raised g ->
  (forall k, summing g k = false) -> step g (OpFree id) = Some (g', r) ->
  exists g2, step g' (OpCommit applied) = Some (g2, Ok).
Proof.
  intros Hw Hn Hra Hm H. assert (Hf : frees g g').
  { cbn [step] in H. unfold edit_free in H. destruct (wrong_graph g id); [injection H as <- _; constructor|].
    eapply free_fuel_frees; eauto. }
  assert (Hw' : wf g') by (eapply step_wf; eauto).
  destruct (commit_progress (fun f => existsb (Nat.eqb f) applied) g' Hw') as [g2 E2].
  - eapply naf_frees; eauto.
  - left. intros k _ Hk. rewrite (frees_summing _ _ Hf), Hm in Hk. discriminate.
  - apply none_raised_nil; [exact (bi_nodup g' (proj1 (proj1 Hw')))|]. eapply frees_raised; eauto.
  - exists g2. cbn [step]. rewrite E2. reflexivity.
Qed.

(** ** several additive connections *)
Lemma set_edge_next g k ch e g' : set_edge g k ch e = Some g' -> g_next g' = g_next g.
Proof. intros H. apply set_edge_some in H as (es & es' & _ & _ & ->). reflexivity. Qed.
Lemma connect_to_node_next g src sink so si additive g' : inv g ->
  connect_to_node g src sink so si additive false = Some g' -> g_next g <= g_next g'.
Proof.
  intros Hi H. unfold connect_to_node in H. cbn [bind] in H. pose proof (inv_recalc g true Hi) as Hi0.
  set (g0 := set_recalc g true) in *. change (g_next g) with (g_next g0).
  destruct additive; cbn [negb] in H; [|apply set_edge_next in H; lia].
  destruct (get_edge _ _ _) as [ex|]; cbn [bind] in H; [|discriminate].
  destruct ex as [e|]; [|apply set_edge_next in H; lia].
  destruct (new_additive_spec g0 Hi0) as (_ & _ & Hn & _).
  destruct (new_additive_node g0) as [g4 add]. cbn [fst] in Hn.
  destruct (set_edge g4 add 0 _) as [g5|] eqn:E5; cbn [bind] in H; [|discriminate].
  destruct (set_edge g5 add 1 _) as [g6|] eqn:E6; cbn [bind] in H; [|discriminate].
  apply set_edge_next in H, E5, E6. lia.
Qed.
Lemma connects_sums k si g srcs g' : connects k si g srcs g' -> wf g -> summing g (id_key k) = false ->
  (forall s so a, In (s, so) srcs -> src_of s = Some a -> a < g_next g /\ summing g a = false) ->
  g_next g <= g_next g' /\
  (forall l, sums g (in_edge g (id_key k) si) l ->
     sums g' (in_edge g' (id_key k) si) (l ++ map (fun x => (src_of (fst x), snd x)) srcs)) /\
  (forall k' c, k' < g_next g -> (k', c) <> (id_key k, si) -> in_edge g' k' c = in_edge g k' c) /\
  g_outs g' = g_outs g /\
  (forall o l, sums g o l -> older g o -> sums g' o l).
Proof.
  induction 1 as [g|g s so g1 srcs g2 Hst _ IH]; intros Hw Hk Hsrc.
  - split; [lia|]. split; [intros l H; cbn; rewrite app_nil_r; exact H|].
    split; [auto|]. split; auto.
  - pose proof (step_wf _ _ _ _ Hw Hst) as Hw1.
    apply step_connect_node in Hst as (Hc & Hlt & Hkl); [|exact Hw].
    destruct (connect_to_node_sums _ _ _ _ _ _ _ (proj1 Hw) Hlt Hk Hc) as (A & B & C & D & E).
    assert (Hnext : g_next g <= g_next g1) by (exact (connect_to_node_next _ _ _ _ _ _ _ (proj1 Hw) Hc)).
    assert (Hk1 : summing g1 (id_key k) = false) by (rewrite A by exact Hkl; exact Hk).
    assert (Hl1 : sums g (Some (mk_edge (src_of s) so false)) [(src_of s, so)]).
    { apply (sums_leaf g (mk_edge (src_of s) so false)). intros a Ha. cbn in Ha.
      eapply (Hsrc s so a); [left; reflexivity|exact Ha]. }
    specialize (E _ Hl1). cbn in E.
    destruct IH as (IH0 & IH1 & IH2 & IH3 & IH4); [exact Hw1|exact Hk1| |].
    { intros s' so' a Hin Ha. destruct (Hsrc s' so' a (or_intror Hin) Ha) as [X Y]. split; [lia|]. rewrite A; auto. }
    split; [lia|]. split; [|split; [|split]].
    + intros l Hl. cbn [map fst snd]. specialize (IH1 _ (E l Hl)). rewrite <- app_assoc in IH1. exact IH1.
    + intros k' c Hk' Hne. rewrite IH2; [auto|lia|exact Hne].
    + congruence.
    + intros o l Hs Ho. apply IH4; [auto|]. intros e a He Ha. specialize (Ho e a He Ha). lia.
Qed.
