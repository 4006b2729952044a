(** Lemmas about the primitive graph updates. *)
From Coq Require Import Wellfounded.Transitive_Closure.
From Verif Require Import Base GraphModel GraphSpec.
Local Open Scope nat_scope.

Definition keys (g : graph) : list key := map fst (g_nodes g).

(** ** slot map *)
Lemma nlookup_In l k n : nlookup l k = Some n -> In (k, n) l.
Proof.
  induction l as [|[k' n'] l IH]; cbn; [discriminate|].
  destruct (Nat.eqb_spec k' k) as [->|Hne]; intros H; [injection H as ->; auto|auto].
Qed.
Lemma nlookup_None l k : nlookup l k = None <-> ~ In k (map fst l).
Proof.
  induction l as [|[k' n'] l IH]; cbn; [tauto|].
  destruct (Nat.eqb_spec k' k) as [->|Hne]; [split; [discriminate|tauto]|]. rewrite IH. tauto.
Qed.
Lemma nlookup_key l k n : nlookup l k = Some n -> In k (map fst l).
Proof. intros H. apply nlookup_In in H. apply in_map_iff. exists (k, n). auto. Qed.
Lemma In_nlookup l k n : NoDup (map fst l) -> In (k, n) l -> nlookup l k = Some n.
Proof.
  induction l as [|[k' n'] l IH]; cbn; [tauto|]. intros Hnd [H|H].
  - injection H as -> ->. rewrite Nat.eqb_refl. reflexivity.
  - inversion Hnd; subst. destruct (Nat.eqb_spec k' k) as [->|Hne]; [|auto].
    exfalso. apply H2. apply in_map_iff. exists (k, n). auto.
Qed.
Lemma nlookup_nupdate l k f k' :
  nlookup (nupdate k f l) k' = if k =? k' then option_map f (nlookup l k') else nlookup l k'.
Proof.
  induction l as [|[k1 n1] l IH]; cbn.
  - destruct (k =? k'); reflexivity.
  - destruct (Nat.eqb_spec k1 k) as [->|Hne]; cbn [fst].
    + destruct (Nat.eqb_spec k k') as [->|Hne']; [reflexivity|]. exact IH.
    + destruct (Nat.eqb_spec k1 k') as [->|Hne'].
      * rewrite (proj2 (Nat.eqb_neq k k')) by congruence. reflexivity.
      * exact IH.
Qed.
Lemma nupdate_keys l k f : map fst (nupdate k f l) = map fst l.
Proof.
  unfold nupdate. rewrite map_map. apply map_ext. intros [k1 n1]; cbn. destruct (k1 =? k); reflexivity.
Qed.
Lemma nlookup_map (f : key -> node -> node) l k :
  nlookup (map (fun kn => (fst kn, f (fst kn) (snd kn))) l) k = option_map (f k) (nlookup l k).
Proof.
  induction l as [|[k1 n1] l IH]; cbn; [reflexivity|].
  destruct (Nat.eqb_spec k1 k) as [->|Hne]; [reflexivity|exact IH].
Qed.
Lemma nlookup_filter l (P : key -> bool) k :
  nlookup (filter (fun kn => P (fst kn)) l) k = if P k then nlookup l k else None.
Proof.
  induction l as [|[k1 n1] l IH]; cbn; [destruct (P k); reflexivity|].
  destruct (P k1) eqn:E; cbn; destruct (Nat.eqb_spec k1 k) as [->|Hne]; rewrite ?IH, ?E; try reflexivity.
Qed.
Lemma nlookup_app l1 l2 k :
  nlookup (l1 ++ l2) k = match nlookup l1 k with Some n => Some n | None => nlookup l2 k end.
Proof.
  induction l1 as [|[k1 n1] l IH]; cbn; [reflexivity|]. destruct (k1 =? k); [reflexivity|exact IH].
Qed.
Lemma nlookup_insert l pos k0 n0 k : ~ In k0 (map fst l) ->
  nlookup (insert_at pos (k0, n0) l) k = if k0 =? k then Some n0 else nlookup l k.
Proof.
  intros Hf. unfold insert_at. rewrite nlookup_app. cbn [nlookup].
  replace (nlookup l k) with (nlookup (firstn pos l ++ skipn pos l) k)
    by (rewrite firstn_skipn; reflexivity).
  rewrite nlookup_app.
  destruct (Nat.eqb_spec k0 k) as [->|Hne]; [|reflexivity].
  destruct (nlookup (firstn pos l) k) eqn:E; [|reflexivity].
  exfalso. apply Hf. apply nlookup_key in E. rewrite <- (firstn_skipn pos l), map_app.
  apply in_or_app. auto.
Qed.
Lemma insert_at_In {A} pos (x y : A) l : In y (insert_at pos x l) <-> y = x \/ In y l.
Proof.
  unfold insert_at. rewrite in_app_iff. cbn.
  assert (H : In y l <-> In y (firstn pos l ++ skipn pos l)) by (rewrite firstn_skipn; tauto).
  rewrite H, in_app_iff. intuition congruence.
Qed.
Lemma insert_at_keys pos k0 (n0 : node) (l : list (key * node)) :
  map fst (insert_at pos (k0, n0) l) = insert_at pos k0 (map fst l).
Proof. unfold insert_at. rewrite map_app. cbn. rewrite firstn_map, skipn_map. reflexivity. Qed.
Lemma insert_at_NoDup {A} pos (x : A) l : NoDup l -> ~ In x l -> NoDup (insert_at pos x l).
Proof.
  intros Hnd Hx. unfold insert_at. apply NoDup_Add with (a := x) (l := l).
  - rewrite <- (firstn_skipn pos l) at 1. apply Add_app.
  - auto.
Qed.

(** ** state well-formedness *)
Definition pedge_in (g : graph) (k : key) (p : pedge) : Prop :=
  exists ps, pedges_of g k = Some ps /\ In p ps.

Record base_inv (g : graph) : Prop := {
  bi_nodup : NoDup (keys g);
  bi_lt : forall k, In k (keys g) -> k < g_next g;
  bi_in : forall k c e s, in_edge g k c = Some e -> e_src e = Some s -> s < g_next g;
  bi_out : forall c e s, out_edge g c = Some e -> e_src e = Some s -> s < g_next g;
  bi_par : forall k p, pedge_in g k p -> p_src p < g_next g }.

Definition inv (g : graph) : Prop := base_inv g /\ well_founded (feeds g).

Lemma lookup_key g k n : lookup g k = Some n -> In k (keys g).
Proof. apply nlookup_key. Qed.
Lemma lookup_fresh g : base_inv g -> forall k, g_next g <= k -> lookup g k = None.
Proof.
  intros Hb k Hk. apply nlookup_None. intros Hin. apply (bi_lt g Hb) in Hin. lia.
Qed.
Lemma in_edge_key g k c e : in_edge g k c = Some e -> In k (keys g).
Proof.
  unfold in_edge, edges_of. destruct (lookup g k) as [n|] eqn:E; cbn; [|discriminate].
  intros _. eapply lookup_key; eauto.
Qed.
Lemma in_edge_fresh g : base_inv g -> forall k c, g_next g <= k -> in_edge g k c = None.
Proof. intros Hb k c Hk. unfold in_edge, edges_of. rewrite lookup_fresh; auto. Qed.

(** Updates that leave connections alone. *)
Lemma in_edge_update g k0 f k c : (forall n, n_edges (f n) = n_edges n) ->
  in_edge (update g k0 f) k c = in_edge g k c.
Proof.
  intros Hf. unfold in_edge, edges_of, lookup, update, set_nodes; cbn [g_nodes].
  rewrite nlookup_nupdate. destruct (k0 =? k); [|reflexivity].
  destruct (nlookup (g_nodes g) k); cbn; [rewrite Hf|]; reflexivity.
Qed.
Lemma pedges_update g k0 f k : (forall n, n_pedges (f n) = n_pedges n) ->
  pedges_of (update g k0 f) k = pedges_of g k.
Proof.
  intros Hf. unfold pedges_of, lookup, update, set_nodes; cbn [g_nodes].
  rewrite nlookup_nupdate. destruct (k0 =? k); [|reflexivity].
  destruct (nlookup (g_nodes g) k); cbn; [rewrite Hf|]; reflexivity.
Qed.
Lemma keys_update g k f : keys (update g k f) = keys g.
Proof. apply nupdate_keys. Qed.
Lemma lookup_update g k0 f k :
  lookup (update g k0 f) k = if k0 =? k then option_map f (lookup g k) else lookup g k.
Proof. apply nlookup_nupdate. Qed.

(** push_node *)
Lemma push_key g i o d r : snd (push_node g i o d r) = g_next g.
Proof. unfold push_node. destruct (g_slots g); reflexivity. Qed.
Lemma push_next g i o d r : g_next (fst (push_node g i o d r)) = S (g_next g).
Proof. unfold push_node. destruct (g_slots g); reflexivity. Qed.
Lemma push_outs g i o d r : g_outs (fst (push_node g i o d r)) = g_outs g.
Proof. unfold push_node. destruct (g_slots g); reflexivity. Qed.
Lemma push_lookup g i o d r k : base_inv g ->
  lookup (fst (push_node g i o d r)) k =
    if g_next g =? k then
      Some (mk_node i o d false false None r (Some (repeat None i)) (Some []) true)
    else lookup g k.
Proof.
  intros Hb. assert (Hf : ~ In (g_next g) (map fst (g_nodes g))).
  { intros Hin. apply (bi_lt g Hb) in Hin. lia. }
  unfold push_node, lookup. destruct (g_slots g); cbn [fst g_nodes]; apply nlookup_insert; exact Hf.
Qed.
Lemma push_in_edge g i o d r k c : base_inv g ->
  in_edge (fst (push_node g i o d r)) k c = in_edge g k c.
Proof.
  intros Hb. unfold in_edge, edges_of. rewrite push_lookup by exact Hb.
  destruct (Nat.eqb_spec (g_next g) k) as [<-|Hne]; [|reflexivity].
  rewrite lookup_fresh by auto. cbn.
  destruct (nth_error (repeat None i) c) as [o0|] eqn:E; [|reflexivity].
  apply nth_error_In in E. apply repeat_spec in E. auto.
Qed.
Lemma push_pedges g i o d r k p : base_inv g ->
  pedge_in (fst (push_node g i o d r)) k p -> pedge_in g k p.
Proof.
  intros Hb (ps & E & Hin). unfold pedges_of in E. rewrite push_lookup in E by exact Hb.
  destruct (Nat.eqb_spec (g_next g) k) as [<-|Hne]; cbn in E.
  - injection E as <-. destruct Hin.
  - exists ps. auto.
Qed.
Lemma push_keys g i o d r k : In k (keys (fst (push_node g i o d r))) <-> k = g_next g \/ In k (keys g).
Proof.
  unfold push_node, keys. destruct (g_slots g); cbn [fst g_nodes];
    rewrite insert_at_keys; apply insert_at_In.
Qed.
Lemma push_base g i o d r : base_inv g -> base_inv (fst (push_node g i o d r)).
Proof.
  intros Hb. constructor.
  - assert (Hf : ~ In (g_next g) (keys g)) by (intros Hin; apply (bi_lt g Hb) in Hin; lia).
    unfold push_node, keys. destruct (g_slots g); cbn [fst g_nodes];
      rewrite insert_at_keys; apply insert_at_NoDup; auto; apply (bi_nodup g Hb).
  - intros k Hk. rewrite push_next. apply push_keys in Hk as [->|Hk]; [lia|].
    apply (bi_lt g Hb) in Hk. lia.
  - intros k c e s He Hs. rewrite push_in_edge in He by exact Hb. rewrite push_next.
    pose proof (bi_in g Hb _ _ _ _ He Hs). lia.
  - intros c e s He Hs. unfold out_edge in He. rewrite push_outs in He. rewrite push_next.
    pose proof (bi_out g Hb _ _ _ He Hs). lia.
  - intros k p Hp. rewrite push_next. apply push_pedges in Hp; [|exact Hb].
    pose proof (bi_par g Hb _ _ Hp). lia.
Qed.

(** Updates of one node that keep its connections. *)
Lemma update_base g k f : (forall n, n_edges (f n) = n_edges n) -> (forall n, n_pedges (f n) = n_pedges n) ->
  base_inv g -> base_inv (update g k f).
Proof.
  intros Hf Hp Hb. constructor.
  - rewrite keys_update. apply (bi_nodup g Hb).
  - intros k'. rewrite keys_update. apply (bi_lt g Hb).
  - intros k' c e s. rewrite in_edge_update by exact Hf. apply (bi_in g Hb).
  - apply (bi_out g Hb).
  - intros k' p (ps & E & Hin). rewrite pedges_update in E by exact Hp. apply (bi_par g Hb k'). exists ps; auto.
Qed.

(** set_edge *)
Lemma set_edge_some g k ch e g' : set_edge g k ch e = Some g' ->
  exists es es', edges_of g k = Some es /\ set_nth es ch e = Some es' /\
    g' = update g k (fun n => n_set_edges n (Some es')).
Proof.
  unfold set_edge. destruct (edges_of g k) as [es|] eqn:E; cbn; [|discriminate].
  destruct (set_nth es ch e) as [es'|] eqn:E2; cbn; [|discriminate].
  intros H; injection H as <-. exists es, es'. auto.
Qed.
Lemma set_edge_in_edge g k ch e g' : set_edge g k ch e = Some g' -> forall k' c,
  in_edge g' k' c = if (k' =? k) && (c =? ch) then e else in_edge g k' c.
Proof.
  intros H k' c. apply set_edge_some in H as (es & es' & E1 & E2 & ->).
  unfold in_edge. unfold edges_of. rewrite lookup_update. rewrite (Nat.eqb_sym k' k).
  destruct (Nat.eqb_spec k k') as [->|Hne]; cbn [andb]; [|reflexivity].
  unfold edges_of in E1. destruct (lookup g k') as [n|] eqn:E; cbn in E1 |- *; [|discriminate].
  rewrite E1. destruct (Nat.eqb_spec c ch) as [->|Hne].
  - rewrite (set_nth_same _ _ _ _ E2). reflexivity.
  - rewrite (set_nth_other _ _ _ _ _ E2) by congruence. reflexivity.
Qed.
Lemma set_edge_frame g k ch e g' : set_edge g k ch e = Some g' ->
  keys g' = keys g /\ g_next g' = g_next g /\ g_outs g' = g_outs g /\ g_outputs g' = g_outputs g /\
  g_inputs g' = g_inputs g /\ g_id g' = g_id g /\ g_pending g' = g_pending g /\ g_slots g' = g_slots g /\
  (forall k', pedges_of g' k' = pedges_of g k').
Proof.
  intros H. apply set_edge_some in H as (es & es' & E1 & E2 & ->).
  repeat split; try reflexivity. - apply keys_update. - intros k'. apply pedges_update. reflexivity.
Qed.
Lemma set_edge_base g k ch e g' : base_inv g ->
  (forall e0 s, e = Some e0 -> e_src e0 = Some s -> s < g_next g) ->
  set_edge g k ch e = Some g' -> base_inv g'.
Proof.
  intros Hb He H. pose proof (set_edge_in_edge _ _ _ _ _ H) as Hin.
  apply set_edge_frame in H as (Hk & Hn & Ho & _ & _ & _ & _ & _ & Hp).
  constructor.
  - rewrite Hk. apply (bi_nodup g Hb).
  - intros k'. rewrite Hk, Hn. apply (bi_lt g Hb).
  - intros k' c e0 s E Hs. rewrite Hin in E. rewrite Hn.
    destruct ((k' =? k) && (c =? ch)); [eapply He; eauto|eapply (bi_in g Hb); eauto].
  - intros c e0 s. unfold out_edge. rewrite Ho, Hn. apply (bi_out g Hb).
  - intros k' p (ps & E & Hi). rewrite Hp in E. rewrite Hn. apply (bi_par g Hb k'). exists ps; auto.
Qed.

(** ** well-foundedness of [feeds] *)
Lemma wf_sub g g' : well_founded (feeds g) -> (forall a b, feeds g' a b -> clos_trans key (feeds g) a b) ->
  well_founded (feeds g').
Proof.
  intros Hwf Hsub. assert (Hwf' : well_founded (clos_trans key (feeds g))).
  { intros x. apply Acc_clos_trans. apply Hwf. }
  intros x. induction (Hwf' x) as [x _ IH]. constructor. intros y Hy. apply IH. apply Hsub. exact Hy.
Qed.
Lemma wf_add g g' u v : well_founded (feeds g) ->
  (forall a b, feeds g' a b -> feeds g a b \/ (u = Some a /\ b = v)) ->
  (forall a, u = Some a -> ~ reaches g v a) ->
  well_founded (feeds g').
Proof.
  intros Hwf Hsub Hno.
  assert (H1 : forall x, Acc (feeds g) x -> ~ reaches g v x -> Acc (feeds g') x).
  { intros x Hx. induction Hx as [x _ IH]. intros Hr. constructor. intros y Hy.
    destruct (Hsub _ _ Hy) as [H|[_ ->]].
    - apply IH; [exact H|]. intros Hv. apply Hr. eapply rt_trans; [exact Hv|]. apply rt_step. exact H.
    - exfalso. apply Hr. apply rt_refl. }
  intros x. induction (Hwf x) as [x _ IH]. constructor. intros y Hy.
  destruct (Hsub _ _ Hy) as [H|[Hu ->]]; [apply IH; exact H|].
  apply H1; [apply Hwf|]. apply Hno. exact Hu.
Qed.
Lemma wf_no_cycle g : well_founded (feeds g) -> ~ has_cycle g.
Proof.
  intros Hwf [k Hk]. assert (Ha : Acc (clos_trans key (feeds g)) k) by (apply Acc_clos_trans; apply Hwf).
  revert Hk. induction Ha as [x _ IH]. intros Hx. eapply IH; eauto.
Qed.
Lemma feeds_lt g a b : base_inv g -> feeds g a b -> a < g_next g /\ b < g_next g.
Proof.
  intros Hb (c & e & He & Hs). split.
  - eapply (bi_in g Hb); eauto.
  - apply (bi_lt g Hb). eapply in_edge_key; eauto.
Qed.
