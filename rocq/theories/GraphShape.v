(** Shape of the stored state (kept by every edit), absence of fuel exhaustion, and progress of the
    edits that cannot panic. *)
From Verif Require Import Base GraphModel GraphSpec GraphBase GraphPath GraphInv.
Local Open Scope nat_scope.

Definition node_ok (n : node) : Prop :=
  (forall es, n_edges n = Some es -> List.length es = n_inputs n) /\
  (n_auto_math n = true -> n_inputs n = 2 /\ n_outputs n = 1 /\ n_auto_free n = false /\ n_strong n = None) /\
  (n_edges n = None <-> n_pedges n = None).

Record shape (g : graph) : Prop := {
  sh_outs : List.length (g_outs g) = g_outputs g;
  sh_node : forall k n, lookup g k = Some n -> node_ok n;
  sh_pend : forall k n, lookup g k = Some n -> (n_edges n = None <-> is_pending g k = true);
  sh_pkeys : forall k, In k (map fst (g_pending g)) -> In k (keys g);
  sh_pnd : NoDup (map fst (g_pending g)) }.

Definition wf (g : graph) : Prop := inv g /\ shape g.

(** ** primitives *)
Lemma shape_update g k f : shape g ->
  (forall n, lookup g k = Some n -> node_ok n -> node_ok (f n)) ->
  (forall n, lookup g k = Some n -> (n_edges (f n) = None <-> n_edges n = None)) ->
  shape (update g k f).
Proof.
  intros [H1 H2 H3 H4 H5] Hf He. constructor; auto.
  - intros k' n'. rewrite lookup_update. destruct (Nat.eqb_spec k k') as [->|Hne]; [|apply H2].
    destruct (lookup g k') as [n|] eqn:E; cbn; [|discriminate]. intros H; injection H as <-. eauto.
  - intros k' n'. rewrite lookup_update. destruct (Nat.eqb_spec k k') as [->|Hne]; [|apply H3].
    destruct (lookup g k') as [n|] eqn:E; cbn; [|discriminate]. intros H; injection H as <-.
    rewrite (He n eq_refl). apply (H3 k' n E).
  - intros k' Hk. rewrite keys_update. apply H4. exact Hk.
Qed.
Lemma pend_lt g k : base_inv g -> shape g -> is_pending g k = true -> k < g_next g.
Proof.
  intros Hb Hs H. unfold is_pending in H. apply existsb_exists in H as ([k' f] & Hin & E).
  apply Nat.eqb_eq in E. cbn in E. subst k'. apply (bi_lt g Hb). apply (sh_pkeys g Hs).
  apply in_map_iff. exists (k, f). auto.
Qed.
Lemma push_outputs g i o d r : g_outputs (fst (push_node g i o d r)) = g_outputs g.
Proof. unfold push_node. destruct (g_slots g); reflexivity. Qed.
Lemma push_pending g i o d r : g_pending (fst (push_node g i o d r)) = g_pending g.
Proof. unfold push_node. destruct (g_slots g); reflexivity. Qed.
Lemma shape_push g i o d r : base_inv g -> shape g -> shape (fst (push_node g i o d r)).
Proof.
  intros Hb Hs. constructor.
  - rewrite push_outs, push_outputs. apply (sh_outs g Hs).
  - intros k n. rewrite push_lookup by exact Hb. destruct (g_next g =? k); [|apply (sh_node g Hs)].
    intros H; injection H as <-. unfold node_ok; cbn. repeat split; try discriminate.
    intros es H; injection H as <-. apply repeat_length.
  - intros k n. rewrite push_lookup by exact Hb. unfold is_pending. rewrite push_pending.
    fold (is_pending g k). destruct (Nat.eqb_spec (g_next g) k) as [<-|Hne]; [|apply (sh_pend g Hs)].
    intros H; injection H as <-; cbn. split; [discriminate|]. intros H.
    apply (pend_lt g _ Hb Hs) in H. lia.
  - intros k. rewrite push_pending, push_keys. right. apply (sh_pkeys g Hs). auto.
  - rewrite push_pending. apply (sh_pnd g Hs).
Qed.
Lemma shape_set_edge g k ch e g' : shape g -> set_edge g k ch e = Some g' -> shape g'.
Proof.
  intros Hs H. apply set_edge_some in H as (es & es' & E1 & E2 & ->).
  apply shape_update; [exact Hs| |].
  - intros n El (A & B & C). unfold edges_of in E1. rewrite El in E1. cbn in E1. split; [|split]; cbn.
    + intros x Hx; injection Hx as <-. rewrite (set_nth_length _ _ _ _ E2). apply A. exact E1.
    + exact B.
    + split; [discriminate|]. intros Hp. apply C in Hp. congruence.
  - intros n El. cbn. unfold edges_of in E1. rewrite El in E1. cbn in E1. split; [discriminate|congruence].
Qed.
Lemma shape_frame g g' : g_nodes g' = g_nodes g -> g_pending g' = g_pending g ->
  List.length (g_outs g') = List.length (g_outs g) -> g_outputs g' = g_outputs g -> shape g -> shape g'.
Proof.
  intros H1 H2 H3 H4 [A B C D E].
  assert (Hl : forall k, lookup g' k = lookup g k) by (intros k; unfold lookup; rewrite H1; reflexivity).
  constructor.
  - congruence.
  - intros k n. rewrite Hl. apply B.
  - intros k n. rewrite Hl. unfold is_pending. rewrite H2. apply C.
  - intros k. unfold keys. rewrite H1, H2. apply D.
  - rewrite H2. exact E.
Qed.
Lemma shape_map f g g' : shape g -> g_nodes g' = map_edges f (g_nodes g) ->
  g_pending g' = g_pending g ->
  List.length (g_outs g') = List.length (g_outs g) -> g_outputs g' = g_outputs g -> shape g'.
Proof.
  intros [A B C D E] Hn H2 H3 H4.
  assert (Hl : forall k, lookup g' k = option_map (fun n => n_set_edges n (option_map (map f) (n_edges n))) (lookup g k))
    by (intros k; unfold lookup; rewrite Hn; apply lookup_map_edges).
  constructor.
  - congruence.
  - intros k n. rewrite Hl. destruct (lookup g k) as [n0|] eqn:E0; cbn; [|discriminate].
    intros H; injection H as <-. destruct (B k n0 E0) as (X & Y & Z). split; [|split]; cbn.
    + intros es He. destruct (n_edges n0) as [es0|]; cbn in He; [|discriminate]. injection He as <-.
      rewrite map_length. auto.
    + exact Y.
    + rewrite <- Z. destruct (n_edges n0); cbn; split; congruence.
  - intros k n. rewrite Hl. destruct (lookup g k) as [n0|] eqn:E0; cbn; [|discriminate].
    intros H; injection H as <-. unfold is_pending. rewrite H2. rewrite <- (C k n0 E0). cbn.
    destruct (n_edges n0); cbn; split; congruence.
  - intros k. unfold keys. rewrite Hn, keys_map_edges, H2. apply D.
  - rewrite H2. exact E.
Qed.
Lemma is_pending_In g k : is_pending g k = true <-> In k (map fst (g_pending g)).
Proof.
  unfold is_pending. rewrite existsb_exists, in_map_iff. split.
  - intros (x & Hin & E). apply Nat.eqb_eq in E. exists x. auto.
  - intros (x & E & Hin). exists x. split; [exact Hin|]. apply Nat.eqb_eq. exact E.
Qed.

(** ** free *)
Definition freed_state (g : graph) (k : key) : graph :=
  set_pending (set_recalc (set_outs (set_nodes g
    (map_edges (clear_if (from_key k))
       (nupdate k (fun n => n_set_pedges (n_set_edges n None) None) (g_nodes g))))
    (map (clear_if (from_key k)) (g_outs g))) true) (g_pending g ++ [(k, g_flag g)]).
Lemma lookup_freed g k k' :
  lookup (freed_state g k) k' =
    option_map (fun n => if k =? k' then n_set_pedges (n_set_edges n None) None
                         else n_set_edges n (option_map (map (clear_if (from_key k))) (n_edges n)))
               (lookup g k').
Proof.
  unfold lookup, freed_state; cbn [g_nodes set_pending set_recalc set_outs set_nodes].
  set (ga := set_nodes g (nupdate k (fun n => n_set_pedges (n_set_edges n None) None) (g_nodes g))).
  change (nupdate k (fun n => n_set_pedges (n_set_edges n None) None) (g_nodes g)) with (g_nodes ga).
  rewrite lookup_map_edges. unfold lookup, ga; cbn [g_nodes set_nodes]. rewrite nlookup_nupdate.
  destruct (k =? k'); destruct (nlookup (g_nodes g) k'); reflexivity.
Qed.
Lemma keys_freed g k : keys (freed_state g k) = keys g.
Proof. unfold keys, freed_state; cbn. rewrite keys_map_edges, nupdate_keys. reflexivity. Qed.
Lemma pending_freed g k k' : is_pending (freed_state g k) k' = is_pending g k' || (k =? k').
Proof.
  unfold is_pending, freed_state; cbn. rewrite existsb_app. cbn. rewrite orb_false_r. reflexivity.
Qed.
Lemma freed_inv g k : inv g -> inv (freed_state g k).
Proof. intros Hi. eapply (free_step_inv g k); [exact Hi|reflexivity|reflexivity|reflexivity]. Qed.
Lemma freed_shape g k n : lookup g k = Some n -> is_pending g k = false -> shape g -> shape (freed_state g k).
Proof.
  intros El Ep [A B C D E]. constructor.
  - unfold freed_state; cbn. rewrite map_length. exact A.
  - intros k' n'. rewrite lookup_freed. destruct (lookup g k') as [n0|] eqn:E0; cbn; [|discriminate].
    intros H; injection H as <-. destruct (B k' n0 E0) as (X & Y & Z).
    destruct (k =? k'); (split; [|split]); cbn.
    + discriminate. + exact Y. + tauto.
    + intros es He. destruct (n_edges n0) as [es0|]; cbn in He; [|discriminate]. injection He as <-.
      rewrite map_length. auto.
    + exact Y.
    + rewrite <- Z. destruct (n_edges n0); cbn; split; congruence.
  - intros k' n'. rewrite lookup_freed, pending_freed.
    destruct (lookup g k') as [n0|] eqn:E0; cbn; [|discriminate].
    intros H; injection H as <-. destruct (Nat.eqb_spec k k') as [->|Hne]; cbn.
    + rewrite orb_true_r. tauto.
    + rewrite orb_false_r. rewrite <- (C k' n0 E0). destruct (n_edges n0); cbn; split; congruence.
  - intros k'. rewrite keys_freed. unfold freed_state; cbn. rewrite map_app, in_app_iff. cbn.
    intros [H|[<-|[]]]; [apply D; exact H|]. eapply lookup_key; eauto.
  - unfold freed_state; cbn. rewrite map_app. cbn.
    apply NoDup_Add with (a := k) (l := map fst (g_pending g)).
    + rewrite <- (app_nil_r (map fst (g_pending g))) at 1. apply Add_app.
    + split; [exact E|]. intros Hin. apply is_pending_In in Hin. congruence.
Qed.

(** The relation between a graph and what freeing one node makes of it: a chain of single frees. *)
Inductive frees : graph -> graph -> Prop :=
| frees_nil g : frees g g
| frees_cons g k n g' : lookup g k = Some n -> n_mortal n = true -> is_pending g k = false ->
    frees (freed_state g k) g' -> frees g g'.
Lemma frees_trans g1 g2 g3 : frees g1 g2 -> frees g2 g3 -> frees g1 g3.
Proof. induction 1; intros; [assumption|]. econstructor; eauto. Qed.
Lemma frees_keys g g' : frees g g' -> keys g' = keys g.
Proof. induction 1; [reflexivity|]. rewrite IHfrees. apply keys_freed. Qed.
Lemma frees_inv g g' : frees g g' -> inv g -> inv g'.
Proof. induction 1; auto. intros Hi. apply IHfrees. apply freed_inv. exact Hi. Qed.
Lemma frees_shape g g' : frees g g' -> shape g -> shape g'.
Proof. induction 1; auto. intros Hi. apply IHfrees. eapply freed_shape; eauto. Qed.

Lemma free_fuel_frees fuel : forall g k g' r, free_node_fuel fuel g k = Some (g', r) -> frees g g'.
Proof.
  induction fuel as [|fuel IH]; intros g k g' r H; cbn [free_node_fuel] in H;
    (destruct (lookup g k) as [n|] eqn:El; [|injection H as <- _; constructor]);
    (destruct (n_mortal n) eqn:Em; cbn [negb] in H; [|injection H as <- _; constructor]);
    (destruct (is_pending g k) eqn:Ep; [injection H as <- _; constructor|]);
    change (set_pending _ _) with (freed_state g k) in H;
    (destruct (n_strong n) as [dep|]; [|injection H as <- _; econstructor; eauto; constructor]).
  - discriminate.
  - destruct (free_node_fuel fuel (freed_state g k) dep) as [[g2 r2]|] eqn:E; cbn [bind fst] in H; [|discriminate].
    injection H as <- _. econstructor; eauto.
Qed.
Lemma free_ok_frees g k g' : free_ok g k = Some g' -> frees g g'.
Proof.
  unfold free_ok, free_node. destruct (free_node_fuel _ g k) as [[g1 r]|] eqn:E; cbn; [|discriminate].
  intros H; injection H as <-. eapply free_fuel_frees; eauto.
Qed.

(** Freeing always terminates within its fuel. *)
Definition unpending (g : graph) : nat := List.length (filter (fun k => negb (is_pending g k)) (keys g)).
Lemma filter_lt {A} (P Q : A -> bool) l x : (forall y, Q y = true -> P y = true) ->
  In x l -> P x = true -> Q x = false -> List.length (filter Q l) < List.length (filter P l).
Proof.
  intros Himp. assert (Hle : forall l, List.length (filter Q l) <= List.length (filter P l)).
  { induction l0 as [|y l0 IH]; cbn; [lia|]. destruct (Q y) eqn:E; [rewrite (Himp y E); cbn; lia|].
    destruct (P y); cbn; lia. }
  induction l as [|y l IH]; [contradiction|]. intros [->|Hin] Hp Hq; cbn.
  - rewrite Hp, Hq. cbn. specialize (Hle l). lia.
  - specialize (IH Hin Hp Hq). destruct (Q y) eqn:E; [rewrite (Himp y E); cbn; lia|]. destruct (P y); cbn; lia.
Qed.
Lemma unpending_freed g k n : lookup g k = Some n -> is_pending g k = false ->
  unpending (freed_state g k) < unpending g.
Proof.
  intros El Ep. unfold unpending. rewrite keys_freed. apply filter_lt with (x := k).
  - intros y. rewrite pending_freed. destruct (is_pending g y); cbn; auto.
  - eapply lookup_key; eauto.
  - rewrite Ep. reflexivity.
  - rewrite pending_freed, Nat.eqb_refl, orb_true_r. reflexivity.
Qed.
Lemma free_fuel_total fuel : forall g k, unpending g <= fuel -> exists g' r, free_node_fuel fuel g k = Some (g', r).
Proof.
  induction fuel as [|fuel IH]; intros g k Hu; cbn [free_node_fuel];
    (destruct (lookup g k) as [n|] eqn:El; [|unfold fail; eauto]);
    (destruct (n_mortal n); cbn [negb]; [|unfold fail; eauto]);
    (destruct (is_pending g k) eqn:Ep; [eauto|]);
    change (set_pending _ _) with (freed_state g k);
    pose proof (unpending_freed g k n El Ep); (destruct (n_strong n) as [dep|]; [|eauto]); [lia|].
  destruct (IH (freed_state g k) dep) as (g' & r & E); [lia|]. rewrite E. cbn. eauto.
Qed.
Lemma free_node_total g k : exists g' r, free_node g k = Some (g', r).
Proof.
  apply free_fuel_total. unfold unpending. transitivity (List.length (keys g)).
  - generalize (keys g). induction l as [|x l IH]; cbn; [lia|]. destruct (negb _); cbn; lia.
  - unfold keys. rewrite map_length. lia.
Qed.
Lemma free_ok_total g k : exists g', free_ok g k = Some g'.
Proof. destruct (free_node_total g k) as (g' & r & E). unfold free_ok. rewrite E. cbn. eauto. Qed.

(** ** evaluate *)
Definition redirected (g : graph) (k : key) (e : edge) : graph :=
  set_outs (set_nodes g (map_edges (redirect k e) (g_nodes g))) (map (redirect k e) (g_outs g)).

(** What [evaluate] did: either frees only, or a redirection of the single remaining input of an
    automatically inserted sum, then frees. *)
Inductive eval_to (g : graph) (k : key) (g' : graph) : Prop :=
| ev_frees : frees g g' -> eval_to g k g'
| ev_redirect n c e : lookup g k = Some n -> n_auto_math n = true -> in_edge g k c = Some e ->
    in_edge g k (1 - c) = None -> c <= 1 ->
    frees (redirected g k e) g' -> eval_to g k g'.

Lemma in_edge_lookup g k n es c o : lookup g k = Some n -> n_edges n = Some es -> nth_error es c = Some o ->
  in_edge g k c = o.
Proof. intros El Ee Ho. unfold in_edge, edges_of. rewrite El. cbn. rewrite Ee, Ho. reflexivity. Qed.

Lemma evaluate_spec g k g' : evaluate g k = Some g' -> eval_to g k g'.
Proof.
  intros H. unfold evaluate in H.
  destruct (lookup g k) as [n|] eqn:El; cbn [bind] in H; [|discriminate].
  match type of H with (g1 <- ?X ;; _) = _ => destruct X as [g1|] eqn:E1; cbn [bind] in H; [|discriminate] end.
  assert (Hfin : frees g1 g').
  { destruct (lookup g1 k) as [n'|]; cbn [bind] in H; [|discriminate].
    destruct (n_auto_free n'); [|injection H as <-; constructor].
    match type of H with (if ?b then _ else _) = _ => destruct b end.
    - injection H as <-. constructor.
    - eapply free_ok_frees; eauto. }
  destruct (n_auto_math n) eqn:Em; [|injection E1 as <-; apply ev_frees; exact Hfin].
  destruct (negb _); [discriminate|].
  destruct (n_edges n) as [es|] eqn:Ee; [|injection E1 as <-; apply ev_frees; exact Hfin].
  destruct (nth_error es 0) as [e0|] eqn:E0; cbn [bind] in E1; [|discriminate].
  destruct (nth_error es 1) as [e1|] eqn:E01; cbn [bind] in E1; [|discriminate].
  pose proof (in_edge_lookup g k n es 0 e0 El Ee E0) as H0.
  pose proof (in_edge_lookup g k n es 1 e1 El Ee E01) as H1.
  destruct e0 as [e0|], e1 as [e1|].
  - injection E1 as <-. apply ev_frees; exact Hfin.
  - destruct (existsb _ (g_outs g)); [discriminate|].
    eapply (ev_redirect g k g' n 0 e0); eauto.
    eapply frees_trans; [|exact Hfin]. eapply free_ok_frees; eauto.
  - destruct (existsb _ (g_outs g)); [discriminate|].
    eapply (ev_redirect g k g' n 1 e1); eauto.
    eapply frees_trans; [|exact Hfin]. eapply free_ok_frees; eauto.
  - apply ev_frees. eapply frees_trans; [|exact Hfin]. eapply free_ok_frees; eauto.
Qed.
Lemma redirected_shape g k e : shape g -> shape (redirected g k e).
Proof.
  intros Hs. eapply (shape_map (redirect k e) g); [exact Hs|reflexivity|reflexivity| |reflexivity].
  cbn. apply map_length.
Qed.
Lemma redirected_keys g k e : keys (redirected g k e) = keys g.
Proof. unfold keys, redirected; cbn. apply keys_map_edges. Qed.
Lemma eval_keys g k g' : eval_to g k g' -> keys g' = keys g.
Proof.
  destruct 1 as [H|n c e _ _ _ _ _ H]; apply frees_keys in H; [exact H|].
  rewrite H. apply redirected_keys.
Qed.
Lemma eval_shape g k g' : eval_to g k g' -> shape g -> shape g'.
Proof.
  destruct 1 as [H|n c e _ _ _ _ _ H]; intros Hs; eapply frees_shape; eauto.
  apply redirected_shape. exact Hs.
Qed.
Lemma eval_shape' g k g' : evaluate g k = Some g' -> shape g -> shape g'.
Proof. intros H. eapply eval_shape. eapply evaluate_spec; eauto. Qed.
Lemma evaluate_src_shape g o g' : shape g ->
  match o with
  | Some e => match e_src e with Some s => evaluate g s | None => Some g end
  | None => Some g
  end = Some g' -> shape g'.
Proof.
  intros Hi H. destruct o as [e|]; [|injection H as <-; exact Hi].
  destruct (e_src e); [eapply eval_shape'; eauto|injection H as <-; exact Hi].
Qed.

(** ** every edit keeps the shape *)
Lemma shape_outs g outs : shape g -> List.length outs = List.length (g_outs g) -> shape (set_outs g outs).
Proof. intros Hs Hl. eapply shape_frame; [| | | |exact Hs]; auto. Qed.
Lemma shape_additive g : inv g -> shape g -> shape (fst (new_additive_node g)).
Proof.
  intros Hi Hs. unfold new_additive_node.
  pose proof (shape_push g 2 1 [] None (proj1 Hi) Hs) as H.
  pose proof (push_lookup g 2 1 [] None (g_next g) (proj1 Hi)) as Hl. rewrite Nat.eqb_refl in Hl.
  pose proof (push_key g 2 1 [] None) as Hk.
  destruct (push_node g 2 1 [] None) as [g1 k]. cbn [fst snd] in *. subst k.
  apply shape_update; [exact H| |].
  - intros n El. rewrite Hl in El. injection El as <-. intros _. unfold node_ok; cbn. repeat split; try discriminate.
    intros es He; injection He as <-. reflexivity.
  - intros n _. cbn. tauto.
Qed.
Lemma shape_feedback g : inv g -> shape g -> shape (fst (new_feedback_nodes g)).
Proof.
  intros Hi Hs. unfold new_feedback_nodes.
  pose proof (shape_push g 1 0 [] None (proj1 Hi) Hs) as H.
  pose proof (fun k => push_lookup g 1 0 [] None k (proj1 Hi)) as Hl.
  pose proof (push_key g 1 0 [] None) as Hk. pose proof (inv_push g 1 0 [] None Hi) as Hi1.
  pose proof (push_next g 1 0 [] None) as Hn.
  destruct (push_node g 1 0 [] None) as [g1 k]. cbn [fst snd] in *. subst k.
  pose proof (shape_push g1 1 0 [] None (proj1 Hi1) H) as H2.
  pose proof (fun k => push_lookup g1 1 0 [] None k (proj1 Hi1)) as Hl2.
  pose proof (push_key g1 1 0 [] None) as Hk2.
  destruct (push_node g1 1 0 [] None) as [g2 k]. cbn [fst snd] in *. subst k.
  assert (Hok : forall d n, n_auto_math n = false -> node_ok n -> node_ok (n_set_pair d n)).
  { intros d n Hm (X & Y & Z). split; [exact X|split; [|exact Z]]. cbn. congruence. }
  apply shape_update.
  - apply shape_update; [exact H2| |intros n _; cbn; tauto].
    intros n El. rewrite Hl2, Nat.eqb_refl in El. injection El as <-. apply Hok. reflexivity.
  - intros n El. rewrite lookup_update, Hl2, Hl in El. rewrite Hn in El.
    rewrite (proj2 (Nat.eqb_neq (S (g_next g)) (g_next g))) in El by lia.
    rewrite Nat.eqb_refl in El. injection El as <-. apply Hok. reflexivity.
  - intros n _. cbn. tauto.
Qed.
Lemma connect_core_shape g src sink so si fb additive g' :
  inv g -> shape g ->
  (if negb additive then set_edge g sink si (Some (mk_edge src so false))
   else existing <- get_edge g sink si ;;
     match existing with
     | Some e =>
         let '(g4, add) := new_additive_node g in
         g5 <- set_edge g4 add 0 (Some e) ;;
         g6 <- set_edge g5 add 1 (Some (mk_edge src so false)) ;;
         set_edge g6 sink si (Some (mk_edge (Some add) 0 false))
     | None => set_edge g sink si (Some (mk_edge src so fb))
     end) = Some g' -> shape g'.
Proof.
  intros Hi Hs H. destruct additive; cbn [negb] in H; [|eapply shape_set_edge; eauto].
  destruct (get_edge g sink si) as [[e|]|]; cbn [bind] in H; [| |discriminate]; [|eapply shape_set_edge; eauto].
  pose proof (shape_additive g Hi Hs) as H4.
  destruct (new_additive_node g) as [g4 add]. cbn [fst] in H4.
  destruct (set_edge g4 add 0 (Some e)) as [g5|] eqn:E5; cbn [bind] in H; [|discriminate].
  destruct (set_edge g5 add 1 _) as [g6|] eqn:E6; cbn [bind] in H; [|discriminate].
  eapply shape_set_edge; [|exact H]. eapply shape_set_edge; [|exact E6]. eapply shape_set_edge; eauto.
Qed.
Lemma shape_recalc g b : shape g -> shape (set_recalc g b).
Proof. apply shape_frame; reflexivity. Qed.
Lemma connect_to_node_shape g source sink so si additive feedback g' :
  inv g -> shape g -> (forall s, source = Some s -> s < g_next g) ->
  connect_to_node g source sink so si additive feedback = Some g' -> shape g'.
Proof.
  intros Hi Hs Hlt H. unfold connect_to_node in H.
  pose proof (inv_recalc g true Hi) as Hi0. pose proof (shape_recalc g true Hs) as Hs0.
  set (g0 := set_recalc g true) in *.
  destruct feedback.
  - pose proof (shape_feedback g0 Hi0 Hs0) as Hsf. pose proof (new_feedback_spec g0 Hi0) as Hfb.
    destruct (new_feedback_nodes g0) as [g1 [fbs fbk]] eqn:Ef. cbn [fst snd] in Hfb, Hsf.
    destruct Hfb as (Hkeys & Hi1 & Hn1 & Ho1 & Hin1). injection Hkeys as -> ->.
    change (g_next g0) with (g_next g) in *.
    destruct (set_edge g1 (g_next g) 0 _) as [g2|] eqn:E2; cbn [bind] in H; [|discriminate].
    assert (Hi2 : inv g2).
    { eapply inv_set_edge; [exact Hi1|exact E2|]. cbn [e_src]. intros s Hs'. split.
      - rewrite Hn1. specialize (Hlt s Hs'). cbn. lia.
      - intros Hr. apply unread_reaches in Hr.
        + specialize (Hlt s Hs'). cbn in Hr. lia.
        + intros k c e He Hes. rewrite Hin1 in He. pose proof (bi_in g0 (proj1 Hi0) _ _ _ _ He Hes).
          change (g_next g0) with (g_next g) in *. lia. }
    eapply connect_core_shape; [exact Hi2| |exact H]. eapply shape_set_edge; eauto.
  - cbn [bind] in H. eapply connect_core_shape; eauto.
Qed.
Lemma connect_to_output_shape g source so si additive g' : inv g -> shape g ->
  connect_to_output g source so si additive = Some g' -> shape g'.
Proof.
  intros Hi Hs H. unfold connect_to_output in H.
  pose proof (inv_recalc g true Hi) as Hi0. pose proof (shape_recalc g true Hs) as Hs0.
  set (g0 := set_recalc g true) in *.
  assert (Hd : forall g1 e o, shape g1 -> set_nth (g_outs g1) si e = Some o -> shape (set_outs g1 o)).
  { intros g1 e o H1 Ho. apply shape_outs; [exact H1|]. eapply set_nth_length; eauto. }
  destruct additive; cbn [negb] in H.
  2: { destruct (set_nth _ _ _) as [o|] eqn:E; cbn [bind] in H; [|discriminate]. injection H as <-. eauto. }
  destruct (nth_error (g_outs g0) si) as [ex|] eqn:Eg; cbn [bind] in H; [|discriminate].
  destruct ex as [e|].
  2: { destruct (set_nth _ _ _) as [o|] eqn:E; cbn [bind] in H; [|discriminate]. injection H as <-. eauto. }
  pose proof (shape_additive g0 Hi0 Hs0) as H4.
  destruct (new_additive_node g0) as [g4 add]. cbn [fst] in H4.
  destruct (set_edge g4 add 0 (Some e)) as [g5|] eqn:E5; cbn [bind] in H; [|discriminate].
  destruct (set_edge g5 add 1 _) as [g6|] eqn:E6; cbn [bind] in H; [|discriminate].
  destruct (set_nth (g_outs g6) si _) as [o|] eqn:E; cbn [bind] in H; [|discriminate]. injection H as <-.
  eapply Hd; [|exact E]. eapply shape_set_edge; [|exact E6]. eapply shape_set_edge; eauto.
Qed.
Lemma shape_set_pedges g k ps : shape g ->
  (forall n, lookup g k = Some n -> n_pedges n <> None) ->
  shape (update g k (fun n => n_set_pedges n (Some ps))).
Proof.
  intros Hs Hp. apply shape_update; [exact Hs| |intros n _; cbn; tauto].
  intros n El (X & Y & Z). split; [exact X|split; [exact Y|]]. cbn. specialize (Hp n El).
  split; [|discriminate]. intros He. apply Z in He. contradiction.
Qed.
Lemma connect_to_parameter_shape g source so p sink additive g' r : inv g -> shape g ->
  connect_to_parameter g source so p sink additive = Some (g', r) -> shape g'.
Proof.
  intros Hi Hs H. unfold connect_to_parameter in H.
  assert (Hf : forall e, fail g e = Some (g', r) -> shape g').
  { intros e He. injection He as <- _. exact Hs. }
  destruct (wrong_graph g source); [eauto|]. destruct (wrong_graph g sink); [eauto|].
  destruct (lookup g (id_key sink)) as [nk|] eqn:Ek; cbn [bind] in H; [|discriminate].
  destruct (match p with PIndex i => _ | PDesc d => _ end) as [idx|]; [|eauto].
  destruct (lookup g (id_key source)) as [ns|] eqn:Es; [|eauto].
  destruct (n_outputs ns <=? so); [eauto|].
  destruct (pedges_of g (id_key sink)) as [edges|] eqn:Ep; cbn [bind] in H; [|discriminate].
  assert (Hpe : forall n, lookup g (id_key sink) = Some n -> n_pedges n <> None).
  { intros n En. unfold pedges_of in Ep. rewrite En in Ep. cbn in Ep. congruence. }
  destruct additive.
  - destruct (find_param idx edges) as [pos|].
    + destruct (nth_error edges pos) as [ex|] eqn:Ex; cbn [bind] in H; [|discriminate].
      destruct (swap_remove edges pos) as [edges'|] eqn:Esw; cbn [bind] in H; [|discriminate].
      set (g1 := update g (id_key sink) (fun n => n_set_pedges n (Some edges'))) in *.
      assert (Hs1 : shape g1) by (apply shape_set_pedges; auto).
      assert (Hi1 : inv g1).
      { apply inv_set_pedges; [exact Hi|]. intros q Hq.
        apply (bi_par g (proj1 Hi) (id_key sink)). exists edges. split; [exact Ep|].
        eapply swap_remove_incl; eauto. }
      pose proof (new_additive_spec g1 Hi1) as (Hw & _ & _ & _ & _ & Hp4 & _).
      pose proof (shape_additive g1 Hi1 Hs1) as H4.
      destruct (new_additive_node g1) as [g4 add] eqn:Ea. cbn [fst snd] in *. subst add.
      destruct (set_edge g4 (g_next g1) 0 _) as [g5|] eqn:E5; cbn [bind] in H; [|discriminate].
      destruct (set_edge g5 (g_next g1) 1 _) as [g6|] eqn:E6; cbn [bind] in H; [|discriminate].
      injection H as <- _. apply shape_set_pedges.
      * eapply shape_set_edge; [|exact E6]. eapply shape_set_edge; eauto.
      * intros n En. destruct (set_edge_frame _ _ _ _ _ E5) as (_ & _ & _ & _ & _ & _ & _ & _ & Hp5).
        destruct (set_edge_frame _ _ _ _ _ E6) as (_ & _ & _ & _ & _ & _ & _ & _ & Hp6).
        specialize (Hp6 (id_key sink)). rewrite Hp5, Hp4 in Hp6. unfold pedges_of in Hp6 at 1.
        rewrite En in Hp6. cbn [bind] in Hp6. rewrite Hp6. destruct (_ =? _); [discriminate|].
        unfold pedges_of, g1. rewrite lookup_update, Nat.eqb_refl, Ek. cbn. discriminate.
    + injection H as <- _. apply shape_set_pedges; auto.
  - injection H as <- _. apply shape_set_pedges; auto.
Qed.
Lemma disconnect_output_shape g source ch g' r : shape g -> disconnect_output g source ch = Some (g', r) -> shape g'.
Proof.
  intros Hi H. unfold disconnect_output in H.
  assert (Hfin : forall g0 s, shape g0 ->
    shape (set_recalc (set_outs (set_nodes g0 (map_edges (clear_if (from_output s ch)) (g_nodes g0)))
           (map (clear_if (from_output s ch)) (g_outs g0))) true)).
  { intros g0 s H0. eapply (shape_map (clear_if (from_output s ch)) g0); [exact H0|reflexivity|reflexivity| |reflexivity].
    cbn. apply map_length. }
  destruct source as [|id].
  - destruct (g_inputs g <=? ch); [injection H as <- _; exact Hi|].
    destruct (nth_error (g_outs g) ch) as [o|]; cbn [bind] in H; [|discriminate].
    destruct (set_nth (g_outs g) ch None) as [outs|] eqn:Eo; cbn [bind] in H; [|discriminate].
    match type of H with (g2 <- ?X ;; _) = _ => destruct X as [g2|] eqn:E2; cbn [bind] in H; [|discriminate] end.
    injection H as <- _. apply Hfin. eapply evaluate_src_shape; [|exact E2].
    apply shape_outs; [exact Hi|]. eapply set_nth_length; eauto.
  - destruct (negb _); [injection H as <- _; exact Hi|].
    destruct (lookup g (id_key id)); [|injection H as <- _; exact Hi].
    destruct (_ <=? ch); injection H as <- _; [exact Hi|]. apply Hfin. exact Hi.
Qed.
Lemma disconnect_input_shape g ch sink g' r : shape g -> disconnect_input g ch sink = Some (g', r) -> shape g'.
Proof.
  intros Hi H. unfold disconnect_input in H. destruct sink as [|id].
  - destruct (g_outputs g <=? ch); [injection H as <- _; exact Hi|].
    destruct (nth_error (g_outs g) ch) as [o|]; cbn [bind] in H; [|discriminate].
    destruct (set_nth (g_outs g) ch None) as [outs|] eqn:Eo; cbn [bind] in H; [|discriminate].
    match type of H with (g2 <- ?X ;; _) = _ => destruct X as [g2|] eqn:E2; cbn [bind] in H; [|discriminate] end.
    injection H as <- _. eapply evaluate_src_shape; [|exact E2].
    apply shape_outs; [exact Hi|]. eapply set_nth_length; eauto.
  - destruct (negb _); [injection H as <- _; exact Hi|].
    destruct (lookup g (id_key id)) as [n|]; [|injection H as <- _; exact Hi].
    destruct (n_edges n) as [es|]; cbn [bind] in H; [|discriminate].
    destruct (_ <=? ch); [injection H as <- _; exact Hi|].
    destruct (nth_error es ch) as [o|]; cbn [bind] in H; [|discriminate].
    destruct (set_edge g (id_key id) ch None) as [g1|] eqn:E1; cbn [bind] in H; [|discriminate].
    assert (Hi1 : shape g1) by (eapply shape_set_edge; eauto).
    match type of H with (g2 <- ?X ;; _) = _ => destruct X as [g2|] eqn:E2; cbn [bind] in H; [|discriminate] end.
    injection H as <- _. apply shape_recalc. destruct o as [e|]; [|injection E2 as <-; exact Hi1].
    destruct (evaluate g1 (id_key id)) as [g3|] eqn:E3; cbn [bind] in E2; [|discriminate].
    pose proof (eval_shape' _ _ _ E3 Hi1) as Hi3.
    destruct (e_src e); [eapply eval_shape'; eauto|injection E2 as <-; exact Hi3].
Qed.
Lemma fold_opt_shape {A} (f : graph -> A -> option graph) :
  (forall g x g', shape g -> f g x = Some g' -> shape g') ->
  forall l g g', shape g -> fold_opt f g l = Some g' -> shape g'.
Proof.
  intros Hf. induction l as [|x l IH]; intros g g' Hi H; cbn [fold_opt] in H.
  - injection H as <-. exact Hi.
  - destruct (f g x) as [g1|] eqn:E; cbn [bind] in H; [|discriminate]. eapply IH; [|exact H]. eapply Hf; eauto.
Qed.

Definition gone (applied : nat -> bool) (g : graph) : list key :=
  map fst (filter (fun p => applied (snd p)) (g_pending g)).
Definition swept (applied : nat -> bool) (g : graph) : graph :=
  set_pending
    (set_nodes g (filter (fun kn => negb (existsb (Nat.eqb (fst kn)) (gone applied g))) (g_nodes g)))
    (filter (fun p => negb (applied (snd p))) (g_pending g)).
Lemma existsb_eqb_In l k : existsb (Nat.eqb k) l = true <-> In k l.
Proof.
  rewrite existsb_exists. split.
  - intros (x & Hin & E). apply Nat.eqb_eq in E. subst. exact Hin.
  - intros Hin. exists k. split; [exact Hin|apply Nat.eqb_refl].
Qed.
Lemma NoDup_fst_fun {A B} (l : list (A * B)) a b b' : NoDup (map fst l) -> In (a, b) l -> In (a, b') l -> b = b'.
Proof.
  induction l as [|[a0 b0] l IH]; cbn; [tauto|]. intros H. inversion H as [|? ? Hn Hd]; subst.
  intros [E1|H1] [E2|H2].
  - congruence.
  - injection E1 as -> ->. exfalso. apply Hn. apply in_map_iff. exists (a, b'). auto.
  - injection E2 as -> ->. exfalso. apply Hn. apply in_map_iff. exists (a, b). auto.
  - auto.
Qed.
Lemma lookup_swept applied g k :
  lookup (swept applied g) k = if existsb (Nat.eqb k) (gone applied g) then None else lookup g k.
Proof.
  unfold lookup, swept; cbn [g_nodes set_pending set_nodes].
  rewrite (nlookup_filter (g_nodes g) (fun k => negb (existsb (Nat.eqb k) (gone applied g)))).
  destruct (existsb _ _); reflexivity.
Qed.
Lemma pending_swept applied g k : NoDup (map fst (g_pending g)) ->
  is_pending (swept applied g) k = is_pending g k && negb (existsb (Nat.eqb k) (gone applied g)).
Proof.
  intros Hnd. apply eq_true_iff_eq. rewrite andb_true_iff, negb_true_iff, !is_pending_In.
  unfold swept; cbn [g_pending set_pending]. rewrite !in_map_iff. split.
  - intros ([k' f] & <- & Hin). cbn. apply filter_In in Hin as [Hin Hf]. cbn in Hf. split.
    + exists (k', f). auto.
    + apply not_true_iff_false. rewrite existsb_eqb_In. unfold gone. rewrite in_map_iff.
      intros ([k2 f2] & E & Hin2). cbn in E. subst k2. apply filter_In in Hin2 as [Hin2 Hf2]. cbn in Hf2.
      rewrite (NoDup_fst_fun _ _ _ _ Hnd Hin Hin2) in Hf. rewrite Hf2 in Hf. discriminate.
  - intros [([k' f] & <- & Hin) Hn]. cbn in *. exists (k', f). split; [reflexivity|].
    apply filter_In. split; [exact Hin|]. cbn. destruct (applied f) eqn:E; [|reflexivity].
    exfalso. apply not_true_iff_false in Hn. apply Hn. apply existsb_eqb_In. unfold gone. apply in_map_iff.
    exists (k', f). split; [reflexivity|]. apply filter_In. auto.
Qed.
Lemma swept_shape applied g : shape g -> shape (swept applied g).
Proof.
  intros [A B C D E]. constructor.
  - exact A.
  - intros k n. rewrite lookup_swept. destruct (existsb _ _); [discriminate|]. apply B.
  - intros k n. rewrite lookup_swept, pending_swept by exact E.
    destruct (existsb _ _); [discriminate|]. rewrite andb_true_r. apply C.
  - intros k Hk. assert (Hp : is_pending (swept applied g) k = true) by (apply is_pending_In; exact Hk).
    rewrite pending_swept in Hp by exact E. apply andb_true_iff in Hp as [Hp Hn].
    unfold keys, swept; cbn. apply is_pending_In in Hp. apply D in Hp.
    apply in_map_iff in Hp as (x & <- & Hx). apply in_map. apply filter_In. auto.
  - cbn. apply NoDup_map_filter. exact E.
Qed.
Lemma free_old_unfold applied g g' : free_old applied g = Some g' ->
  exists g1 g2, fold_opt free_ok g (raised (g_nodes g)) = Some g1 /\
    fold_opt evaluate g1 (keys g1) = Some g2 /\ g' = swept applied g2.
Proof.
  unfold free_old. destruct (fold_opt free_ok g _) as [g1|] eqn:E1; cbn [bind]; [|discriminate].
  destruct (fold_opt evaluate g1 _) as [g2|] eqn:E2; cbn [bind]; [|discriminate].
  intros H; injection H as <-. exists g1, g2. auto.
Qed.
Lemma free_old_shape applied g g' : shape g -> free_old applied g = Some g' -> shape g'.
Proof.
  intros Hs H. apply free_old_unfold in H as (g1 & g2 & E1 & E2 & ->). apply swept_shape.
  eapply (fold_opt_shape evaluate); [| |exact E2].
  - intros. eapply eval_shape'; eauto.
  - eapply (fold_opt_shape free_ok); [| |exact E1].
    + intros. eapply frees_shape; [|eassumption]. eapply free_ok_frees; eauto.
    + exact Hs.
Qed.
Lemma connect2_shape g s so si k a f g' r : wf g -> connect2 g s so si k a f = Some (g', r) -> shape g'.
Proof.
  intros [Hi Hs] H.
  assert (Hlk : forall id n, lookup g (id_key id) = Some n -> id_key id < g_next g).
  { intros id n Hl. apply (bi_lt g (proj1 Hi)). eapply lookup_key; eauto. }
  unfold connect2 in H. destruct s as [|s], k as [|k].
  - unfold connect_input_to_output in H.
    destruct (_ <=? so); [injection H as <- _; exact Hs|].
    destruct (_ <=? si); [injection H as <- _; exact Hs|].
    apply done_inv in H. eapply connect_to_output_shape; eauto.
  - unfold connect_input_to_node in H.
    destruct (wrong_graph g k); [injection H as <- _; exact Hs|].
    destruct (_ <=? so); [injection H as <- _; exact Hs|].
    destruct (lookup g (id_key k)) as [nk|] eqn:Ek; [|injection H as <- _; exact Hs].
    destruct (_ <=? si); [injection H as <- _; exact Hs|].
    apply done_inv in H. eapply connect_to_node_shape; [exact Hi|exact Hs| |exact H]. discriminate.
  - unfold connect_node_to_output in H.
    destruct (wrong_graph g s); [injection H as <- _; exact Hs|].
    destruct (_ <=? si); [injection H as <- _; exact Hs|].
    destruct (lookup g (id_key s)) as [ns|] eqn:Es; [|injection H as <- _; exact Hs].
    destruct (_ <=? so); [injection H as <- _; exact Hs|].
    apply done_inv in H. eapply connect_to_output_shape; eauto.
  - unfold connect_nodes in H.
    destruct (wrong_graph g s); [injection H as <- _; exact Hs|].
    destruct (wrong_graph g k); [injection H as <- _; exact Hs|].
    destruct (lookup g (id_key s)) as [ns|] eqn:Es; [|injection H as <- _; exact Hs].
    destruct (_ <=? so); [injection H as <- _; exact Hs|].
    destruct (lookup g (id_key k)) as [nk|] eqn:Ek; [|injection H as <- _; exact Hs].
    destruct (_ <=? si); [injection H as <- _; exact Hs|].
    match type of H with (circular <- ?X ;; _) = _ => destruct X as [b|] eqn:Ec; cbn [bind] in H; [|discriminate] end.
    destruct b; [injection H as <- _; exact Hs|].
    apply done_inv in H. eapply connect_to_node_shape; [exact Hi|exact Hs| |exact H].
    intros x Hx. injection Hx as <-. eapply Hlk; eauto.
Qed.
Lemma step_shape g o g' r : wf g -> step g o = Some (g', r) -> shape g'.
Proof.
  intros [Hi Hs] H. destruct o; cbn [step] in H.
  - injection H as <- _. apply shape_push; [exact (proj1 Hi)|exact Hs].
  - eapply connect2_shape; [split; eassumption|exact H].
  - eapply connect_to_parameter_shape; eauto.
  - eapply disconnect_output_shape; eauto.
  - eapply disconnect_input_shape; eauto.
  - unfold edit_free in H. destruct (wrong_graph g id); [injection H as <- _; exact Hs|].
    eapply frees_shape; [|exact Hs]. eapply free_fuel_frees; eauto.
  - unfold set_mortality in H. destruct (lookup g (id_key id)); injection H as <- _; [|exact Hs].
    apply shape_update; [exact Hs|auto|cbn; tauto].
  - injection H as <- _. apply shape_update; [exact Hs|auto|cbn; tauto].
  - apply done_inv in H. unfold commit_edit in H.
    destruct (free_old _ g) as [g1|] eqn:E; cbn [bind] in H; [|discriminate].
    pose proof (free_old_shape _ _ _ Hs E) as Hs1.
    destruct (g_recalc g1); injection H as <-; [|exact Hs1].
    eapply shape_frame; [| | | |exact Hs1]; reflexivity.
Qed.
Lemma step_wf g o g' r : wf g -> step g o = Some (g', r) -> wf g'.
Proof. intros Hw H. split; [eapply step_inv; [exact (proj1 Hw)|exact H]|eapply step_shape; eauto]. Qed.
Lemma run_wf ops : forall g g', wf g -> run g ops = Some g' -> wf g'.
Proof.
  induction ops as [|o ops IH]; intros g g' Hi H; cbn [run] in H.
  - injection H as <-. exact Hi.
  - destruct (step g o) as [[g1 r]|] eqn:E; cbn [bind fst] in H; [|discriminate].
    eapply IH; [|exact H]. eapply step_wf; eauto.
Qed.
Lemma graph_new_wf id i o slots : wf (graph_new id i o slots).
Proof.
  split; [apply graph_new_inv|]. constructor; cbn.
  - apply repeat_length.
  - discriminate.
  - discriminate.
  - tauto.
  - constructor.
Qed.
Lemma reachable_wf g : reachable g -> wf g.
Proof. intros (id & i & o & slots & ops & H). eapply run_wf; [|exact H]. apply graph_new_wf. Qed.

(** ** a failed edit changes nothing *)
Lemma free_fuel_err fuel g k g' e : free_node_fuel fuel g k = Some (g', Err e) -> g' = g.
Proof.
  destruct fuel as [|fuel]; cbn [free_node_fuel];
    (destruct (lookup g k) as [n|]; [|intros H; injection H as <- _; reflexivity]);
    (destruct (n_mortal n); cbn [negb]; [|intros H; injection H as <- _; reflexivity]);
    (destruct (is_pending g k); [discriminate|]); (destruct (n_strong n); [|discriminate]).
  - discriminate.
  - destruct (free_node_fuel fuel _ _); cbn; discriminate.
Qed.
Lemma done_err x g' e : done x = Some (g', Err e) -> False.
Proof. unfold done. destruct x; cbn; discriminate. Qed.
Ltac fail_case H := first [ injection H as <- _; reflexivity | exfalso; exact (done_err _ _ _ H) | discriminate H ].
Lemma step_err g o g' e : step g o = Some (g', Err e) -> g' = g.
Proof.
  intros H. destruct o; cbn [step] in H.
  - discriminate.
  - unfold connect2 in H. destruct source as [|s], sink as [|k].
    + unfold connect_input_to_output in H. repeat (destruct (_ <=? _) in H; [fail_case H|]). fail_case H.
    + unfold connect_input_to_node in H. destruct (wrong_graph g k); [fail_case H|].
      destruct (_ <=? so); [fail_case H|]. destruct (lookup g (id_key k)); [|fail_case H].
      destruct (_ <=? si); fail_case H.
    + unfold connect_node_to_output in H. destruct (wrong_graph g s); [fail_case H|].
      destruct (_ <=? si); [fail_case H|]. destruct (lookup g (id_key s)); [|fail_case H].
      destruct (_ <=? so); fail_case H.
    + unfold connect_nodes in H. destruct (wrong_graph g s); [fail_case H|].
      destruct (wrong_graph g k); [fail_case H|].
      destruct (lookup g (id_key s)); [|fail_case H]. destruct (_ <=? so); [fail_case H|].
      destruct (lookup g (id_key k)); [|fail_case H]. destruct (_ <=? si); [fail_case H|].
      match type of H with (circular <- ?X ;; _) = _ => destruct X as [[|]|]; cbn [bind] in H end; fail_case H.
  - unfold connect_to_parameter in H. destruct (wrong_graph g source); [fail_case H|].
    destruct (wrong_graph g sink); [fail_case H|].
    destruct (lookup g (id_key sink)); cbn [bind] in H; [|fail_case H].
    destruct (match p with PIndex i => _ | PDesc d => _ end); [|fail_case H].
    destruct (lookup g (id_key source)); [|fail_case H]. destruct (_ <=? so); [fail_case H|].
    destruct (pedges_of g (id_key sink)); cbn [bind] in H; [|fail_case H].
    destruct additive; [|fail_case H]. destruct (find_param _ _); [|fail_case H].
    destruct (nth_error _ _); cbn [bind] in H; [|fail_case H].
    destruct (swap_remove _ _); cbn [bind] in H; [|fail_case H].
    destruct (new_additive_node _).
    destruct (set_edge _ _ 0 _); cbn [bind] in H; [|fail_case H].
    destruct (set_edge _ _ 1 _); cbn [bind] in H; fail_case H.
  - unfold disconnect_output in H. destruct source as [|id].
    + destruct (_ <=? ch); [fail_case H|].
      destruct (nth_error _ _); cbn [bind] in H; [|fail_case H].
      destruct (set_nth _ _ _); cbn [bind] in H; [|fail_case H].
      match type of H with (g2 <- ?X ;; _) = _ => destruct X; cbn [bind] in H end; fail_case H.
    + destruct (negb _); [fail_case H|]. destruct (lookup g (id_key id)); [|fail_case H].
      destruct (_ <=? ch); fail_case H.
  - unfold disconnect_input in H. destruct sink as [|id].
    + destruct (_ <=? ch); [fail_case H|].
      destruct (nth_error _ _); cbn [bind] in H; [|fail_case H].
      destruct (set_nth _ _ _); cbn [bind] in H; [|fail_case H].
      match type of H with (g2 <- ?X ;; _) = _ => destruct X; cbn [bind] in H end; fail_case H.
    + destruct (negb _); [fail_case H|]. destruct (lookup g (id_key id)) as [n|]; [|fail_case H].
      destruct (n_edges n); cbn [bind] in H; [|fail_case H].
      destruct (_ <=? ch); [fail_case H|].
      destruct (nth_error _ _); cbn [bind] in H; [|fail_case H].
      destruct (set_edge _ _ _ _); cbn [bind] in H; [|fail_case H].
      match type of H with (g2 <- ?X ;; _) = _ => destruct X; cbn [bind] in H end; fail_case H.
  - unfold edit_free in H. destruct (wrong_graph g id); [fail_case H|]. eapply free_fuel_err; eauto.
  - unfold set_mortality in H. destruct (lookup g (id_key id)); fail_case H.
  - discriminate.
  - fail_case H.
Qed.
