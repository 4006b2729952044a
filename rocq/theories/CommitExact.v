(** Exactly when the clean-up of a commit panics, for graphs without feedback pairs. *)
From Verif Require Import Base GraphModel GraphSpec GraphBase GraphPath GraphInv GraphShape GraphSums GraphRefs
  GraphClean GraphStep ExactSpec.
Local Open Scope nat_scope.

Lemma free_ok_dead g k n : shape g -> lookup g k = Some n -> n_edges n = None -> free_ok g k = Some g.
Proof.
  intros Hs El Ee. unfold free_ok, free_node. cbn [free_node_fuel]. rewrite El.
  rewrite (proj1 (sh_pend g Hs k n El) Ee). destruct (negb (n_mortal n)); reflexivity.
Qed.
Lemma nlookup_in l k n : nlookup l k = Some n -> In (k, n) l.
Proof.
  induction l as [|[k0 n0] l IH]; cbn; [discriminate|]. destruct (Nat.eqb_spec k0 k) as [->|]; [|auto].
  intros H; injection H as <-. auto.
Qed.

(** Nodes that are no sums with a missing input and no idle feedback half are left alone. *)
Lemma eval_same g k n : shape g -> lookup g k = Some n ->
  (live g k -> summing g k = true -> in_edge g k 0 <> None /\ in_edge g k 1 <> None) ->
  (n_edges n <> None -> n_auto_free n = true -> (exists c, in_edge g k c <> None) \/ exists k', feeds g k k') ->
  evaluate g k = Some g.
Proof.
  intros Hs El Hsum Hfree. unfold evaluate. rewrite El. cbn [bind].
  destruct (n_auto_math n) eqn:Em.
  - destruct (sh_node g Hs k n El) as (Hlen & Hmath & _). destruct (Hmath Em) as (Hi & Hou & _ & _).
    rewrite Hi, Hou. cbn [Nat.eqb andb negb].
    assert (Hmid : match n_edges n with
       | None => Some g
       | Some es => e0 <- nth_error es 0 ;; e1 <- nth_error es 1 ;;
           match e0, e1 with
           | Some _, Some _ => Some g
           | None, Some e | Some e, None =>
               if existsb (fun o => match o with None => true | Some _ => false end) (g_outs g) then None
               else free_ok (set_outs (set_nodes g (map_edges (redirect k e) (g_nodes g))) (map (redirect k e) (g_outs g))) k
           | None, None => free_ok g k
           end
       end = Some g).
    { destruct (n_edges n) as [es|] eqn:Ee; [|reflexivity].
      specialize (Hlen es eq_refl). rewrite Hi in Hlen. destruct es as [|e0 [|e1 [|]]]; try discriminate.
      cbn [nth_error bind].
      destruct Hsum as [A B]; [exists n; eauto|unfold summing; rewrite El; exact Em|].
      rewrite (in_edge_lookup g k n _ 0 e0 El Ee eq_refl) in A. rewrite (in_edge_lookup g k n _ 1 e1 El Ee eq_refl) in B.
      destruct e0 as [e0|], e1 as [e1|]; congruence. }
    rewrite Hmid. cbn [bind]. rewrite El. cbn [bind].
    destruct (n_auto_free n) eqn:Ea; [|reflexivity].
    match goal with |- (if ?a || ?b then _ else _) = _ => destruct a eqn:Ha; [reflexivity|]; destruct b eqn:Hb; [reflexivity|] end.
    destruct (n_edges n) as [es|] eqn:Ee; [|eapply free_ok_dead; eauto].
    exfalso. destruct Hfree as [[c Hc]|(k' & c & e & Hin & Hsrc)]; [congruence|reflexivity| |].
    + unfold in_edge, edges_of in Hc. rewrite El in Hc. cbn in Hc. rewrite Ee in Hc.
      destruct (nth_error es c) as [[x|]|] eqn:En; try congruence.
      assert (Ht : existsb (fun o : option edge => match o with Some _ => true | None => false end) es = true)
        by (apply existsb_exists; exists (Some x); split; [eapply nth_error_In; eauto|reflexivity]).
      congruence.
    + unfold in_edge, edges_of in Hin. destruct (lookup g k') as [n'|] eqn:El'; cbn in Hin; [|discriminate].
      destruct (n_edges n') as [es'|] eqn:Ee'; [|discriminate].
      destruct (nth_error es' c) as [o|] eqn:En; [|discriminate]. subst o.
      apply not_true_iff_false in Hb. apply Hb. apply existsb_exists. exists (k', n').
      split; [apply nlookup_in; exact El'|]. cbn. rewrite Ee'. apply existsb_exists. exists (Some e).
      split; [eapply nth_error_In; eauto|]. apply from_key_spec. exact Hsrc.
  - cbn [bind]. rewrite El. cbn [bind].
    destruct (n_auto_free n) eqn:Ea; [|reflexivity].
    match goal with |- (if ?a || ?b then _ else _) = _ => destruct a eqn:Ha; [reflexivity|]; destruct b eqn:Hb; [reflexivity|] end.
    destruct (n_edges n) as [es|] eqn:Ee; [|eapply free_ok_dead; eauto].
    exfalso. destruct Hfree as [[c Hc]|(k' & c & e & Hin & Hsrc)]; [congruence|reflexivity| |].
    + unfold in_edge, edges_of in Hc. rewrite El in Hc. cbn in Hc. rewrite Ee in Hc.
      destruct (nth_error es c) as [[x|]|] eqn:En; try congruence.
      assert (Ht : existsb (fun o : option edge => match o with Some _ => true | None => false end) es = true)
        by (apply existsb_exists; exists (Some x); split; [eapply nth_error_In; eauto|reflexivity]).
      congruence.
    + unfold in_edge, edges_of in Hin. destruct (lookup g k') as [n'|] eqn:El'; cbn in Hin; [|discriminate].
      destruct (n_edges n') as [es'|] eqn:Ee'; [|discriminate].
      destruct (nth_error es' c) as [o|] eqn:En; [|discriminate]. subst o.
      apply not_true_iff_false in Hb. apply Hb. apply existsb_exists. exists (k', n').
      split; [apply nlookup_in; exact El'|]. cbn. rewrite Ee'. apply existsb_exists. exists (Some e).
      split; [eapply nth_error_In; eauto|]. apply from_key_spec. exact Hsrc.
Qed.

(** An inserted sum with exactly one input, in a graph with an unconnected output: panic. *)
Lemma eval_panics g k : shape g -> live g k -> summing g k = true ->
  (in_edge g k 0 <> None \/ in_edge g k 1 <> None) -> (in_edge g k 0 = None \/ in_edge g k 1 = None) ->
  (exists c, c < g_outputs g /\ out_edge g c = None) -> evaluate g k = None.
Proof.
  intros Hs (n & es & El & Ee) Hk H H' (c & Hc & Ho).
  assert (Em : n_auto_math n = true) by (unfold summing in Hk; rewrite El in Hk; exact Hk).
  assert (Hx : existsb (fun o : option edge => match o with None => true | Some _ => false end) (g_outs g) = true).
  { apply existsb_exists. unfold out_edge in Ho. rewrite <- (sh_outs g Hs) in Hc. apply nth_error_Some in Hc.
    destruct (nth_error (g_outs g) c) as [o|] eqn:E; [|congruence]. exists o. split; [eapply nth_error_In; eauto|].
    destruct o; [discriminate|reflexivity]. }
  unfold evaluate. rewrite El. cbn [bind]. rewrite Em.
  destruct (sh_node g Hs k n El) as (Hlen & Hmath & _). destruct (Hmath Em) as (Hi & Hou & _ & _).
  rewrite Hi, Hou. cbn [Nat.eqb andb negb]. rewrite Ee.
  specialize (Hlen es Ee). rewrite Hi in Hlen. destruct es as [|e0 [|e1 [|]]]; try discriminate.
  cbn [nth_error bind].
  rewrite (in_edge_lookup g k n _ 0 e0 El Ee eq_refl), (in_edge_lookup g k n _ 1 e1 El Ee eq_refl) in H.
  rewrite (in_edge_lookup g k n _ 0 e0 El Ee eq_refl), (in_edge_lookup g k n _ 1 e1 El Ee eq_refl) in H'.
  destruct e0 as [e0|], e1 as [e1|]; rewrite ?Hx; try reflexivity; exfalso; destruct H, H'; congruence.
Qed.

(** A sum with both inputs, or a node that is no sum. *)
Definition whole (g : graph) (k : key) : Prop := live g k -> summing g k = true ->
  in_edge g k 0 <> None /\ in_edge g k 1 <> None.
Lemma whole_dec g k : whole g k \/
  (live g k /\ summing g k = true /\ (in_edge g k 0 = None \/ in_edge g k 1 = None)).
Proof.
  unfold whole. destruct (edges_of g k) as [es|] eqn:E.
  - assert (Hl : live g k).
    { unfold edges_of in E. destruct (lookup g k) as [n|] eqn:El; [|discriminate]. exists n, es. auto. }
    destruct (summing g k); [|left; intros; discriminate].
    destruct (in_edge g k 0) eqn:E0; [|right; auto]. destruct (in_edge g k 1) eqn:E1; [|right; auto].
    left. intros _ _. split; discriminate.
  - left. intros (n & es & El & Ee) _. unfold edges_of in E. rewrite El in E. cbn in E. congruence.
Qed.
Lemma fold_same g l : shape g -> halves_used g -> incl l (keys g) -> (forall k, In k l -> whole g k) ->
  fold_opt evaluate g l = Some g.
Proof.
  intros Hs Hh. induction l as [|k l IH]; intros Hl Hw; [reflexivity|]. cbn [fold_opt].
  assert (exists n, lookup g k = Some n) as [n El] by (apply In_keys_lookup; apply Hl; left; reflexivity).
  rewrite (eval_same g k n Hs El (Hw k (or_introl eq_refl)) (Hh k n El)). cbn [bind].
  apply IH; [intros x Hx; apply Hl; right; exact Hx|intros x Hx; apply Hw; right; exact Hx].
Qed.
Lemma fold_panics g l k : shape g -> halves_used g -> sums_fed g -> incl l (keys g) ->
  (exists c, c < g_outputs g /\ out_edge g c = None) -> In k l -> ~ whole g k -> fold_opt evaluate g l = None.
Proof.
  intros Hs Hh Hf. revert k. induction l as [|k0 l IH]; intros k Hl Ho Hin Hk; [destruct Hin|]. cbn [fold_opt].
  assert (exists n, lookup g k0 = Some n) as [n El] by (apply In_keys_lookup; apply Hl; left; reflexivity).
  destruct (whole_dec g k0) as [Hw|(Hlive & Hsum & Hmiss)].
  - rewrite (eval_same g k0 n Hs El Hw (Hh k0 n El)). cbn [bind].
    apply IH with (k := k); [intros x Hx; apply Hl; right; exact Hx|exact Ho| |exact Hk].
    destruct Hin as [<-|Hin]; [contradiction|exact Hin].
  - rewrite (eval_panics g k0 Hs Hlive Hsum (Hf k0 Hlive Hsum) Hmiss Ho). reflexivity.
Qed.
Lemma naf_halves g : no_auto_free g -> halves_used g.
Proof. intros H k n El _ E. rewrite (H k n El) in E. discriminate. Qed.
Lemma outs_all_dec g : outs_all g \/ exists c, c < g_outputs g /\ out_edge g c = None.
Proof.
  unfold outs_all. induction (g_outputs g) as [|m IH]; [left; lia|].
  destruct IH as [IH|(c & Hc & E)]; [|right; exists c; split; [lia|exact E]].
  destruct (out_edge g m) eqn:E; [|right; exists m; auto].
  left. intros c Hc. destruct (Nat.eq_dec c m) as [->|]; [congruence|]. apply IH. lia.
Qed.
Lemma not_whole_key g k : ~ whole g k -> In k (keys g).
Proof.
  intros H. destruct (lookup g k) as [n|] eqn:El.
  - unfold keys. apply in_map_iff. exists (k, n). split; [reflexivity|]. apply nlookup_in. exact El.
  - exfalso. apply H. intros (n & es & E & _). congruence.
Qed.

(** With every sum complete and every feedback half used, the commit changes no node that is in use. *)
Lemma commit_whole applied g : wf g -> halves_used g -> raised (g_nodes g) = [] -> sums_full g ->
  exists g', commit_edit applied g = Some g' /\
    (forall k, live g k -> lookup g' k = lookup g k) /\ g_outs g' = g_outs g.
Proof.
  intros Hw Hh Hra Hf. unfold commit_edit, free_old. rewrite Hra. cbn [fold_opt bind].
  change (map fst (g_nodes g)) with (keys g).
  rewrite (fold_same g (keys g) (proj2 Hw) Hh (incl_refl _)) by (intros k _; exact (Hf k)). cbn [bind].
  fold (swept applied g).
  assert (Hlk : forall k, live g k -> lookup (swept applied g) k = lookup g k).
  { intros k (n & es & El & Ee). rewrite lookup_swept, (gone_dead applied g k n (proj2 Hw) El) by congruence. reflexivity. }
  change (g_recalc (set_pending _ _)) with (g_recalc g). destruct (g_recalc g); eexists;
    (split; [reflexivity|]); (split; [exact Hlk|reflexivity]).
Qed.
(** A sum with one input and an unconnected graph output: the commit panics. *)
Lemma commit_stuck applied g k : wf g -> halves_used g -> raised (g_nodes g) = [] -> sums_fed g ->
  ~ outs_all g -> ~ whole g k -> commit_edit applied g = None.
Proof.
  intros Hw Hh Hra Hf Ho Hk. destruct (outs_all_dec g) as [H|H]; [contradiction|].
  unfold commit_edit, free_old. rewrite Hra. cbn [fold_opt bind]. change (map fst (g_nodes g)) with (keys g).
  rewrite (fold_panics g (keys g) k (proj2 Hw) Hh Hf (incl_refl _) H (not_whole_key g k Hk) Hk). reflexivity.
Qed.

(** ** freeing a node *)
Lemma edit_free_lone g id n : shape g -> wrong_graph g id = false -> lookup g (id_key id) = Some n ->
  n_edges n <> None -> n_mortal n = true -> n_strong n = None ->
  edit_free g id = Some (freed_state g (id_key id), Ok).
Proof.
  intros Hs Hw El He Hm Hst. unfold edit_free, free_node. rewrite Hw. cbn [free_node_fuel]. rewrite El, Hm. cbn [negb].
  assert (Hp : is_pending g (id_key id) = false).
  { apply not_true_iff_false. intros Hp. apply He. apply (sh_pend g Hs _ _ El). exact Hp. }
  rewrite Hp, Hst. reflexivity.
Qed.
Lemma clear_none k o : clear_if (from_key k) o = None <-> (forall e, o = Some e -> e_src e = Some k).
Proof.
  destruct o as [x|]; cbn; [|split; [intros _ e E; discriminate|reflexivity]].
  destruct (from_key k x) eqn:E.
  - split; [intros _ e H; injection H as <-; apply from_key_spec; exact E|reflexivity].
  - split; [discriminate|]. intros H. specialize (H x eq_refl). apply from_key_spec in H. congruence.
Qed.
