(** The automatic clean-up of inserted summing nodes keeps every sum; when it cannot panic. *)
From Verif Require Import Base GraphModel GraphSpec GraphBase GraphPath GraphInv GraphShape GraphSums GraphRefs.
Local Open Scope nat_scope.

Lemma summing_freed g k k' : summing (freed_state g k) k' = summing g k'.
Proof.
  unfold summing. rewrite lookup_freed. destruct (lookup g k') as [n|]; cbn; [|reflexivity].
  destruct (k =? k'); reflexivity.
Qed.
Lemma summing_redirected g k e k' : summing (redirected g k e) k' = summing g k'.
Proof.
  unfold summing, lookup, redirected; cbn [g_nodes set_outs set_nodes]. rewrite lookup_map_edges. unfold lookup.
  destruct (nlookup (g_nodes g) k'); reflexivity.
Qed.
Lemma live_freed g k k' : live (freed_state g k) k' -> live g k' /\ k' <> k.
Proof.
  intros (n & es & El & Ee). rewrite lookup_freed in El. destruct (lookup g k') as [m|] eqn:E; [|discriminate].
  cbn in El. destruct (Nat.eqb_spec k k') as [<-|Hne]; injection El as <-; cbn in Ee; [discriminate|].
  destruct (n_edges m) as [es0|] eqn:Em; [|discriminate]. split; [exists m, es0; auto|congruence].
Qed.
Lemma live_freed_back g k k' : live g k' -> k' <> k -> live (freed_state g k) k'.
Proof.
  intros (n & es & El & Ee) Hne. rewrite <- (Nat.eqb_neq) in Hne. rewrite Nat.eqb_sym in Hne.
  unfold live. rewrite lookup_freed, El. cbn. rewrite Hne. eexists. eexists. split; [reflexivity|]. cbn.
  rewrite Ee. reflexivity.
Qed.
Lemma live_redirected g k e k' : live (redirected g k e) k' <-> live g k'.
Proof.
  unfold live, lookup, redirected; cbn [g_nodes set_outs set_nodes]. rewrite lookup_map_edges. unfold lookup.
  destruct (nlookup (g_nodes g) k') as [n|]; cbn; split; intros (m & es & E & H); try discriminate.
  - injection E as <-. cbn in H. destruct (n_edges n) as [es0|] eqn:En; [|discriminate]. eauto.
  - injection E as <-. eexists. eexists. split; [reflexivity|]. cbn. rewrite H. reflexivity.
Qed.

(** [g'] keeps what arrives at every node still live and at every graph output. *)
Definition same_sums (g g' : graph) : Prop :=
  (forall k, live g' k -> live g k) /\
  (forall k c l, live g' k -> sums g (in_edge g k c) l -> sums g' (in_edge g' k c) l) /\
  (forall c l, sums g (out_edge g c) l -> sums g' (out_edge g' c) l).
Lemma same_sums_refl g : same_sums g g.
Proof. split; [auto|]. split; auto. Qed.
Lemma same_sums_trans g1 g2 g3 : same_sums g1 g2 -> same_sums g2 g3 -> same_sums g1 g3.
Proof. intros (A & B & C) (A' & B' & C'). split; [auto|]. split; auto. Qed.
Lemma same_sums_frame g g' : g_nodes g' = g_nodes g -> g_outs g' = g_outs g -> same_sums g g'.
Proof.
  intros Hn Ho. assert (Hl : forall k, lookup g' k = lookup g k) by (intros; unfold lookup; rewrite Hn; reflexivity).
  assert (Hs : forall o l, sums g o l -> sums g' o l).
  { apply sums_ext; [intros; unfold summing; rewrite Hl; reflexivity|].
    intros. unfold in_edge, edges_of. rewrite Hl. reflexivity. }
  split; [|split].
  - intros k (n & es & E & H). rewrite Hl in E. exists n, es. auto.
  - intros k c l _ H. replace (in_edge g' k c) with (in_edge g k c); [auto|].
    unfold in_edge, edges_of. rewrite Hl. reflexivity.
  - intros c l H. replace (out_edge g' c) with (out_edge g c); [auto|]. unfold out_edge. rewrite Ho. reflexivity.
Qed.

Lemma from_key_spec k e : from_key k e = true <-> e_src e = Some k.
Proof.
  unfold from_key. destruct (e_src e) as [s|]; split; intros H; try discriminate.
  - apply Nat.eqb_eq in H. congruence.
  - injection H as ->. apply Nat.eqb_refl.
Qed.

(** Splicing out a summing node with one connected input. *)
Lemma splice_sums g k n c e : well_founded (feeds g) ->
  lookup g k = Some n -> n_auto_math n = true -> in_edge g k c = Some e -> in_edge g k (1 - c) = None -> c <= 1 ->
  same_sums g (redirected g k e) /\ same_sums g (freed_state (redirected g k e) k).
Proof.
  intros Hwf El Em He Hn Hc.
  assert (Hk : summing g k = true) by (unfold summing; rewrite El; exact Em).
  assert (Hnk : from_key k e = false).
  { apply not_true_iff_false. intros H. apply from_key_spec in H.
    eapply (wf_no_cycle g Hwf). exists k. constructor. exists c, e. auto. }
  assert (Hred : forall o, clear_if (from_key k) (redirect k e o) = redirect k e o).
  { intros [x|]; [|reflexivity]. cbn. destruct (from_key k x) eqn:E; cbn; [rewrite Hnk|rewrite E]; reflexivity. }
  assert (Hs : forall g' , (forall k', summing g' k' = summing g k') ->
     (forall k' c, k' <> k -> in_edge g' k' c = redirect k e (in_edge g k' c)) ->
     forall o l, sums g o l -> sums g' (redirect k e o) l).
  { intros g' Hm Hin o l H. induction H as [|x Hx|x k' a b Hs Hk' Ha IHa Hb IHb].
    - constructor.
    - cbn. destruct (from_key k x) eqn:E.
      + apply from_key_spec in E. specialize (Hx k E). congruence.
      + constructor. intros k' Hk'. rewrite Hm. auto.
    - cbn. destruct (from_key k x) eqn:E.
      + apply from_key_spec in E. assert (k' = k) by congruence. subst k'.
        assert (Hre : redirect k e (Some e) = Some e) by (cbn; rewrite Hnk; reflexivity).
        destruct c as [|[|]]; [| |lia]; cbn [Nat.sub] in Hn.
        * rewrite Hn in Hb. inversion Hb; subst. rewrite app_nil_r. rewrite He, Hre in IHa. exact IHa.
        * rewrite Hn in Ha. inversion Ha; subst. cbn [app]. rewrite He, Hre in IHb. exact IHb.
      + assert (k' <> k). { intros ->. apply not_true_iff_false in E. apply E. apply from_key_spec. exact Hs. }
        eapply sums_add with (k := k'); [exact Hs|rewrite Hm; exact Hk'| |]; rewrite Hin by auto; assumption. }
  split; split.
  - intros k'. apply live_redirected.
  - assert (Hs1 := Hs (redirected g k e) (summing_redirected g k e) (fun k' c _ => in_edge_redirected g k e k' c)).
    split; intros; [rewrite in_edge_redirected|rewrite out_edge_redirected]; auto.
  - intros k' H. apply live_freed in H. apply (live_redirected g k e). exact (proj1 H).
  - assert (Hs1 : forall o l, sums g o l -> sums (freed_state (redirected g k e) k) (redirect k e o) l).
    { apply Hs.
      - intros k'. rewrite summing_freed. apply summing_redirected.
      - intros k' c' Hne. rewrite in_edge_freed. apply Nat.eqb_neq in Hne. rewrite Hne.
        rewrite in_edge_redirected. apply Hred. }
    split.
    + intros k' c' l Hl Hsum. apply live_freed in Hl as [_ Hne]. apply Nat.eqb_neq in Hne.
      rewrite in_edge_freed, Hne, in_edge_redirected, Hred. auto.
    + intros c' l Hsum. rewrite out_edge_freed, out_edge_redirected, Hred. auto.
Qed.
(** Removing a summing node without connected inputs. *)
Lemma drop_sums g k : summing g k = true -> in_edge g k 0 = None -> in_edge g k 1 = None ->
  same_sums g (freed_state g k).
Proof.
  intros Hk H0 H1.
  assert (Hs : forall o l, sums g o l -> sums (freed_state g k) (clear_if (from_key k) o) l).
  { intros o l H. induction H as [|x Hx|x k' a b Hs Hk' Ha IHa Hb IHb].
    - constructor.
    - cbn. destruct (from_key k x) eqn:E.
      + apply from_key_spec in E. specialize (Hx k E). congruence.
      + constructor. intros k' Hk'. rewrite summing_freed. auto.
    - cbn. destruct (from_key k x) eqn:E.
      + apply from_key_spec in E. assert (k' = k) by congruence. subst k'.
        rewrite H0 in Ha. rewrite H1 in Hb. inversion Ha; inversion Hb; subst. constructor.
      + assert (Hne : k' =? k = false).
        { apply Nat.eqb_neq. intros ->. apply not_true_iff_false in E. apply E. apply from_key_spec. exact Hs. }
        eapply sums_add with (k := k'); [exact Hs|rewrite summing_freed; exact Hk'| |];
          rewrite in_edge_freed, Hne; assumption. }
  split; [|split].
  - intros k' H. apply live_freed in H. tauto.
  - intros k' c' l Hl Hsum. apply live_freed in Hl as [_ Hne]. apply Nat.eqb_neq in Hne.
    rewrite in_edge_freed, Hne. auto.
  - intros c' l Hsum. rewrite out_edge_freed. auto.
Qed.

(** ** evaluate *)
Lemma naf_freed g k : no_auto_free g -> no_auto_free (freed_state g k).
Proof.
  intros H k' n. rewrite lookup_freed. destruct (lookup g k') as [m|] eqn:E; [|discriminate]. cbn.
  intros X; injection X as <-. destruct (k =? k'); cbn; eapply H; eauto.
Qed.
Lemma naf_redirected g k e : no_auto_free g -> no_auto_free (redirected g k e).
Proof.
  intros H k' n. unfold lookup, redirected; cbn [g_nodes set_outs set_nodes]. rewrite lookup_map_edges.
  unfold lookup. destruct (nlookup (g_nodes g) k') as [m|] eqn:E; [|discriminate]. cbn.
  intros X; injection X as <-. cbn. eapply H; eauto.
Qed.
Lemma naf_frees g g' : frees g g' -> no_auto_free g -> no_auto_free g'.
Proof. induction 1; auto. intros H'. apply IHfrees. apply naf_freed. exact H'. Qed.
Lemma naf_eval g k g' : evaluate g k = Some g' -> no_auto_free g -> no_auto_free g'.
Proof.
  intros H Hn. apply evaluate_spec in H. destruct H as [H|n c e _ _ _ _ _ H]; eapply naf_frees; eauto.
  apply naf_redirected. exact Hn.
Qed.
Lemma free_ok_lone g k n : lookup g k = Some n -> n_strong n = None ->
  free_ok g k = Some (if negb (n_mortal n) then g else if is_pending g k then g else freed_state g k).
Proof.
  intros El Hs. unfold free_ok, free_node. cbn [free_node_fuel]. rewrite El.
  destruct (negb (n_mortal n)); [reflexivity|]. destruct (is_pending g k); [reflexivity|].
  rewrite Hs. reflexivity.
Qed.

Lemma In_keys_lookup g k : In k (keys g) -> exists n, lookup g k = Some n.
Proof.
  unfold keys, lookup. induction (g_nodes g) as [|[k0 n0] l IH]; cbn; [tauto|].
  intros H. destruct (Nat.eqb_spec k0 k) as [->|Hne]; [eauto|]. destruct H as [->|H]; [congruence|auto].
Qed.

(** What [evaluate] does to a node that is not of the automatically freed kind. *)
Definition lone_input (g : graph) (k : key) (e : edge) : Prop :=
  exists c, in_edge g k c = Some e /\ in_edge g k (1 - c) = None /\ c <= 1.
Inductive eval_case (g : graph) (k : key) : graph -> Prop :=
| ec_same : eval_case g k g
| ec_splice n e : lookup g k = Some n -> n_edges n <> None -> n_auto_math n = true -> lone_input g k e ->
    n_mortal n = true -> eval_case g k (freed_state (redirected g k e) k)
| ec_keep n e : lookup g k = Some n -> n_edges n <> None -> n_auto_math n = true -> lone_input g k e ->
    n_mortal n = false -> eval_case g k (redirected g k e)
| ec_drop n : lookup g k = Some n -> n_edges n <> None -> n_auto_math n = true ->
    in_edge g k 0 = None -> in_edge g k 1 = None ->
    eval_case g k (freed_state g k).
Lemma eval_cases g k g' : shape g -> no_auto_free g -> evaluate g k = Some g' -> eval_case g k g'.
Proof.
  intros Hsh Hn H. unfold evaluate in H.
  destruct (lookup g k) as [n|] eqn:El; cbn [bind] in H; [|discriminate].
  match type of H with (g1 <- ?X ;; _) = _ => destruct X as [g1|] eqn:E1; cbn [bind] in H; [|discriminate] end.
  assert (Hpm : n_edges n <> None -> is_pending g k = false).
  { intros Hne. apply not_true_iff_false. intros Hp. apply Hne. apply (sh_pend g Hsh k n El). exact Hp. }
  assert (Hg : no_auto_free g1 -> g' = g1).
  { intros Hn1. destruct (lookup g1 k) as [n'|] eqn:E'; cbn [bind] in H; [|discriminate].
    rewrite (Hn1 k n' E') in H. congruence. }
  destruct (n_auto_math n) eqn:Em.
  2: { injection E1 as <-. rewrite (Hg Hn). constructor. }
  destruct (negb _); [discriminate|].
  destruct (n_edges n) as [es|] eqn:Ee; [|injection E1 as <-; rewrite (Hg Hn); constructor].
  destruct (sh_node g Hsh k n El) as (_ & Hmath & _). destruct (Hmath Em) as (_ & _ & _ & Hst).
  specialize (Hpm ltac:(discriminate)).
  destruct (nth_error es 0) as [e0|] eqn:E0; cbn [bind] in E1; [|discriminate].
  destruct (nth_error es 1) as [e1|] eqn:E01; cbn [bind] in E1; [|discriminate].
  pose proof (in_edge_lookup g k n es 0 e0 El Ee E0) as H0.
  pose proof (in_edge_lookup g k n es 1 e1 El Ee E01) as H1.
  assert (Hlook : forall e, lookup (redirected g k e) k = Some (n_set_edges n (option_map (map (redirect k e)) (n_edges n)))).
  { intros e. unfold lookup, redirected; cbn [g_nodes set_outs set_nodes]. rewrite lookup_map_edges, El. reflexivity. }
  assert (Hone : forall e, lone_input g k e -> free_ok (redirected g k e) k = Some g1 -> eval_case g k g').
  { intros e Hlone Hf. rewrite (free_ok_lone _ _ _ (Hlook e) Hst) in Hf. cbn [n_mortal n_set_edges] in Hf.
    change (is_pending (redirected g k e) k) with (is_pending g k) in Hf. rewrite Hpm in Hf.
    assert (Hne : n_edges n <> None) by congruence.
    destruct (n_mortal n) eqn:Emo; cbn [negb] in Hf; injection Hf as <-; rewrite Hg.
    - eapply ec_splice; eauto.
    - apply naf_freed, naf_redirected, Hn.
    - eapply ec_keep; eauto.
    - apply naf_redirected, Hn. }
  destruct e0 as [e0|], e1 as [e1|].
  - injection E1 as <-. rewrite (Hg Hn). constructor.
  - destruct (existsb _ (g_outs g)); [discriminate|]. eapply Hone; [|exact E1]. exists 0. auto.
  - destruct (existsb _ (g_outs g)); [discriminate|]. eapply Hone; [|exact E1]. exists 1. auto.
  - rewrite (free_ok_lone _ _ _ El Hst) in E1. rewrite Hpm in E1.
    destruct (negb (n_mortal n)) eqn:Emo; injection E1 as <-; rewrite Hg.
    + constructor.
    + exact Hn.
    + eapply ec_drop; eauto. congruence.
    + apply naf_freed, Hn.
Qed.
Lemma eval_sums g k g' : wf g -> no_auto_free g -> evaluate g k = Some g' -> same_sums g g'.
Proof.
  intros [Hi Hs] Hn H. apply eval_cases in H; [|exact Hs|exact Hn].
  destruct H as [|n e El _ Em (c & H1 & H2 & H3) _|n e El _ Em (c & H1 & H2 & H3) _|n El _ Em H0 H1].
  - apply same_sums_refl.
  - eapply splice_sums; eauto. apply (proj2 Hi).
  - eapply splice_sums; eauto. apply (proj2 Hi).
  - apply drop_sums; auto. unfold summing. rewrite El. exact Em.
Qed.
Lemma eval_wf g k g' : evaluate g k = Some g' -> wf g -> wf g'.
Proof. intros H [Hi Hs]. split; [eapply evaluate_inv; eauto|eapply eval_shape'; eauto]. Qed.

Lemma naf_additive g : inv g -> no_auto_free g -> no_auto_free (fst (new_additive_node g)).
Proof.
  intros Hi Hn k n. destruct (new_additive_spec g Hi) as (_ & _ & _ & _ & _ & _ & L). rewrite L.
  destruct (_ =? _); [|apply Hn]. intros H; injection H as <-. reflexivity.
Qed.
Definition clean (g : graph) : Prop := wf g /\ refs_ok g /\ no_auto_free g.
Lemma eval_clean g k g' : evaluate g k = Some g' -> clean g -> clean g' /\ same_sums g g'.
Proof.
  intros H (A & B & C). split; [|eapply eval_sums; eauto]. split; [eapply eval_wf; eauto|].
  split; [eapply refs_evaluate; eauto|eapply naf_eval; eauto].
Qed.
Lemma fold_eval_sums l : forall g g', clean g -> fold_opt evaluate g l = Some g' -> clean g' /\ same_sums g g'.
Proof.
  induction l as [|k l IH]; intros g g' Hc H; cbn [fold_opt] in H.
  - injection H as <-. split; [exact Hc|apply same_sums_refl].
  - destruct (evaluate g k) as [g1|] eqn:E; cbn [bind] in H; [|discriminate].
    destruct (eval_clean _ _ _ E Hc) as [Hc1 Hs1]. destruct (IH _ _ Hc1 H) as [Hc2 Hs2].
    split; [exact Hc2|]. eapply same_sums_trans; eauto.
Qed.
Lemma gone_dead applied g k n : shape g -> lookup g k = Some n -> n_edges n <> None ->
  existsb (Nat.eqb k) (gone applied g) = false.
Proof.
  intros Hs El Hn. apply not_true_iff_false. intros E. apply Hn.
  apply (sh_pend g Hs k n El). apply is_pending_In. apply existsb_eqb_In in E.
  unfold gone in E. apply in_map_iff in E as (x & <- & Hx). apply filter_In in Hx as [Hx _]. apply in_map. exact Hx.
Qed.
Lemma swept_sums applied g : shape g -> refs_ok g -> same_sums g (swept applied g).
Proof.
  intros Hs [Hr Ho].
  assert (Hsrc : forall e k, edge_ok g e -> e_src e = Some k -> lookup (swept applied g) k = lookup g k).
  { intros e k He Hk. unfold edge_ok in He. rewrite Hk in He. destruct He as (n & El & Hn & _).
    rewrite lookup_swept, (gone_dead applied g k n Hs El Hn). reflexivity. }
  assert (Hsum : forall o l, sums g o l -> (forall e, o = Some e -> edge_ok g e) -> sums (swept applied g) o l).
  { intros o l H. induction H as [|x Hx|x k a b Hx Hk Ha IHa Hb IHb]; intros Hok.
    - constructor.
    - constructor. intros k Hk. unfold summing. rewrite (Hsrc x k (Hok x eq_refl) Hk). apply Hx. exact Hk.
    - assert (E : lookup (swept applied g) k = lookup g k) by (eapply Hsrc; eauto).
      assert (Ein : forall c, in_edge (swept applied g) k c = in_edge g k c)
        by (intros c; unfold in_edge, edges_of; rewrite E; reflexivity).
      eapply sums_add with (k := k); [exact Hx|unfold summing; rewrite E; exact Hk| |]; rewrite Ein;
        [apply IHa|apply IHb]; intros e He; eapply Hr; eauto. }
  assert (Hlive : forall k, live (swept applied g) k -> lookup (swept applied g) k = lookup g k).
  { intros k (n & es & El & _). rewrite lookup_swept in *. destruct (existsb _ _); [discriminate|reflexivity]. }
  split; [|split].
  - intros k Hl. pose proof (Hlive k Hl) as E. destruct Hl as (n & es & El & He). exists n, es. rewrite <- E. auto.
  - intros k c l Hl H. replace (in_edge (swept applied g) k c) with (in_edge g k c)
      by (unfold in_edge, edges_of; rewrite (Hlive k Hl); reflexivity).
    apply Hsum; [exact H|]. intros e He. eapply Hr; eauto.
  - intros c l H. apply Hsum; [exact H|]. intros e He. eapply Ho; eauto.
Qed.

(** ** commit *)
Lemma commit_sums applied g g' : clean g -> raised (g_nodes g) = [] ->
  commit_edit applied g = Some g' -> same_sums g g'.
Proof.
  intros Hc Hra H. unfold commit_edit in H.
  destruct (free_old applied g) as [g1|] eqn:E; cbn [bind] in H; [|discriminate].
  apply free_old_unfold in E as (ga & gb & E1 & E2 & ->). rewrite Hra in E1. injection E1 as <-.
  destruct (fold_eval_sums _ _ _ Hc E2) as [((_ & Hs) & Hr & _) Hss].
  eapply same_sums_trans; [exact Hss|]. eapply same_sums_trans; [apply (swept_sums applied); auto|].
  destruct (g_recalc _); injection H as <-; apply same_sums_frame; reflexivity.
Qed.

(** ** progress *)
Lemma outs_all_existsb g : shape g -> outs_all g ->
  existsb (fun o : option edge => match o with None => true | Some _ => false end) (g_outs g) = false.
Proof.
  intros Hs Ho. apply not_true_iff_false. intros E. apply existsb_exists in E as (o & Hin & E).
  apply In_nth_error in Hin as [c Hc]. apply (Ho c).
  - rewrite <- (sh_outs g Hs). apply nth_error_Some. congruence.
  - unfold out_edge. rewrite Hc. destruct o; [discriminate|reflexivity].
Qed.
Lemma eval_progress g k n : shape g -> no_auto_free g -> tidy g -> lookup g k = Some n ->
  exists g', evaluate g k = Some g'.
Proof.
  intros Hsh Hn Ht El. unfold evaluate. rewrite El. cbn [bind].
  destruct (n_auto_math n) eqn:Em.
  2: { cbn [bind]. rewrite El. cbn [bind]. rewrite (Hn k n El). eauto. }
  destruct (sh_node g Hsh k n El) as (Hlen & Hmath & _). destruct (Hmath Em) as (Hi & Ho & _ & Hst).
  rewrite Hi, Ho. cbn [Nat.eqb andb negb].
  destruct (n_edges n) as [es|] eqn:Ee.
  2: { cbn [bind]. rewrite El. cbn [bind]. rewrite (Hn k n El). eauto. }
  specialize (Hlen es eq_refl). rewrite Hi in Hlen. destruct es as [|e0 [|e1 [|]]]; try discriminate.
  cbn [nth_error bind].
  pose proof (in_edge_lookup g k n _ 0 e0 El Ee eq_refl) as H0.
  pose proof (in_edge_lookup g k n _ 1 e1 El Ee eq_refl) as H1.
  assert (Hl : live g k) by (exists n; eauto).
  assert (Hk : summing g k = true) by (unfold summing; rewrite El; exact Em).
  assert (Hfin : forall g1, no_auto_free g1 -> (exists n1, lookup g1 k = Some n1) ->
     exists g', (n' <- lookup g1 k ;;
       (if n_auto_free n' then
          let has_input := match n_edges n' with
                     | Some es => existsb (fun o => match o with Some _ => true | None => false end) es
                     | None => false end in
          let has_reader := existsb (fun kn => match n_edges (snd kn) with
                        | Some es => existsb (fun o => match o with Some e => from_key k e | None => false end) es
                        | None => false end) (g_nodes g1) in
          if has_input || has_reader then Some g1 else free_ok g1 k
        else Some g1)) = Some g').
  { intros g1 Hn1 [n1 E1]. rewrite E1. cbn [bind]. rewrite (Hn1 k n1 E1). eauto. }
  assert (Hlk : forall g1 g2, frees g1 g2 -> (exists n1, lookup g1 k = Some n1) -> exists n2, lookup g2 k = Some n2).
  { intros g1 g2 Hf. induction Hf as [|ga ka na gb _ _ _ _ IH]; auto. intros [m Em']. apply IH.
    rewrite lookup_freed, Em'. cbn. eauto. }
  assert (Hre : forall e, exists n1, lookup (redirected g k e) k = Some n1).
  { intros e. unfold lookup, redirected; cbn [g_nodes set_outs set_nodes]. rewrite lookup_map_edges, El. cbn. eauto. }
  destruct e0 as [e0|], e1 as [e1|].
  - cbn [bind]. apply Hfin; eauto.
  - destruct Ht as [Ht|[Ht _]]; [destruct (Ht k Hl Hk); congruence|]. rewrite (outs_all_existsb g Hsh Ht).
    fold (redirected g k e0). destruct (free_ok_total (redirected g k e0) k) as [g1 Eg]. rewrite Eg. cbn [bind].
    apply free_ok_frees in Eg. apply Hfin; [eapply naf_frees; [exact Eg|apply naf_redirected; exact Hn]|].
    eapply Hlk; eauto.
  - destruct Ht as [Ht|[Ht _]]; [destruct (Ht k Hl Hk); congruence|]. rewrite (outs_all_existsb g Hsh Ht).
    fold (redirected g k e1). destruct (free_ok_total (redirected g k e1) k) as [g1 Eg]. rewrite Eg. cbn [bind].
    apply free_ok_frees in Eg. apply Hfin; [eapply naf_frees; [exact Eg|apply naf_redirected; exact Hn]|].
    eapply Hlk; eauto.
  - destruct (free_ok_total g k) as [g1 Eg]. rewrite Eg. cbn [bind]. apply free_ok_frees in Eg.
    apply Hfin; [eapply naf_frees; eauto|]. eapply Hlk; eauto.
Qed.
Lemma redirect_none k e o : redirect k e o = None -> o = None.
Proof. destruct o as [x|]; [|reflexivity]. cbn. destruct (from_key k x); discriminate. Qed.
Lemma tidy_redirected g k e : tidy g -> tidy (redirected g k e).
Proof.
  intros [H|[Ho H]]; [left|right].
  - intros k' Hl Hk. apply (proj1 (live_redirected g k e k')) in Hl. rewrite summing_redirected in Hk.
    rewrite !in_edge_redirected. destruct (H k' Hl Hk) as [A B]. split; intros E; apply redirect_none in E; auto.
  - split.
    + intros c Hc. rewrite out_edge_redirected. intros E. apply redirect_none in E. exact (Ho c Hc E).
    + intros k' Hl Hk. apply (proj1 (live_redirected g k e k')) in Hl. rewrite summing_redirected in Hk.
      rewrite !in_edge_redirected. destruct (H k' Hl Hk) as [A|A]; [left|right]; intros E; apply redirect_none in E; auto.
Qed.
Lemma tidy_freed_unread g k : (forall k' c e, in_edge g k' c = Some e -> e_src e <> Some k) ->
  (forall c e, out_edge g c = Some e -> e_src e <> Some k) -> tidy g -> tidy (freed_state g k).
Proof.
  intros Hu Hv Ht.
  assert (Hin : forall k' c, k' <> k -> in_edge (freed_state g k) k' c = in_edge g k' c).
  { intros k' c Hne. rewrite in_edge_freed. apply Nat.eqb_neq in Hne. rewrite Hne.
    destruct (in_edge g k' c) as [x|] eqn:E; [|reflexivity]. cbn. destruct (from_key k x) eqn:Ef; [|reflexivity].
    apply from_key_spec in Ef. exfalso. eapply Hu; eauto. }
  assert (Hout : forall c, out_edge (freed_state g k) c = out_edge g c).
  { intros c. rewrite out_edge_freed. destruct (out_edge g c) as [x|] eqn:E; [|reflexivity]. cbn.
    destruct (from_key k x) eqn:Ef; [|reflexivity]. apply from_key_spec in Ef. exfalso. eapply Hv; eauto. }
  destruct Ht as [H|[Ho H]]; [left|right].
  - intros k' Hl Hk. apply live_freed in Hl as [Hl Hne]. rewrite summing_freed in Hk. rewrite !Hin by exact Hne. auto.
  - split; [intros c Hc; rewrite Hout; auto|].
    intros k' Hl Hk. apply live_freed in Hl as [Hl Hne]. rewrite summing_freed in Hk. rewrite !Hin by exact Hne. auto.
Qed.
Lemma eval_tidy g k g' : wf g -> no_auto_free g -> tidy g -> evaluate g k = Some g' -> tidy g'.
Proof.
  intros [Hi Hs] Hn Ht H. apply eval_cases in H; [|exact Hs|exact Hn].
  destruct H as [|n e El Hne Em (c & H1 & H2 & H3) _|n e El Hne Em _ _|n El Hne Em H0 H1].
  - exact Ht.
  - assert (Hnk : e_src e <> Some k).
    { intros Hk. eapply (wf_no_cycle g (proj2 Hi)). exists k. constructor. exists c, e. auto. }
    assert (Hred : forall o x, redirect k e o = Some x -> e_src x <> Some k).
    { intros [y|] x; cbn; [|discriminate]. destruct (from_key k y) eqn:E; intros X; injection X as <-; [exact Hnk|].
      intros Hk. apply from_key_spec in Hk. congruence. }
    apply tidy_freed_unread; [| |apply tidy_redirected; exact Ht].
    + intros k' c' x. rewrite in_edge_redirected. apply Hred.
    + intros c' x. rewrite out_edge_redirected. apply Hred.
  - apply tidy_redirected. exact Ht.
  - exfalso. assert (Hl : live g k) by (destruct (n_edges n) as [es|] eqn:Ee; [exists n, es; auto|congruence]).
    assert (Hk : summing g k = true) by (unfold summing; rewrite El; exact Em).
    destruct Ht as [Ht|[_ Ht]]; destruct (Ht k Hl Hk); congruence.
Qed.
Lemma fold_eval_progress l : forall g, wf g -> no_auto_free g -> tidy g -> incl l (keys g) ->
  exists g', fold_opt evaluate g l = Some g'.
Proof.
  induction l as [|k l IH]; intros g Hw Hn Ht Hl; cbn [fold_opt]; [eauto|].
  assert (exists n, lookup g k = Some n) as [n El].
  { apply In_keys_lookup. apply Hl. left. reflexivity. }
  destruct (eval_progress g k n (proj2 Hw) Hn Ht El) as [g1 E1]. rewrite E1. cbn [bind].
  apply IH; [eapply eval_wf; eauto|eapply naf_eval; eauto|eapply eval_tidy; eauto|].
  rewrite (eval_keys g k g1) by (eapply evaluate_spec; eauto). intros x Hx. apply Hl. right. exact Hx.
Qed.
Lemma commit_progress applied g : wf g -> no_auto_free g -> tidy g -> raised (g_nodes g) = [] ->
  exists g', commit_edit applied g = Some g'.
Proof.
  intros Hw Hn Ht Hra. destruct (fold_eval_progress (keys g) g Hw Hn Ht (incl_refl _)) as [g1 E].
  unfold commit_edit, free_old. rewrite Hra. cbn [fold_opt bind]. change (map fst (g_nodes g)) with (keys g).
  rewrite E. cbn [bind]. destruct (g_recalc _); eauto.
Qed.

(** ** disconnecting an input *)
Lemma set_edge_none_sums g k ch g1 : summing g k = false -> set_edge g k ch None = Some g1 ->
  (forall o l, sums g o l -> sums g1 o l).
Proof.
  intros Hk H. pose proof (set_edge_in_edge _ _ _ _ _ H) as Hin.
  intros o l Hs. induction Hs as [|x Hx|x k' a b Hs Hk' _ IHa _ IHb].
  - constructor.
  - constructor. intros k' Hk'. rewrite (summing_set_edge _ _ _ _ _ _ H). auto.
  - assert (Hne : k' =? k = false) by (apply Nat.eqb_neq; congruence).
    eapply sums_add with (k := k'); [exact Hs|rewrite (summing_set_edge _ _ _ _ _ _ H); exact Hk'| |];
      rewrite Hin, Hne; assumption.
Qed.
Lemma naf_set_edge g k ch o g1 : set_edge g k ch o = Some g1 -> no_auto_free g -> no_auto_free g1.
Proof.
  intros H Hn. apply set_edge_some in H as (es & es' & _ & _ & ->). intros k' n. rewrite lookup_update.
  destruct (k =? k'); [|apply Hn]. destruct (lookup g k') as [m|] eqn:E; [|discriminate]. cbn.
  intros X; injection X as <-. cbn. eapply Hn; eauto.
Qed.
Lemma live_set_edge g k ch o g1 k' : set_edge g k ch o = Some g1 -> live g1 k' -> live g k'.
Proof.
  intros H. apply set_edge_some in H as (es & es' & He & _ & ->). intros (n & es1 & El & Ee).
  rewrite lookup_update in El. destruct (Nat.eqb_spec k k') as [<-|]; [|exists n, es1; auto].
  destruct (lookup g k) as [m|] eqn:E; [|discriminate]. exists m.
  unfold edges_of in He. rewrite E in He. cbn in He. eauto.
Qed.
Lemma disconnect_input_sums g id ch g' : wf g -> no_auto_free g -> summing g (id_key id) = false ->
  disconnect_input g ch (NNode id) = Some (g', Ok) ->
  sums g' (in_edge g' (id_key id) ch) [] /\
  (forall k c l, live g' k -> (k, c) <> (id_key id, ch) -> sums g (in_edge g k c) l -> sums g' (in_edge g' k c) l) /\
  (forall c l, sums g (out_edge g c) l -> sums g' (out_edge g' c) l).
Proof.
  intros Hw Hn Hk H. unfold disconnect_input in H.
  destruct (negb _); [discriminate|]. destruct (lookup g (id_key id)) as [n|] eqn:El; [|discriminate].
  destruct (n_edges n) as [es|] eqn:Ee; cbn [bind] in H; [|discriminate].
  destruct (_ <=? ch) eqn:Ech; [discriminate|].
  destruct (nth_error es ch) as [o|] eqn:Eo; cbn [bind] in H; [|discriminate].
  destruct (set_edge g (id_key id) ch None) as [g1|] eqn:E1; cbn [bind] in H; [|discriminate].
  pose proof (set_edge_none_sums _ _ _ _ Hk E1) as Hs1.
  pose proof (set_edge_in_edge _ _ _ _ _ E1) as Hin.
  destruct (set_edge_frame _ _ _ _ _ E1) as (_ & _ & Ho & _).
  assert (Hw1 : wf g1).
  { split; [eapply inv_set_edge_none; [exact (proj1 Hw)|exact E1]|eapply shape_set_edge; [exact (proj2 Hw)|exact E1]]. }
  assert (Hn1 : no_auto_free g1) by (eapply naf_set_edge; eauto).
  match type of H with (g2 <- ?X ;; _) = _ => destruct X as [g2|] eqn:E2; cbn [bind] in H; [|discriminate] end.
  injection H as <-.
  assert (Hl1 : live g1 (id_key id)).
  { pose proof (set_edge_some _ _ _ _ _ E1) as (es1 & es2 & _ & _ & ->). unfold live. rewrite lookup_update, Nat.eqb_refl, El. cbn.
    eexists. eexists. split; reflexivity. }
  assert (H12 : same_sums g1 g2 /\ live g2 (id_key id)).
  { destruct o as [e|]; [|injection E2 as <-; split; [apply same_sums_refl|exact Hl1]].
    destruct (evaluate g1 (id_key id)) as [g3|] eqn:E3; cbn [bind] in E2; [|discriminate].
    assert (g3 = g1).
    { apply eval_cases in E3; [|exact (proj2 Hw1)|exact Hn1].
      assert (Hk1 : summing g1 (id_key id) = false) by (rewrite (summing_set_edge _ _ _ _ _ _ E1); exact Hk).
      unfold summing in Hk1.
      destruct E3 as [|m x Em _ Hm _ _|m x Em _ Hm _ _|m Em _ Hm _ _]; auto; rewrite Em in Hk1; congruence. }
    subst g3. destruct (e_src e) as [s|] eqn:Es; [|injection E2 as <-; split; [apply same_sums_refl|exact Hl1]].
    split; [eapply eval_sums; eauto|].
    apply eval_cases in E2; [|exact (proj2 Hw1)|exact Hn1].
    assert (Hne : forall m, lookup g1 s = Some m -> n_auto_math m = true -> id_key id <> s).
    { intros m Em Hm E. subst s. pose proof (summing_set_edge _ _ _ _ _ (id_key id) E1) as X. rewrite Hk in X.
      unfold summing in X. rewrite Em in X. congruence. }
    destruct E2 as [|m x Em _ Hm _ _|m x Em _ Hm _ _|m Em _ Hm _ _].
    - exact Hl1.
    - apply live_freed_back; [apply live_redirected; exact Hl1|eauto].
    - apply live_redirected. exact Hl1.
    - apply live_freed_back; [exact Hl1|eauto]. }
  destruct H12 as [(A & B & C) Hl2].
  assert (X : forall o l, sums g2 o l -> sums (set_recalc g2 true) o l) by (apply sums_ext; reflexivity).
  split; [|split].
  - apply X. apply B; [exact Hl2|]. rewrite Hin, !Nat.eqb_refl. constructor.
  - intros k c l Hl Hne Hsum. apply X. apply B; [exact Hl|]. rewrite Hin.
    destruct ((k =? id_key id) && (c =? ch)) eqn:E; [|auto].
    apply andb_true_iff in E as [E E']. apply Nat.eqb_eq in E. apply Nat.eqb_eq in E'. subst. exfalso. apply Hne. reflexivity.
  - intros c l Hsum. apply X. apply C. unfold out_edge in *. rewrite Ho. auto.
Qed.
Lemma disconnect_graph_output_sums g ch g' : wf g -> no_auto_free g ->
  disconnect_input g ch NGraph = Some (g', Ok) ->
  sums g' (out_edge g' ch) [] /\
  (forall k c l, live g' k -> sums g (in_edge g k c) l -> sums g' (in_edge g' k c) l) /\
  (forall c l, c <> ch -> sums g (out_edge g c) l -> sums g' (out_edge g' c) l).
Proof.
  intros Hw Hn H. unfold disconnect_input in H. destruct (_ <=? ch); [discriminate|].
  destruct (nth_error (g_outs g) ch) as [o|] eqn:Eo; cbn [bind] in H; [|discriminate].
  destruct (set_nth (g_outs g) ch None) as [outs|] eqn:E1; cbn [bind] in H; [|discriminate].
  set (g1 := set_outs g outs) in *.
  assert (Hs1 : forall o l, sums g o l -> sums g1 o l) by (apply sums_ext; reflexivity).
  pose proof (fun c => out_edge_set g ch None outs c E1) as Hout.
  match type of H with (g2 <- ?X ;; _) = _ => destruct X as [g2|] eqn:E2; cbn [bind] in H; [|discriminate] end.
  injection H as <-.
  assert (Hw1 : wf g1).
  { destruct Hw as [Hi Hs]. split.
    - eapply inv_outs_none; eauto.
    - apply shape_outs; [exact Hs|]. eapply set_nth_length; eauto. }
  assert (H12 : same_sums g1 g2).
  { destruct o as [e|]; [|injection E2 as <-; apply same_sums_refl].
    destruct (e_src e) as [s|]; [|injection E2 as <-; apply same_sums_refl].
    eapply eval_sums; eauto. }
  destruct H12 as (A & B & C). split; [|split].
  - apply C. unfold g1. rewrite Hout, Nat.eqb_refl. constructor.
  - intros k c l Hl Hsum. apply B; [exact Hl|]. apply Hs1. exact Hsum.
  - intros c l Hne Hsum. apply C. unfold g1. rewrite Hout. apply Nat.eqb_neq in Hne. rewrite Hne. apply Hs1. exact Hsum.
Qed.
