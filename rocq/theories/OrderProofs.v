From Verif Require Import Base GraphModel GraphSpec GraphBase GraphPath GraphInv GraphShape GraphRefs GraphClean
  OrderModel OrderSpec.
From Coq Require Import Sorted.
Local Open Scope nat_scope.

Lemma mem_In k l : mem k l = true <-> In k l.
Proof. apply existsb_eqb_In. Qed.
Lemma mem_false k l : mem k l = false <-> ~ In k l.
Proof. rewrite <- mem_In. destruct (mem k l); split; congruence. Qed.

(** ** sources *)
Lemma audio_sources_spec g k es s : edges_of g k = Some es ->
  In s (audio_sources es) <-> exists c e, in_edge g k c = Some e /\ e_src e = Some s /\ e_fb e = false.
Proof.
  intros E. unfold audio_sources. rewrite in_flat_map. split.
  - intros (o & Hin & Hs). destruct o as [e|]; [|destruct Hs]. destruct (e_fb e) eqn:Ef; [destruct Hs|].
    destruct (e_src e) as [s'|] eqn:Es; [|destruct Hs]. destruct Hs as [<-|[]].
    apply In_nth_error in Hin as [c Hc]. exists c, e. split; [|auto]. unfold in_edge. rewrite E, Hc. reflexivity.
  - intros (c & e & He & Hs & Hf). unfold in_edge in He. rewrite E in He.
    destruct (nth_error es c) as [o|] eqn:Ec; [|discriminate]. subst o. exists (Some e).
    split; [eapply nth_error_In; eauto|]. rewrite Hf, Hs. left. reflexivity.
Qed.
Lemma par_sources_spec g k ps s : pedges_of g k = Some ps ->
  In s (map p_src ps) <-> par_feeds g s k.
Proof.
  intros E. unfold pedges_of in E. destruct (lookup g k) as [n|] eqn:El; [|discriminate]. cbn in E.
  rewrite in_map_iff. split.
  - intros (p & Hp & Hin). exists n, ps, p. auto.
  - intros (n' & ps' & p & El' & E' & Hin & Hp). exists p. assert (n' = n) by congruence. subst n'.
    assert (ps' = ps) by congruence. subst. auto.
Qed.
Lemma same_block_spec g s k es ps : edges_of g k = Some es -> pedges_of g k = Some ps ->
  same_block g s k <-> In s (audio_sources es) \/ In s (map p_src ps).
Proof.
  intros E P. unfold same_block. rewrite (audio_sources_spec g k es s E), (par_sources_spec g k ps s P). reflexivity.
Qed.
Lemma next_source_some g visited k s : next_source g visited k = Some (Some s) ->
  same_block g s k /\ ~ In s visited.
Proof.
  unfold next_source. destruct (edges_of g k) as [es|] eqn:E; cbn; [|discriminate].
  destruct (find _ (audio_sources es)) as [x|] eqn:F.
  - intros H; injection H as ->. apply find_some in F as [Hin Hv]. apply negb_true_iff in Hv. apply mem_false in Hv.
    split; [|exact Hv]. left. apply (audio_sources_spec g k es s E). exact Hin.
  - destruct (pedges_of g k) as [ps|] eqn:P; cbn; [|discriminate]. intros H. injection H as F'.
    apply find_some in F' as [Hin Hv]. apply negb_true_iff in Hv. apply mem_false in Hv.
    split; [|exact Hv]. right. apply (par_sources_spec g k ps s P). exact Hin.
Qed.
Lemma next_source_none g visited k : next_source g visited k = Some None ->
  (exists es, edges_of g k = Some es) /\ forall s, same_block g s k -> In s visited.
Proof.
  unfold next_source. destruct (edges_of g k) as [es|] eqn:E; cbn; [|discriminate].
  destruct (find _ (audio_sources es)) as [x|] eqn:F; [discriminate|].
  destruct (pedges_of g k) as [ps|] eqn:P; cbn; [|discriminate]. intros H. injection H as F'.
  split; [eauto|]. intros s Hs. apply (same_block_spec g s k es ps E P) in Hs.
  destruct (mem s visited) eqn:M; [apply mem_In; exact M|]. exfalso.
  destruct Hs as [Hs|Hs]; [eapply find_none in F|eapply find_none in F'];
    try exact Hs; cbn in *; rewrite M in *; discriminate.
Qed.
Lemma live_edges g k : live g k <-> exists es, edges_of g k = Some es.
Proof.
  unfold live, edges_of. destruct (lookup g k) as [n|]; cbn.
  - split; [intros (m & es & E & H); injection E as <-; eauto|intros (es & H); exists n, es; auto].
  - split; [intros (m & es & E & _); discriminate|intros (es & H); discriminate].
Qed.
Lemma live_pedges g k : shape g -> live g k -> exists ps, pedges_of g k = Some ps.
Proof.
  intros Hs (n & es & El & Ee). unfold pedges_of. rewrite El. cbn.
  destruct (sh_node g Hs k n El) as (_ & _ & Hp). destruct (n_pedges n) as [ps|] eqn:E; [eauto|].
  exfalso. assert (n_edges n = None) by (apply Hp; reflexivity). congruence.
Qed.
Lemma next_source_total g visited k : shape g -> live g k -> exists r, next_source g visited k = Some r.
Proof.
  intros Hs Hl. destruct (live_pedges g k Hs Hl) as [ps P]. apply live_edges in Hl as [es E].
  unfold next_source. rewrite E. cbn. destruct (find _ _); [eauto|]. rewrite P. cbn. eauto.
Qed.

(** ** depth first search: partial correctness *)
Definition safe_pairs (g : graph) : list key -> Prop := ForallOrdPairs (fun x y => ~ upstream g y x).
Record dfs_inv (g : graph) (visited stack out : list key) : Prop := {
  di_nodup : NoDup (out ++ stack);
  di_vis : forall k, In k visited <-> In k out \/ In k stack;
  di_live : forall k, In k out -> live g k }.
Lemma dfs_push g visited k stack out s : dfs_inv g visited (k :: stack) out -> ~ In s visited ->
  dfs_inv g (s :: visited) (s :: k :: stack) out.
Proof.
  intros [H1 H2 H3] Hs. constructor; [| |exact H3].
  - apply NoDup_Add with (a := s) (l := out ++ k :: stack); [apply Add_app|]. split; [exact H1|].
    rewrite in_app_iff, <- H2. exact Hs.
  - intros x. cbn [In]. rewrite H2. cbn [In]. tauto.
Qed.
Lemma dfs_pop g visited k stack out : dfs_inv g visited (k :: stack) out -> live g k ->
  dfs_inv g visited stack (k :: out).
Proof.
  intros [H1 H2 H3] Hl. constructor.
  - cbn. apply NoDup_Add with (a := k) (l := out ++ stack); [apply Add_head|].
    apply NoDup_remove in H1. exact H1.
  - intros x. rewrite H2. cbn [In]. tauto.
  - intros x [<-|Hx]; auto.
Qed.
Lemma dfs_spec g fuel : forall visited stack out v ord, dfs_inv g visited stack out ->
  dfs g fuel visited stack out = Some (v, ord) ->
  NoDup ord /\ (forall k, In k ord <-> In k v) /\ (forall k, In k ord -> live g k) /\ incl visited v /\
  (forall k s, In k ord -> ~ In k out -> same_block g s k -> In s v).
Proof.
  induction fuel as [|fuel IH]; intros visited stack out v ord Hi H;
    destruct stack as [|k stack]; cbn [dfs] in H; try discriminate.
  1, 2: injection H as <- <-; destruct Hi as [H1 H2 H3]; rewrite app_nil_r in H1;
    (split; [apply NoDup_rev; exact H1|]); (split; [intros k; rewrite <- in_rev, H2; cbn; tauto|]);
    (split; [intros k Hk; apply H3; apply in_rev; exact Hk|]); split; [apply incl_refl|];
    intros k s Hk Hn; exfalso; apply Hn; apply in_rev; exact Hk.
  destruct (next_source g visited k) as [r|] eqn:E; cbn [bind] in H; [|discriminate].
  destruct r as [s|].
  - apply next_source_some in E as [Hs Hv]. destruct (IH _ _ _ _ _ (dfs_push _ _ _ _ _ _ Hi Hv) H) as (A & B & C & D & F).
    split; [exact A|]. split; [exact B|]. split; [exact C|]. split; [|exact F].
    intros x Hx. apply D. right. exact Hx.
  - apply next_source_none in E as [He Hs]. apply live_edges in He.
    destruct (IH _ _ _ _ _ (dfs_pop _ _ _ _ _ Hi He) H) as (A & B & C & D & F).
    split; [exact A|]. split; [exact B|]. split; [exact C|]. split; [exact D|].
    intros x s Hx Hn Hb. destruct (Nat.eq_dec x k) as [->|Hne]; [apply D; auto|].
    apply (F x s Hx); [|exact Hb]. intros [Hk|Ho]; [congruence|]. auto.
Qed.

(** The emitted nodes are in order. *)
Definition sorted_out (g : graph) (out : list key) : Prop :=
  forall l1 k l2 s, out = l1 ++ k :: l2 -> same_block g s k -> In s l2.
Lemma sorted_cons g k out : sorted_out g out -> (forall s, same_block g s k -> In s out) -> sorted_out g (k :: out).
Proof.
  intros Ho Hk l1 x l2 s E Hs. destruct l1 as [|y l1]; cbn in E; injection E as <- E.
  - subst out. auto.
  - eapply Ho; eauto.
Qed.
Lemma dfs_sorted g fuel : (forall k, ~ upstream g k k) ->
  forall visited stack out v ord, dfs_inv g visited stack out -> safe_pairs g stack -> sorted_out g out ->
  dfs g fuel visited stack out = Some (v, ord) -> sorted_out g (rev ord).
Proof.
  intros Hac. induction fuel as [|fuel IH]; intros visited stack out v ord Hi Hp Ho H;
    destruct stack as [|k stack]; cbn [dfs] in H; try discriminate.
  1, 2: injection H as _ <-; rewrite rev_involutive; exact Ho.
  destruct (next_source g visited k) as [r|] eqn:E; cbn [bind] in H; [|discriminate].
  inversion Hp as [|? ? Hk Hp']; subst. rewrite Forall_forall in Hk.
  destruct r as [s|].
  - apply next_source_some in E as [Hs Hv]. eapply (IH _ _ _ _ _ (dfs_push _ _ _ _ _ _ Hi Hv)); [|exact Ho|exact H].
    constructor; [|exact Hp]. rewrite Forall_forall. intros y Hy Hup.
    assert (Hyk : upstream g y k) by (eapply t_trans; [exact Hup|apply t_step; exact Hs]).
    destruct Hy as [<-|Hy]; [exact (Hac _ Hyk)|exact (Hk _ Hy Hyk)].
  - apply next_source_none in E as [He Hs]. apply live_edges in He.
    eapply (IH _ _ _ _ _ (dfs_pop _ _ _ _ _ Hi He)); [exact Hp'| |exact H].
    apply sorted_cons; [exact Ho|]. intros s Hb. specialize (Hs s Hb). apply (di_vis _ _ _ _ Hi) in Hs.
    destruct Hs as [Hs|[<-|Hs]]; [exact Hs| |].
    + exfalso. apply (Hac k). apply t_step. exact Hb.
    + exfalso. apply (Hk s Hs). apply t_step. exact Hb.
Qed.

(** ** depth first search: termination *)
Definition unseen (g : graph) (visited : list key) : nat :=
  List.length (filter (fun k => negb (mem k visited)) (keys g)).
Lemma unseen_push g visited s : In s (keys g) -> ~ In s visited -> unseen g (s :: visited) < unseen g visited.
Proof.
  intros Hin Hn. unfold unseen. eapply filter_lt with (x := s); [|exact Hin| |].
  - intros y Hy. cbn in Hy. apply negb_true_iff in Hy. apply negb_true_iff. apply orb_false_iff in Hy. apply Hy.
  - apply negb_true_iff. apply mem_false. exact Hn.
  - cbn. rewrite Nat.eqb_refl. reflexivity.
Qed.
Lemma live_key g k : live g k -> In k (keys g).
Proof. intros (n & es & El & _). eapply lookup_key; eauto. Qed.
Lemma dfs_total g : shape g -> (forall s k, same_block g s k -> live g s) ->
  forall fuel visited stack out, (forall k, In k stack -> live g k) ->
  2 * unseen g visited + List.length stack <= fuel ->
  exists r, dfs g fuel visited stack out = Some r.
Proof.
  intros Hsh Hlive. induction fuel as [|fuel IH]; intros visited stack out Hst Hf;
    destruct stack as [|k stack]; cbn [dfs]; try (eexists; reflexivity).
  - cbn in Hf. lia.
  - destruct (next_source_total g visited k Hsh) as [r E]; [apply Hst; left; reflexivity|].
    rewrite E. cbn [bind]. destruct r as [s|].
    + apply next_source_some in E as [Hs Hv]. apply IH.
      * intros x [<-|Hx]; [eauto|auto].
      * pose proof (unseen_push g visited s (live_key _ _ (Hlive _ _ Hs)) Hv). cbn [List.length] in *. lia.
    + apply IH; [intros x Hx; apply Hst; right; exact Hx|]. cbn [List.length] in Hf. lia.
Qed.

(** ** start nodes *)
Lemma next_reader_feeds g k r : NoDup (keys g) -> next_reader g k = Some r -> feeds g k r.
Proof.
  intros Hnd H. unfold next_reader in H. destruct (find _ (g_nodes g)) as [[r' n]|] eqn:F; [|discriminate].
  injection H as <-. apply find_some in F as [Hin Hr]. cbn [snd fst] in *. unfold reads_from in Hr.
  assert (El : lookup g r' = Some n).
  { unfold lookup, keys in *. revert Hnd Hin. clear. induction (g_nodes g) as [|[k0 n0] l IH]; cbn; [tauto|].
    intros Hd Hin. inversion Hd as [|? ? Hn Hd']; subst. destruct (Nat.eqb_spec k0 r') as [->|Hne].
    - destruct Hin as [E|Hin]; [congruence|]. exfalso. apply Hn. apply in_map_iff. exists (r', n). auto.
    - destruct Hin as [E|Hin]; [congruence|auto]. }
  destruct (n_edges n) as [es|] eqn:Ee; [|discriminate].
  apply existsb_exists in Hr as (o & Ho & Hf). destruct o as [e|]; [|discriminate].
  apply In_nth_error in Ho as [c Hc]. exists c, e. split; [|apply from_key_spec; exact Hf].
  exact (in_edge_lookup g r' n es c (Some e) El Ee Hc).
Qed.
Lemma is_out_spec g k : is_out g k = true <-> feeds_output g k.
Proof.
  unfold is_out, feeds_output. rewrite existsb_exists. split.
  - intros (o & Hin & Hf). destruct o as [e|]; [|discriminate]. apply In_nth_error in Hin as [c Hc].
    exists c, e. unfold out_edge. rewrite Hc. split; [reflexivity|]. apply from_key_spec. exact Hf.
  - intros (c & e & He & Hs). unfold out_edge in He. destruct (nth_error (g_outs g) c) as [o|] eqn:E; [|discriminate].
    subst o. exists (Some e). split; [eapply nth_error_In; eauto|]. apply from_key_spec. exact Hs.
Qed.
Lemma deepest_loop_spec g visited : NoDup (keys g) -> forall fuel last last_out d,
  deepest_loop g visited fuel last last_out = Some d ->
  (feeds_output g last_out -> feeds_output g d) /\
  (forall a, reaches g a last -> reaches g a last_out -> reaches g a d).
Proof.
  intros Hnd. induction fuel as [|fuel IH]; intros last last_out d H; cbn [deepest_loop] in H;
    (destruct (mem last visited); [injection H as <-; auto|]);
    (destruct (next_reader g last) as [r|] eqn:E; [|injection H as <-; auto]); [discriminate|].
  apply IH in H as [A B]. apply next_reader_feeds in E; [|exact Hnd]. split.
  - intros Ho. apply A. destruct (is_out g r) eqn:Eo; [apply is_out_spec; exact Eo|exact Ho].
  - intros a Ha Hb. apply B; [eapply rt_trans; [exact Ha|apply rt_step; exact E]|].
    destruct (is_out g r); [eapply rt_trans; [exact Ha|apply rt_step; exact E]|exact Hb].
Qed.
Lemma deepest_spec g visited s d : NoDup (keys g) -> deepest g visited s = Some d ->
  (feeds_output g s -> feeds_output g d) /\ reaches g s d.
Proof.
  intros Hnd H. apply deepest_loop_spec in H as [A B]; [|exact Hnd]. split; [exact A|].
  apply B; apply rt_refl.
Qed.
Lemma deepest_loop_total g visited : inv g -> forall fuel last last_out path,
  NoDup path -> incl path (keys g) -> (forall x, In x path -> clos_trans key (feeds g) x last \/ x = last) ->
  List.length (g_nodes g) < fuel + List.length path -> exists d, deepest_loop g visited fuel last last_out = Some d.
Proof.
  intros Hi. induction fuel as [|fuel IH]; intros last last_out path Hnd Hincl Hp Hf; cbn [deepest_loop];
    (destruct (mem last visited); [eauto|]); (destruct (next_reader g last) as [r|] eqn:E; [|eauto]).
  - exfalso. pose proof (NoDup_incl_length Hnd Hincl) as Hl. unfold keys in Hl. rewrite map_length in Hl. lia.
  - apply next_reader_feeds in E; [|exact (bi_nodup g (proj1 Hi))].
    assert (Hx : forall x, In x path -> clos_trans key (feeds g) x r).
    { intros x Hx. destruct (Hp x Hx) as [H| ->]; [eapply t_trans; [exact H|apply t_step; exact E]|apply t_step; exact E]. }
    apply (IH r _ (r :: path)).
    + constructor; [|exact Hnd]. intros Hin. apply (wf_no_cycle g (proj2 Hi)). exists r. auto.
    + intros x [<-|Hx']; [|auto]. destruct E as (c & e & He & _). eapply in_edge_key; eauto.
    + intros x [<-|Hx']; auto.
    + cbn [List.length]. lia.
Qed.
Lemma deepest_total g visited s : inv g -> exists d, deepest g visited s = Some d.
Proof.
  intros Hi. unfold deepest. apply (deepest_loop_total g visited Hi _ s s []).
  - constructor.
  - intros x [].
  - intros x [].
  - cbn. lia.
Qed.
Definition out_in (g : graph) (outs : list (option edge)) : Prop :=
  forall e, In (Some e) outs -> forall s, e_src e = Some s -> feeds_output g s.
Lemma roots_loop_spec g : NoDup (keys g) -> forall outs visited r, out_in g outs -> NoDup visited ->
  (forall k, In k visited -> feeds_output g k) ->
  roots_loop g outs visited = Some r ->
  NoDup r /\ (forall k, In k r -> feeds_output g k) /\ incl visited r /\
  (forall e s, In (Some e) outs -> e_src e = Some s -> exists d, In d r /\ reaches g s d).
Proof.
  intros Hk. induction outs as [|o outs IH]; intros visited r Ho Hnd Hv H; cbn [roots_loop] in H.
  - injection H as <-. split; [exact Hnd|]. split; [exact Hv|]. split; [apply incl_refl|]. intros e s [].
  - assert (Ho' : out_in g outs) by (intros e He; apply Ho; right; exact He).
    assert (Hskip : (forall e s, o = Some e -> e_src e = Some s -> False) ->
      roots_loop g outs visited = Some r ->
      NoDup r /\ (forall k, In k r -> feeds_output g k) /\ incl visited r /\
      (forall e s, In (Some e) (o :: outs) -> e_src e = Some s -> exists d, In d r /\ reaches g s d)).
    { intros Hno H'. destruct (IH _ _ Ho' Hnd Hv H') as (A & B & C & D). repeat (split; [assumption|]).
      intros e s [E|Hin] Hs; [exfalso; eapply Hno; eauto|eauto]. }
    destruct o as [[[s|] ch fb]|]; [|apply Hskip; [intros e s E; injection E as <-; discriminate|exact H]|
                                     apply Hskip; [discriminate|exact H]].
    destruct (deepest g visited s) as [d|] eqn:E; cbn [bind] in H; [|discriminate].
    apply deepest_spec in E as [Hd Hr]; [|exact Hk].
    assert (Hds : feeds_output g d).
    { apply Hd. apply (Ho (mk_edge (Some s) ch fb)); [left; reflexivity|reflexivity]. }
    destruct (mem d visited) eqn:M.
    + apply mem_In in M. destruct (IH _ _ Ho' Hnd Hv H) as (A & B & C & D). repeat (split; [assumption|]).
      intros e s' [E|Hin] Hs; [|eauto]. injection E as <-. cbn in Hs. injection Hs as <-. eauto.
    + apply mem_false in M.
      destruct (IH (d :: visited) r Ho') as (A & B & C & D); [constructor; auto| |exact H|].
      { intros k [<-|Hin]; auto. }
      split; [exact A|]. split; [exact B|]. split; [intros x Hx; apply C; right; exact Hx|].
      intros e s' [E|Hin] Hs; [|eauto]. injection E as <-. cbn in Hs. injection Hs as <-.
      exists d. split; [apply C; left; reflexivity|exact Hr].
Qed.
Lemma outs_out_in g : out_in g (g_outs g).
Proof.
  intros e Hin s Hs. apply In_nth_error in Hin as [c Hc]. exists c, e. unfold out_edge. rewrite Hc. auto.
Qed.
Lemma roots_spec g r : NoDup (keys g) -> roots g = Some r ->
  NoDup r /\ (forall k, In k r -> feeds_output g k) /\ (forall k, feeds_output g k -> exists d, In d r /\ reaches g k d).
Proof.
  intros Hk H. apply roots_loop_spec in H; [|exact Hk|apply outs_out_in|constructor|intros k []].
  destruct H as (A & B & _ & D). split; [exact A|]. split; [exact B|]. intros k (c & e & He & Hs).
  unfold out_edge in He. destruct (nth_error (g_outs g) c) as [o|] eqn:E; [|discriminate]. subst o.
  eapply D; [eapply nth_error_In; eauto|exact Hs].
Qed.
Lemma roots_total g : inv g -> exists r, roots g = Some r.
Proof.
  intros Hi. unfold roots. generalize (@nil key) as visited.
  induction (g_outs g) as [|o outs IH]; intros visited; cbn [roots_loop]; [eauto|].
  destruct o as [[[s|] ch fb]|]; auto.
  destruct (deepest_total g visited s Hi) as [d ->]. cbn [bind]. apply IH.
Qed.

(** ** the whole order *)
Lemma filter_length_le {A} (f : A -> bool) l : List.length (filter f l) <= List.length l.
Proof. induction l as [|x l IH]; cbn; [lia|]. destruct (f x); cbn; lia. Qed.
Lemma NoDup_app_intro {A} (l1 l2 : list A) : NoDup l1 -> NoDup l2 -> (forall x, In x l1 -> In x l2 -> False) -> NoDup (l1 ++ l2).
Proof.
  intros H1 H2 H. induction H1 as [|x l1 Hx H1 IH]; cbn; [exact H2|]. constructor.
  - rewrite in_app_iff. intros [Hin|Hin]; [contradiction|]. apply (H x); [left; reflexivity|exact Hin].
  - apply IH. intros y Hy. apply H. right. exact Hy.
Qed.
Lemma dfs_start g r : NoDup r -> dfs_inv g r r [].
Proof. intros H. constructor; [exact H|intros k; cbn; tauto|intros k []]. Qed.
Lemma order_once g ord : wf g -> node_order g = Some ord ->
  NoDup ord /\ (forall k, In k ord <-> live g k).
Proof.
  intros [Hi Hsh] H. unfold node_order, node_order2 in H.
  destruct (roots g) as [r|] eqn:Er; cbn [bind] in H; [|discriminate].
  pose proof (bi_nodup g (proj1 Hi)) as Hk.
  destruct (roots_spec g r Hk Er) as (Hnr & _ & _).
  destruct (dfs g _ r r []) as [[v o1]|] eqn:Ed; cbn [bind fst snd] in H; [|discriminate]. injection H as <-.
  destruct (dfs_spec _ _ _ _ _ _ _ (dfs_start g r Hnr) Ed) as (A & B & C & _ & _).
  assert (Hrest : forall k, In k (filter (fun k => negb (mem k v) && negb (is_pending g k)) (map fst (g_nodes g))) <->
    In k (keys g) /\ ~ In k v /\ is_pending g k = false).
  { intros k. rewrite filter_In, andb_true_iff, !negb_true_iff, mem_false. reflexivity. }
  split.
  - apply NoDup_app_intro; [exact A|apply NoDup_filter; exact Hk|].
    intros k H1 H2. apply Hrest in H2 as (_ & H2 & _). apply H2. apply B. exact H1.
  - intros k. rewrite in_app_iff, Hrest. split.
    + intros [H|(H1 & _ & H3)]; [auto|]. destruct (In_keys_lookup g k H1) as [n El].
      destruct (n_edges n) as [es|] eqn:Ee; [exists n, es; auto|].
      apply (sh_pend g Hsh k n El) in Ee. congruence.
    + intros Hl. destruct (in_dec Nat.eq_dec k v) as [Hv|Hv]; [left; apply B; exact Hv|right].
      split; [apply live_key; exact Hl|]. split; [exact Hv|]. destruct Hl as (n & es & El & Ee).
      apply not_true_iff_false. intros Hp. apply (sh_pend g Hsh k n El) in Hp. congruence.
Qed.
Lemma order_total g : wf g -> sources_live g -> exists ord, node_order g = Some ord.
Proof.
  intros [Hi Hsh] [Hs Ho]. destruct (roots_total g Hi) as [r Er].
  destruct (roots_spec g r (bi_nodup g (proj1 Hi)) Er) as (_ & Hr & _).
  unfold node_order, node_order2. rewrite Er. cbn [bind].
  destruct (dfs_total g Hsh Hs (2 * List.length (g_nodes g) + List.length r) r r []) as [[v o1] Ed].
  - intros k Hk. apply Ho. apply Hr. exact Hk.
  - unfold unseen. pose proof (filter_length_le (fun k => negb (mem k r)) (keys g)) as Hl.
    unfold keys in Hl at 2. rewrite map_length in Hl. lia.
  - rewrite Ed. cbn. eauto.
Qed.
Lemma safe_pairs_indep g r : NoDup r -> (forall a b, In a r -> In b r -> a <> b -> ~ upstream g a b) -> safe_pairs g r.
Proof.
  intros Hnd. induction r as [|x r IH]; intros H; [constructor|]. inversion Hnd as [|? ? Hx Hnd']; subst.
  constructor.
  - rewrite Forall_forall. intros y Hy. apply H; [right; exact Hy|left; reflexivity|]. intros ->. contradiction.
  - apply IH; [exact Hnd'|]. intros a b Ha Hb. apply H; right; assumption.
Qed.
Lemma after_sources_app g o1 o2 k : NoDup (o1 ++ o2) -> sorted_out g (rev o1) -> In k o1 -> after_sources g (o1 ++ o2) k.
Proof.
  intros Hnd Hs Hk l1 l2 s E Hb. apply in_split in Hk as (a & b & ->).
  assert (El : l1 = a).
  { rewrite <- app_assoc in E. cbn in E. rewrite <- app_assoc in Hnd. cbn in Hnd.
    clear - E Hnd. revert l1 E. induction a as [|x a IH]; intros l1 E.
    - destruct l1 as [|y l1]; [reflexivity|]. cbn in E. injection E as <- E. exfalso.
      inversion Hnd as [|? ? Hn _]; subst. apply Hn. rewrite E. apply in_or_app. right. left. reflexivity.
    - destruct l1 as [|y l1]; cbn in E; injection E as <- E.
      + exfalso. inversion Hnd as [|? ? Hn _]; subst. apply Hn. apply in_or_app. right. left. reflexivity.
      + f_equal. apply IH; [|exact E]. inversion Hnd; assumption. }
  subst l1. rewrite rev_app_distr in Hs. cbn [rev] in Hs. rewrite <- app_assoc in Hs.
  apply in_rev. eapply (Hs (rev b) k (rev a) s); [reflexivity|exact Hb].
Qed.
(** The connected part is sorted when no start node is upstream of a later one. *)
Lemma order_sorted g o1 o2 r : wf g -> (forall k, ~ upstream g k k) ->
  node_order2 g = Some (o1, o2) -> roots g = Some r -> safe_pairs g r ->
  forall k, In k o1 -> after_sources g (o1 ++ o2) k.
Proof.
  intros Hw Hac H Er Hp k Hk.
  assert (Hnd : NoDup (o1 ++ o2)).
  { apply (order_once g (o1 ++ o2) Hw). unfold node_order. rewrite H. reflexivity. }
  unfold node_order2 in H. rewrite Er in H. cbn [bind] in H.
  destruct (dfs g _ r r []) as [[v o]|] eqn:Ed; cbn [bind] in H; [|discriminate]. injection H as -> <-.
  destruct (roots_spec g r (bi_nodup g (proj1 (proj1 Hw))) Er) as (Hnr & _ & _).
  apply after_sources_app; [exact Hnd| |exact Hk].
  eapply dfs_sorted; [exact Hac|apply dfs_start; exact Hnr|exact Hp| |exact Ed].
  intros l1 x l2 s E. destruct l1; discriminate.
Qed.
(** Every heard node is in the connected part, if no connection is marked as feedback. *)
Lemma heard_connected g o1 o2 : wf g -> (forall k c e, in_edge g k c = Some e -> e_fb e = false) ->
  node_order2 g = Some (o1, o2) -> forall k, heard g k -> In k o1.
Proof.
  intros Hw Hfb H k (r0 & Hout & Hk). unfold node_order2 in H.
  destruct (roots g) as [r|] eqn:Er; cbn [bind] in H; [|discriminate].
  destruct (roots_spec g r (bi_nodup g (proj1 (proj1 Hw))) Er) as (Hnr & _ & Hroot).
  destruct (dfs g _ r r []) as [[v o]|] eqn:Ed; cbn [bind] in H; [|discriminate]. injection H as -> <-.
  destruct (dfs_spec _ _ _ _ _ _ _ (dfs_start g r Hnr) Ed) as (_ & B & _ & D & F).
  assert (Hclos : forall a b, clos_refl_trans key (same_block g) a b -> In b o1 -> In a o1).
  { intros a b Hab. induction Hab as [a b Hs| |a b c _ IH1 _ IH2]; auto.
    intros Hb. apply B. eapply F; eauto. }
  eapply Hclos; [exact Hk|]. destruct (Hroot r0 Hout) as (d & Hd & Hr).
  eapply Hclos; [|apply B; apply D; exact Hd].
  clear - Hr Hfb. induction Hr as [a b (c & e & He & Hs)| |a b c _ IH1 _ IH2].
  - apply rt_step. left. exists c, e. split; [exact He|]. split; [exact Hs|]. eapply Hfb; eauto.
  - apply rt_refl.
  - eapply rt_trans; eauto.
Qed.

(** Without parameter links the same-block relation is a part of the stored connections. *)
Lemma upstream_feeds g : (forall s k, ~ par_feeds g s k) -> forall a b, upstream g a b -> clos_trans key (feeds g) a b.
Proof.
  intros Hp a b H. induction H as [a b [(c & e & He & Hs & _)|H]|].
  - apply t_step. exists c, e. auto.
  - exfalso. exact (Hp _ _ H).
  - eapply t_trans; eauto.
Qed.
Lemma refs_sources_live g : refs_ok g -> (forall s k, ~ par_feeds g s k) -> sources_live g.
Proof.
  intros [H1 H2] Hp. split.
  - intros s k [(c & e & He & Hs & _)|H]; [|exfalso; exact (Hp _ _ H)].
    specialize (H1 k c e He). unfold edge_ok in H1. rewrite Hs in H1. destruct H1 as (n & El & Hne & _).
    destruct (n_edges n) as [es|] eqn:E; [|congruence]. exists n, es. auto.
  - intros k (c & e & He & Hs). specialize (H2 c e He). unfold edge_ok in H2. rewrite Hs in H2.
    destruct H2 as (n & El & Hne & _). destruct (n_edges n) as [es|] eqn:E; [|congruence]. exists n, es. auto.
Qed.
