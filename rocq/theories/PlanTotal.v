(** Planning succeeds. *)
From Verif Require Import Base GraphModel GraphSpec GraphBase GraphPath GraphInv GraphShape GraphRefs GraphClean
  OrderModel OrderSpec OrderProofs AllocModel AllocProofs PlaceProofs PlanProofs.
Local Open Scope nat_scope.

(** Parameter links come from existing outputs. *)
Definition pars_ok (g : graph) : Prop := forall k ps p, pedges_of g k = Some ps -> In p ps ->
  exists n, lookup g (p_src p) = Some n /\ n_edges n <> None /\ p_chan p < n_outputs n.
Lemma some_live g s n : lookup g s = Some n -> n_edges n <> None -> live g s.
Proof. intros H E. destruct (n_edges n) as [es|] eqn:E'; [|congruence]. exists n, es. auto. Qed.
Lemma refs_live g : refs_ok g -> pars_ok g ->
  (forall s k, depends g s k -> live g s) /\ (forall s, feeds_output g s -> live g s).
Proof.
  intros [H1 H2] Hp. split.
  - intros s k [(c & e & He & Hs)|(n & ps & p & El & E & Hin & <-)].
    + specialize (H1 k c e He). unfold edge_ok in H1. rewrite Hs in H1. destruct H1 as (n & El & Hne & _).
      eapply some_live; eauto.
    + destruct (Hp k ps p) as (m & Em & Hne & _); [unfold pedges_of; rewrite El; exact E|exact Hin|]. eapply some_live; eauto.
  - intros s (c & e & He & Hs). specialize (H2 c e He). unfold edge_ok in H2. rewrite Hs in H2.
    destruct H2 as (n & El & Hne & _). eapply some_live; eauto.
Qed.
Lemma same_depends g s k : same_block g s k -> depends g s k.
Proof. intros [(c & e & He & Hs & _)|H]; [left; exists c, e; auto|right; exact H]. Qed.

Lemma plan_total g bs a old : wf g -> refs_ok g -> pars_ok g -> 0 < bs -> (N.of_nat (links g) < usize_max)%N ->
  (forall k n, lookup g k = Some n -> 0 < n_outputs n) -> exists r, plan g bs a old = Some r.
Proof.
  intros Hw Hr Hpo Hbs Hlinks Hpos. destruct (refs_live g Hr Hpo) as [Hdl Hol].
  destruct (order_total g Hw) as [order Ho].
  { split; [intros s k H; eapply Hdl; apply same_depends; exact H|exact Hol]. }
  destruct (order_once g order Hw Ho) as [Hnd Hlv].
  unfold plan. rewrite Ho. cbn [bind].
  assert (sources_present g = true) as ->.
  { unfold sources_present. apply forallb_forall. intros s Hs. apply in_flat_map in Hs as (k & _ & Hs).
    apply sources_spec in Hs. destruct (Hdl s k Hs) as (n & es & -> & _). reflexivity. }
  destruct (reset_spec a bs) as (a0 & -> & Hl & _ & Hb & Hret & _). cbn [bind].
  pose proof (start_pinv g bs a0 order old Hbs Hlinks Hl Hb Hret Hnd (order_incl g order Hw Ho)) as Hp0.
  assert (Hap : all_pos a0). { intros i b Hi. rewrite Hb in Hi. destruct i as [|[|i]]; cbn in Hi; [|discriminate|discriminate]. injection Hi as <-. exact Hbs. }
  assert (Hlive : forall k, In k order -> edges_of g k <> None /\ pedges_of g k <> None).
  { intros k Hk. apply Hlv in Hk. pose proof (live_pedges g k (proj2 Hw) Hk) as [ps Eps].
    destruct Hk as (n & es & El & Ee). split; [unfold edges_of; rewrite El; cbn; congruence|congruence]. }
  assert (Hout : forall s n, 0 < dependents g s -> lookup g s = Some n -> 0 < n_outputs n) by (intros; eapply Hpos; eassumption).
  destruct (loop_total g bs Hbs Hout Hpos order a0 _ [] _ Hp0 Hap Hnd Hlive) as [[a2 outs] Hloop].
  rewrite Hloop. cbn [bind fst snd].
  destruct (loop_step g bs Hbs Hout order _ _ [] _ Hp0 Hnd _ _ Hloop) as (ix & Hp & _ & _). cbn [app] in Hp.
  destruct (p_zero _ _ _ _ _ _ _ Hp) as (b0 & Z1 & Z2 & Z3 & _). pose proof (p_lay _ _ _ _ _ _ _ Hp) as Hlay.
  assert (Hsz : forall i b, nth_error (a_blocks a2) i = Some b -> b_start b + b_len b <= a_size (finish a2)).
  { intros i b Hi. pose proof (la_next _ Hlay _ _ Hi). pose proof (la_virtual _ Hlay). cbn.
    destruct (Nat.leb_spec (a_virtual a2) (a_size a2)); lia. }
  assert (Haddr : forall k, live g k -> exists p, addr_of (finish a2) outs order k = Some p).
  { intros k Hk. apply Hlv in Hk. unfold addr_of. rewrite (proj2 (mem_In k order) Hk).
    destruct (p_done _ _ _ _ _ _ _ Hp k Hk) as (n & b & A1 & A2 & A3 & A4 & _). rewrite A3. unfold offset_to_ptr.
    specialize (Hsz _ _ A2). specialize (Hpos _ _ A1). destruct (Nat.ltb_spec (b_start b) (a_size (finish a2))); [eauto|]. nia. }
  assert (Hzero : offset_to_ptr (finish a2) 0 = Some 0).
  { unfold offset_to_ptr. specialize (Hsz _ _ Z1). destruct (Nat.ltb_spec 0 (a_size (finish a2))); [reflexivity|lia]. }
  destruct (map_opt_total (node_task g (finish a2) outs order bs) order) as [ts ->].
  { intros k Hk. destruct (Hlive k Hk) as [He Hpe]. unfold node_task.
    destruct (proj1 (Hlv k) Hk) as (n & es' & El & _). rewrite El. cbn [bind].
    destruct (edges_of g k) as [es|] eqn:E1; [|congruence]. destruct (pedges_of g k) as [ps|] eqn:E2; [|congruence]. cbn [bind].
    destruct (map_opt_total (in_addr (finish a2) outs order bs) es) as [ins ->].
    { intros [e|] Hin; cbn [in_addr]; [|rewrite Hzero; cbn; eauto]. destruct (e_src e) as [s|] eqn:Es; [|eauto].
      destruct (Haddr s) as [p ->]; [|cbn; eauto]. apply (Hdl s k). left. apply In_nth_error in Hin as [c Hc].
      exists c, e. split; [unfold in_edge; rewrite E1, Hc; reflexivity|exact Es]. }
    cbn [bind]. destruct (map_opt_total (par_addr g (finish a2) outs order bs) ps) as [prs ->].
    { intros p Hin. destruct (Hpo k ps p E2 Hin) as (m & Em & Hne & Hc). unfold par_addr. rewrite Em. cbn [bind].
      destruct (Haddr (p_src p)) as [q ->]; [eapply some_live; eauto|]. cbn [bind].
      destruct (Nat.ltb_spec (p_chan p) (n_outputs m)); [eauto|lia]. }
    cbn [bind]. destruct (Haddr k) as [p ->]; [apply Hlv; exact Hk|]. cbn. eauto. }
  cbn [bind]. destruct (map_opt_total (out_addr g (finish a2) outs order bs) (g_outs g)) as [os ->]; [|cbn; eauto].
  intros [e|] Hin; cbn [out_addr]; [|eauto]. destruct (e_src e) as [s|] eqn:Es; [|eauto].
  apply In_nth_error in Hin as [c Hc]. assert (Hoe : out_edge g c = Some e) by (unfold out_edge; rewrite Hc; reflexivity).
  pose proof (proj2 Hr c e Hoe) as Hok. unfold edge_ok in Hok. rewrite Es in Hok. destruct Hok as (n & En & Hne & Hlt).
  rewrite En. cbn [bind]. destruct (Haddr s) as [p ->]; [eapply some_live; eauto|]. cbn [bind].
  destruct (Nat.ltb_spec (e_chan e) (n_outputs n)); [eauto|lia].
Qed.
