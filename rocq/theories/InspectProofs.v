From Verif Require Import Base GraphModel GraphSpec GraphBase GraphPath GraphInv GraphShape GraphGrow OrderModel OrderSpec OrderProofs
  RuntimeModel RuntimeSpec RuntimeEvolve RuntimeSafe InspectModel InspectSpec.
Local Open Scope nat_scope.
Local Notation length := List.length.

(** ** the order kept by the graph *)
Section Inv.
Context {St X : Type}.
Variable init : key -> St.
Variable proc : X -> key -> St -> St.
Notation sys := (sys St X).
Notation y_g := (y_g St X). Notation y_order := (y_order St X).
Notation ystep := (ystep St X proc).

Record kept (y : sys) : Prop := {
  i_safe : RuntimeSafe.safe y;
  i_keys : forall k, In k (y_order y) -> In k (keys (y_g y));
  i_pend : forall k f, In k (y_order y) -> In (k, f) (g_pending (y_g y)) -> f = g_flag (y_g y);
  i_nodup : NoDup (y_order y);
  i_calm : g_recalc (y_g y) = false -> forall k, In k (y_order y) <-> live (y_g y) k }.

Lemma kept_evolve (y y' : sys) A : kept y -> RuntimeSafe.safe y' -> evolves A (y_g y) (y_g y') ->
  A (g_flag (y_g y)) = false -> y_order y' = y_order y -> kept y'.
Proof.
  intros [H1 H2 H3 H4 H5] Hs Hev HA Eo. constructor.
  - exact Hs.
  - intros k Hk. rewrite Eo in Hk. destruct (ev_back _ _ _ Hev k (H2 k Hk)) as [H|(f & Hf & Ha)]; [exact H|].
    rewrite (H3 k f Hk Hf) in Ha. congruence.
  - intros k f Hk Hf. rewrite Eo in Hk. rewrite (ev_flag _ _ _ Hev).
    destruct (ev_pend _ _ _ Hev k f Hf) as [[Hp _]|E]; [exact (H3 k f Hk Hp)|exact E].
  - rewrite Eo. exact H4.
  - intros Hr k. rewrite Eo. destruct (ev_calm _ _ _ Hev Hr) as (Hr0 & En & Hl). rewrite (H5 Hr0). split; [apply Hl|].
    intros Hk. apply (ev_live _ _ _ Hev k Hk). rewrite <- En. pose proof (ev_wf _ _ _ Hev) as Hw.
    apply (bi_lt _ (proj1 (proj1 Hw))). apply live_key. exact Hk.
Qed.
Lemma kept_same (y y' : sys) : kept y -> RuntimeSafe.safe y' -> y_g y' = y_g y -> y_order y' = y_order y -> kept y'.
Proof.
  intros [H1 H2 H3 H4 H5] Hs Eg Eo. constructor; rewrite ?Eg, ?Eo; assumption.
Qed.
Lemma kept_commit (y y' : sys) : kept y -> ystep y (YCommit X) = Some y' -> kept y'.
Proof.
  intros Hk H. pose proof (safe_step init proc y (YCommit X) y' (i_safe y Hk) H) as Hs. cbn [RuntimeModel.ystep] in H.
  unfold ycommit in H. destruct (free_old _ _) as [g1|] eqn:Ef; cbn [bind] in H; [|discriminate].
  pose proof (safe_fresh_flag y (i_safe y Hk)) as HA.
  pose proof (free_old_evolves _ _ _ (sf_wf y (i_safe y Hk)) HA Ef) as Hev.
  destruct (g_recalc g1) eqn:Er.
  - destruct (node_order g1) as [ord|] eqn:Eo; cbn [bind] in H; [|discriminate].
    destruct (order_once g1 ord (ev_wf _ _ _ Hev) Eo) as [Hnd Hin].
    assert (Hp : forall k, In k ord -> In k (keys g1) /\ ~ In k (map fst (g_pending g1))).
    { intros k Hi. apply (live_iff g1 k (ev_wf _ _ _ Hev)). apply Hin. exact Hi. }
    destruct (make_tasks St 0 ord _) as [ts ug]. destruct (_ <? _); injection H as <-; constructor; try exact Hs; cbn.
    + intros k Hi. apply (Hp k Hi).
    + intros k f Hi Hf. exfalso. apply (proj2 (Hp k Hi)). apply in_map_iff. exists (k, f). auto.
    + exact Hnd.
    + intros _ k. rewrite Hin. apply iff_sym. apply live_frame. reflexivity.
    + intros k Hi. apply (Hp k Hi).
    + intros k f Hi Hf. exfalso. apply (proj2 (Hp k Hi)). apply in_map_iff. exists (k, f). auto.
    + exact Hnd.
    + intros Hr. congruence.
  - injection H as <-. eapply kept_evolve; [exact Hk|exact Hs|exact Hev|exact HA|reflexivity].
Qed.
Lemma kept_step (y y' : sys) o : kept y -> ystep y o = Some y' -> kept y'.
Proof.
  intros Hk H. pose proof (safe_step init proc y o y' (i_safe y Hk) H) as Hs.
  destruct o as [e| | | | | |x]; [|exact (kept_commit y y' Hk H)|..].
  - assert (Hd : (exists fl, e = OpCommit fl) \/ forall fl, e <> OpCommit fl) by (destruct e; eauto; right; discriminate).
    destruct Hd as [[fl ->]|Hd].
    + cbn in H. injection H as <-. exact Hk.
    + assert (He : exists g' r, step (y_g y) e = Some (g', r) /\ y_g y' = g' /\ y_order y' = y_order y).
      { destruct e; cbn [RuntimeModel.ystep] in H; try (exfalso; eapply Hd; reflexivity);
          (destruct (step _ _) as [[g' r]|] eqn:E; cbn [bind] in H; [|discriminate]; injection H as <-; exists g', r; auto). }
      destruct He as (g' & r & E & Eg & Eo). subst g'.
      eapply kept_evolve; [exact Hk|exact Hs|exact (edit_evolves _ _ _ _ (sf_wf y (i_safe y Hk)) Hd E)|reflexivity|exact Eo].
  - cbn [RuntimeModel.ystep] in H. destruct (y_started _ _ y); [injection H as <-; exact Hk|].
    destruct (make_tasks St 0 _ _) as [ts ug]. injection H as <-. eapply kept_same; eauto.
  - cbn [RuntimeModel.ystep] in H. destruct (_ && _); injection H as <-; [|exact Hk]. eapply kept_same; eauto.
  - cbn [RuntimeModel.ystep] in H. destruct (y_reading _ _ y); [|injection H as <-; exact Hk].
    destruct (y_next _ _ y); [injection H as <-; exact Hk|]. destruct (y_chunk _ _ y); [injection H as <-; exact Hk|].
    destruct (take_all _ _ _) as [no|]; cbn [bind] in H; [|discriminate]. injection H as <-. eapply kept_same; eauto.
  - cbn [RuntimeModel.ystep] in H. destruct (y_next _ _ y); injection H as <-; [|exact Hk]. eapply kept_same; eauto.
  - cbn [RuntimeModel.ystep] in H. destruct (y_reading _ _ y); [|injection H as <-; exact Hk].
    destruct (y_next _ _ y); [injection H as <-; exact Hk|]. destruct (y_chunk _ _ y); [|injection H as <-; exact Hk].
    destruct (run_all _ _ _ _ _) as [ts|]; cbn [bind] in H; [|discriminate]. injection H as <-. eapply kept_same; eauto.
Qed.
Lemma kept_new id i o slots cap dcap : kept (sys_new St X init id i o slots cap dcap).
Proof.
  constructor; cbn.
  - apply (safe_new init).
  - intros k [].
  - intros k f [].
  - constructor.
  - intros _ k. split; [intros []|]. intros (n & es & E & _). discriminate E.
Qed.
Lemma kept_irun ops : forall (y : sys) disc y' disc', kept y -> irun St X proc y disc ops = Some (y', disc') -> kept y'.
Proof.
  induction ops as [|o ops IH]; intros y disc y' disc' Hk H; cbn [irun] in H.
  - injection H as <- <-. exact Hk.
  - destruct (ystep y o) as [y1|] eqn:E; cbn [bind] in H; [|discriminate].
    destruct (disc_step _ _ _ _ _) as [d1|]; cbn [bind] in H; [|discriminate].
    eapply IH; [|exact H]. eapply kept_step; eauto.
Qed.
End Inv.

(** ** the report *)
Fixpoint rep (fb : edge -> bool) (i : nat) (es : list (option edge)) : list edge_report :=
  match es with
  | [] => []
  | Some e :: es' => mk_er (e_src e) (e_chan e) i (fb e) :: rep fb (S i) es'
  | None :: es' => rep fb (S i) es'
  end.
Lemma report_inputs_rep es : forall i, report_inputs i es = rep (fun _ => false) i es.
Proof. induction es as [|[e|] es IH]; intros i; cbn; rewrite ?IH; reflexivity. Qed.
Lemma report_outs_rep es : forall i, report_outs i es = rep e_fb i es.
Proof. induction es as [|[e|] es IH]; intros i; cbn; rewrite ?IH; reflexivity. Qed.
Lemma rep_In fb es : forall i er, In er (rep fb i es) <-> exists c e, nth_error es c = Some (Some e) /\ er_to er = i + c /\
  er_src er = e_src e /\ er_from er = e_chan e /\ er_fb er = fb e.
Proof.
  induction es as [|o es IH]; intros i er; cbn [rep].
  - split; [intros []|]. intros (c & e & H & _). destruct c; discriminate H.
  - assert (Hr : In er (rep fb (S i) es) <-> exists c e, nth_error (o :: es) (S c) = Some (Some e) /\ er_to er = i + S c /\
      er_src er = e_src e /\ er_from er = e_chan e /\ er_fb er = fb e).
    { rewrite IH. split; intros (c & e & H1 & H2 & H3); exists c, e; (split; [exact H1|]); (split; [lia|exact H3]). }
    destruct o as [e|].
    + cbn [In]. rewrite Hr. split.
      * intros [<-|(c & e' & H)]; [exists 0, e|exists (S c), e'; exact H]. cbn. repeat split; lia.
      * intros (c & e' & H1 & H2 & H3 & H4 & H5). destruct c as [|c]; [left|right; exists c, e'; auto].
        cbn in H1. injection H1 as <-. destruct er as [a b c d]; cbn in *. subst. f_equal. lia.
    + rewrite Hr. split.
      * intros (c & e' & H). exists (S c), e'. exact H.
      * intros (c & e' & H1 & H). destruct c as [|c]; [discriminate H1|]. exists c, e'. auto.
Qed.
Lemma rep_sorted fb es : forall i, StronglySorted lt (map er_to (rep fb i es)).
Proof.
  induction es as [|o es IH]; intros i; cbn [rep map]; [constructor|]. destruct o as [e|]; [|apply IH].
  cbn [map er_to]. constructor; [apply IH|]. apply Forall_forall. intros x Hx. apply in_map_iff in Hx as (er & <- & Her).
  apply rep_In in Her as (c & e' & _ & H & _). lia.
Qed.
Lemma rep_reports fb es at_ : (forall c, at_ c = match nth_error es c with Some o => o | None => None end) ->
  reports at_ fb (rep fb 0 es).
Proof.
  intros Ha. split; [apply rep_sorted|]. intros er. rewrite rep_In. split.
  - intros (c & e & H1 & H2 & H3). exists e. rewrite Ha, H2. cbn. rewrite H1. auto.
  - intros (e & H1 & H2). rewrite Ha in H1. exists (er_to er), e. destruct (nth_error es (er_to er)) as [o|]; [|discriminate].
    subst o. auto.
Qed.

Lemma report_node_some g disc k r : report_node g disc k = Some r -> nr_key r = k /\ nr_unconnected r = mem k disc /\
  exists nd, lookup g k = Some nd /\ nr_inputs r = n_inputs nd /\ nr_outputs r = n_outputs nd /\ nr_params r = n_pdesc nd /\
    reports (in_edge g k) (fun _ => false) (nr_edges r).
Proof.
  unfold report_node. destruct (lookup g k) as [nd|] eqn:E; cbn [bind]; [|discriminate]. intros H. injection H as <-. cbn.
  split; [reflexivity|]. split; [reflexivity|]. exists nd. repeat (split; [reflexivity|]).
  assert (Hn : reports (fun _ => None) (fun _ => false) []).
  { split; [constructor|]. intros er. split; [intros []|]. intros (e & H & _). discriminate H. }
  unfold in_edge. destruct (edges_of g k) as [es|]; [|exact Hn]. rewrite report_inputs_rep. apply rep_reports. reflexivity.
Qed.
Lemma report_nodes_some g disc order : (forall k, In k order -> In k (keys g)) ->
  exists rs, report_nodes g disc order = Some rs.
Proof.
  induction order as [|k o IH]; intros H; cbn [report_nodes]; [eauto|].
  destruct (IH (fun k' Hk => H k' (or_intror Hk))) as [rs Er].
  unfold report_node. destruct (lookup g k) as [nd|] eqn:E; cbn [bind].
  - rewrite Er. cbn. eauto.
  - exfalso. specialize (H k (or_introl eq_refl)). unfold keys in H. apply in_map_iff in H as ([k' n] & Ek & Hin). cbn in Ek. subst k'.
    unfold lookup in E. revert E Hin. clear. induction (g_nodes g) as [|[k' n'] l IH]; intros E Hin; [destruct Hin|].
    cbn in E. destruct (k' =? k) eqn:Ek; [discriminate|]. destruct Hin as [Hi|Hi]; [|exact (IH E Hi)].
    injection Hi as -> ->. rewrite Nat.eqb_refl in Ek. discriminate.
Qed.
Lemma report_nodes_spec g disc order : forall rs, report_nodes g disc order = Some rs ->
  map nr_key rs = order /\ forall n, In n rs -> report_node g disc (nr_key n) = Some n.
Proof.
  induction order as [|k o IH]; intros rs H; cbn [report_nodes] in H.
  - injection H as <-. split; [reflexivity|intros n []].
  - destruct (report_node g disc k) as [r|] eqn:E; cbn [bind] in H; [|discriminate].
    destruct (report_nodes g disc o) as [rs'|] eqn:E'; cbn [bind] in H; [|discriminate]. injection H as <-.
    destruct (IH rs' eq_refl) as [A B]. destruct (report_node_some _ _ _ _ E) as [Ek _]. split.
    + cbn. rewrite A, Ek. reflexivity.
    + intros n [<-|Hn]; [rewrite Ek; exact E|exact (B n Hn)].
Qed.
Lemma inspection_spec g order disc r : inspection g order disc = Some r -> NoDup order ->
  describes g (fun k => In k order) r /\ map nr_key (gr_nodes r) = order /\
  forall n, In n (gr_nodes r) -> nr_unconnected n = mem (nr_key n) disc.
Proof.
  unfold inspection. destruct (report_nodes g disc order) as [rs|] eqn:E; cbn [bind]; [|discriminate]. intros H Hnd.
  injection H as <-. destruct (report_nodes_spec _ _ _ _ E) as [A B]. cbn [gr_nodes]. split; [|split].
  - unfold describes. cbn [gr_nodes gr_inputs gr_outputs gr_id gr_outs]. rewrite A. split; [exact Hnd|]. split; [reflexivity|].
    split; [|repeat (split; [reflexivity|]); rewrite report_outs_rep; apply rep_reports; reflexivity].
    intros n Hn. apply (report_node_some g disc (nr_key n) n (B n Hn)).
  - exact A.
  - intros n Hn. apply (report_node_some g disc (nr_key n) n (B n Hn)).
Qed.

(** ** the drawing *)
Lemma key_position_some k ns : forall i, key_position k ns = Some i -> exists m, nth_error ns i = Some m /\ nr_key m = k.
Proof.
  induction ns as [|n ns IH]; intros i H; cbn in H; [discriminate|].
  destruct (nr_key n =? k) eqn:E.
  - injection H as <-. exists n. split; [reflexivity|]. apply Nat.eqb_eq. exact E.
  - destruct (key_position k ns) as [j|]; cbn in H; [|discriminate]. injection H as <-. destruct (IH j eq_refl) as (m & H). exists m. exact H.
Qed.
Lemma key_position_In k ns : In k (map nr_key ns) -> key_position k ns <> None.
Proof.
  induction ns as [|n ns IH]; intros H; cbn in *; [destruct H|]. destruct (nr_key n =? k) eqn:E; [discriminate|].
  destruct H as [H|H]; [apply Nat.eqb_neq in E; contradiction|]. specialize (IH H). destruct (key_position k ns); [discriminate|contradiction].
Qed.
Lemma key_position_unique ns : NoDup (map nr_key ns) -> forall i m, nth_error ns i = Some m -> key_position (nr_key m) ns = Some i.
Proof.
  induction ns as [|n ns IH]; intros Hnd i m H; [destruct i; discriminate H|]. cbn in Hnd. inversion Hnd as [|? ? Hn Hnd']; subst.
  destruct i as [|i]; cbn in H |- *.
  - injection H as <-. rewrite Nat.eqb_refl. reflexivity.
  - destruct (nr_key n =? nr_key m) eqn:E.
    + exfalso. apply Nat.eqb_eq in E. apply Hn. rewrite E. apply in_map. eapply nth_error_In; eauto.
    + rewrite (IH Hnd' i m H). reflexivity.
Qed.
Definition arrow_for (ns : list node_report) (dst : option nat) (er : edge_report) (a : arrow) : Prop :=
  ar_dst a = dst /\ ar_from a = er_from er /\ ar_to a = er_to er /\
  match er_src er, ar_src a with
  | None, None => True
  | Some s, Some i => key_position s ns = Some i
  | _, _ => False
  end.
Lemma arrow_of_In ns dst er a : In a (arrow_of ns dst er) <-> arrow_for ns dst er a.
Proof.
  unfold arrow_of, arrow_for. destruct er as [src from to fb]; cbn. destruct src as [s|].
  - destruct (key_position s ns) as [i|] eqn:E.
    + cbn. split.
      * intros [<-|[]]. cbn. auto.
      * intros (A & B & C & D). destruct a as [x y z w]; cbn in *. destruct x as [x|]; [|destruct D]. left. congruence.
    + split; [intros []|]. intros (_ & _ & _ & D). destruct (ar_src a); [discriminate|destruct D].
  - cbn. split.
    + intros [<-|[]]. cbn. auto.
    + intros (A & B & C & D). destruct a as [x y z w]; cbn in *. destruct x as [x|]; [destruct D|]. left. congruence.
Qed.
Lemma node_arrows_In ns rest : forall j a, In a (node_arrows ns j rest) <->
  exists i n er, nth_error rest i = Some n /\ In er (nr_edges n) /\ arrow_for ns (Some (j + i)) er a.
Proof.
  induction rest as [|n rest IH]; intros j a; cbn [node_arrows].
  - split; [intros []|]. intros (i & n & er & H & _). destruct i; discriminate H.
  - rewrite in_app_iff, in_flat_map, IH. split.
    + intros [(er & H1 & H2)|(i & m & er & H1 & H2 & H3)].
      * exists 0, n, er. apply arrow_of_In in H2. rewrite Nat.add_0_r. auto.
      * exists (S i), m, er. rewrite Nat.add_succ_r. auto.
    + intros (i & m & er & H1 & H2 & H3). destruct i as [|i].
      * left. cbn in H1. injection H1 as <-. exists er. rewrite Nat.add_0_r in H3. split; [exact H2|]. apply arrow_of_In. exact H3.
      * right. exists i, m, er. rewrite Nat.add_succ_r in H3. auto.
Qed.
Lemma dot_In r a : In a (dot_arrows r) <->
  (exists j n er, nth_error (gr_nodes r) j = Some n /\ In er (nr_edges n) /\ arrow_for (gr_nodes r) (Some j) er a) \/
  (exists er, In er (gr_outs r) /\ arrow_for (gr_nodes r) None er a).
Proof.
  unfold dot_arrows. rewrite in_app_iff, node_arrows_In, in_flat_map. cbn [Nat.add].
  apply or_iff_compat_l. split; intros (er & H1 & H2); exists er; (split; [exact H1|]); apply arrow_of_In; exact H2.
Qed.
Lemma dot_stands g P r a : describes g P r -> (In a (dot_arrows r) <-> stands_for g r a).
Proof.
  intros (Hnd & _ & Hn & _ & _ & _ & Ho & Ho2). rewrite dot_In. split.
  - intros [(j & n & er & H1 & H2 & H3)|(er & H1 & H3)]; destruct H3 as (A & B & C & D).
    + destruct (Hn n (nth_error_In _ _ H1)) as (nd & _ & _ & _ & _ & _ & Hi). apply Hi in H2 as (e & E1 & E2 & E3 & _).
      exists e. rewrite A, C. split; [eauto|]. split; [congruence|]. rewrite <- E2.
      destruct (er_src er), (ar_src a); try exact D. apply key_position_some. exact D.
    + apply Ho2 in H1 as (e & E1 & E2 & E3 & _). exists e. rewrite A, C. split; [exact E1|]. split; [congruence|].
      rewrite <- E2. destruct (er_src er), (ar_src a); try exact D. apply key_position_some. exact D.
  - intros (e & H1 & H2 & H3).
    assert (Hs : match e_src e, ar_src a with None, None => True | Some s, Some i => key_position s (gr_nodes r) = Some i | _, _ => False end).
    { destruct (e_src e), (ar_src a); try exact H3. destruct H3 as (m & M1 & <-). apply key_position_unique; assumption. }
    destruct (ar_dst a) as [j|] eqn:Ed.
    + left. destruct H1 as (n & N1 & N2). destruct (Hn n (nth_error_In _ _ N1)) as (nd & _ & _ & _ & _ & _ & Hi).
      exists j, n, (mk_er (e_src e) (e_chan e) (ar_to a) false). split; [exact N1|]. split.
      * apply Hi. exists e. cbn. auto.
      * unfold arrow_for. cbn. auto.
    + right. exists (mk_er (e_src e) (e_chan e) (ar_to a) (e_fb e)). split.
      * apply Ho2. exists e. cbn. auto.
      * unfold arrow_for. cbn. auto.
Qed.
(** No connection is left out. *)
Lemma dot_all g r : describes g (live g) r -> fed_by_live g ->
  (forall k c e, in_edge g k c = Some e -> exists a j n, In a (dot_arrows r) /\ ar_dst a = Some j /\ ar_to a = c /\
     nth_error (gr_nodes r) j = Some n /\ nr_key n = k /\ ar_from a = e_chan e) /\
  (forall c e, out_edge g c = Some e -> exists a, In a (dot_arrows r) /\ ar_dst a = None /\ ar_to a = c /\ ar_from a = e_chan e).
Proof.
  intros Hd [Hf1 Hf2]. pose proof Hd as (Hnd & Hk & _).
  assert (Hs : forall e, (forall s, e_src e = Some s -> live g s) -> exists x, match e_src e, x with
    | None, None => True | Some s, Some i => exists m, nth_error (gr_nodes r) i = Some m /\ nr_key m = s | _, _ => False end).
  { intros e He. destruct (e_src e) as [s|]; [|exists None; exact I]. specialize (He s eq_refl). apply Hk in He.
    destruct (key_position s (gr_nodes r)) as [i|] eqn:E; [|exfalso; exact (key_position_In _ _ He E)].
    exists (Some i). apply key_position_some. exact E. }
  split.
  - intros k c e He. assert (Hl : live g k).
    { apply live_edges. unfold in_edge in He. destruct (edges_of g k); [eauto|discriminate]. }
    apply Hk in Hl. apply in_map_iff in Hl as (n & En & Hin). apply In_nth_error in Hin as [j Hj].
    destruct (Hs e (fun s => Hf1 k c e s He)) as [x Hx]. exists (mk_arrow x (e_chan e) (Some j) c), j, n. cbn. split.
    + apply (dot_stands g (live g) r); [exact Hd|]. exists e. cbn. split; [exists n; rewrite En; auto|]. split; [reflexivity|exact Hx].
    + auto.
  - intros c e He. destruct (Hs e (fun s => Hf2 c e s He)) as [x Hx]. exists (mk_arrow x (e_chan e) None c). cbn. split; [|auto].
    apply (dot_stands g (live g) r); [exact Hd|]. exists e. cbn. auto.
Qed.

(** ** unconnected nodes *)
Lemma dfs_heard g fuel : forall visited stack out v ord, dfs g fuel visited stack out = Some (v, ord) ->
  (forall k, In k stack -> heard g k) -> (forall k, In k out -> heard g k) -> forall k, In k ord -> heard g k.
Proof.
  induction fuel as [|fuel IH]; intros visited stack out v ord H Hs Ho k Hk; cbn [dfs] in H.
  - destruct stack; [|discriminate]. injection H as <- <-. apply Ho. apply in_rev. exact Hk.
  - destruct stack as [|x stack]; [injection H as <- <-; apply Ho; apply in_rev; exact Hk|].
    destruct (next_source g visited x) as [[s|]|] eqn:E; cbn [bind] in H; [| |discriminate].
    + eapply IH; [exact H| |exact Ho|exact Hk]. intros k' [<-|Hin]; [|exact (Hs k' Hin)].
      apply next_source_some in E as [E _]. destruct (Hs x (or_introl eq_refl)) as (r & Hr & Hp). exists r. split; [exact Hr|].
      eapply rt_trans; [apply rt_step; exact E|exact Hp].
    + eapply IH; [exact H| | |exact Hk].
      * intros k' Hin. apply Hs. right. exact Hin.
      * intros k' [<-|Hin]; [apply Hs; left; reflexivity|exact (Ho k' Hin)].
Qed.
Lemma unconnected_spec g o1 o2 k : wf g -> node_order2 g = Some (o1, o2) -> live g k ->
  (~ heard g k -> In k o2) /\
  ((forall k c e, in_edge g k c = Some e -> e_fb e = false) -> In k o2 -> ~ heard g k).
Proof.
  intros Hw H Hl. assert (E : node_order g = Some (o1 ++ o2)) by (unfold node_order; rewrite H; reflexivity).
  destruct (order_once g _ Hw E) as [Hnd Hin]. split.
  - intros Hh. apply Hin in Hl. apply in_app_iff in Hl as [Hl|Hl]; [|exact Hl]. exfalso. apply Hh.
    unfold node_order2 in H. destruct (roots g) as [r|] eqn:Er; cbn [bind] in H; [|discriminate].
    destruct (dfs _ _ _ _ _) as [[v ord]|] eqn:Ed; cbn [bind] in H; [|discriminate]. injection H as <- _.
    destruct (roots_spec g r (bi_nodup g (proj1 (proj1 Hw))) Er) as (_ & Hr & _).
    eapply dfs_heard; [exact Ed| |intros x []|exact Hl]. intros x Hx. exists x. split; [exact (Hr x Hx)|apply rt_refl].
  - intros Hfb Hi Hh. pose proof (heard_connected g o1 o2 Hw Hfb H k Hh) as Hc. clear - Hnd Hi Hc.
    induction o1 as [|x o1 IH]; [destruct Hc|]. cbn in Hnd. inversion Hnd as [|? ? Hx Hnd']; subst. destruct Hc as [->|Hc]; [|exact (IH Hnd' Hc)].
    apply Hx. apply in_app_iff. right. exact Hi.
Qed.
Lemma in_edge_frame g g' k c : g_nodes g' = g_nodes g -> in_edge g' k c = in_edge g k c.
Proof. intros E. unfold in_edge, edges_of, lookup. rewrite E. reflexivity. Qed.
Lemma heard_frame g g' k : g_nodes g' = g_nodes g -> g_outs g' = g_outs g -> heard g' k <-> heard g k.
Proof.
  intros E1 E2. assert (Hs : forall a b, same_block g' a b <-> same_block g a b).
  { intros a b. unfold same_block, par_feeds, lookup. rewrite E1. split; (intros [(c & e & He & H)|H]; [left; exists c, e|right; exact H]);
      (split; [|exact H]); rewrite <- He; [symmetry|]; apply in_edge_frame; exact E1. }
  assert (Hf : forall r, feeds_output g' r <-> feeds_output g r).
  { intros r. unfold feeds_output, out_edge. rewrite E2. reflexivity. }
  unfold heard. split; intros (r & Hr & Hp); exists r; (split; [apply Hf; exact Hr|]); clear - Hp Hs;
    (induction Hp as [a b H| |]; [apply rt_step; apply Hs; exact H|apply rt_refl|eapply rt_trans; eauto]).
Qed.
