(** Clean-up is safe: proofs for C22, for all interleavings including a full ring buffer. *)
From Coq Require Import Sorted.
From Verif Require Import Base GraphModel GraphSpec GraphBase GraphPath GraphInv GraphShape GraphGrow OrderModel OrderSpec OrderProofs
  RuntimeModel RuntimeSpec RuntimeEvolve.
Local Open Scope nat_scope.

Lemma wf_frame g g' : g_nodes g' = g_nodes g -> g_pending g' = g_pending g -> g_next g' = g_next g -> g_outs g' = g_outs g ->
  g_outputs g' = g_outputs g -> wf g -> wf g'.
Proof.
  intros H1 H2 H3 H4 H5 [Hi Hs]. split.
  - eapply inv_frame; eauto.
  - eapply shape_frame; eauto. rewrite H4. reflexivity.
Qed.
Lemma live_frame g g' k : g_nodes g' = g_nodes g -> live g' k <-> live g k.
Proof. intros H. unfold live, lookup. rewrite H. reflexivity. Qed.

Section Safe.
Context {St X : Type}.
Variable init : key -> St.
Variable proc : X -> key -> St -> St.
Notation sys := (sys St X).
Notation rtd := (rtd St).
Notation r_keys := (r_keys St).
Notation y_g := (y_g St X). Notation y_ug := (y_ug St X). Notation y_order := (y_order St X).
Notation y_ring := (y_ring St X). Notation y_trash := (y_trash St X). Notation y_applied := (y_applied St X).
Notation y_cur := (y_cur St X). Notation y_chunk := (y_chunk St X). Notation y_next := (y_next St X).
Notation y_started := (y_started St X). Notation y_reading := (y_reading St X).
Notation ystep := (ystep St X proc). Notation ycommit := (ycommit St X).

Definition flagn (t : rtd) : nat := match r_flag _ t with Some f => f | None => 0 end.

Record safe (y : sys) : Prop := {
  sf_wf : wf (y_g y);
  sf_pflag : forall k f, In (k, f) (g_pending (y_g y)) -> f <= g_flag (y_g y);
  sf_flag : forall t, In t (waiting y) -> r_flag _ t <> None /\ flagn t < g_flag (y_g y);
  sf_sorted : StronglySorted (fun a b => flagn a < flagn b) (waiting y);
  sf_applied : forall f, In f (y_applied y) -> f < g_flag (y_g y) /\ forall t, In t (waiting y) -> f < flagn t;
  sf_wait : forall t k f, In t (waiting y) -> In (k, f) (g_pending (y_g y)) -> f <= flagn t -> ~ In k (r_keys t);
  sf_run : forall k f, In (k, f) (g_pending (y_g y)) -> In f (y_applied y) -> ~ In k (r_keys (running y));
  sf_idle : y_reading y = false -> y_chunk y = [] /\ y_next y = None;
  sf_unstarted : y_started y = false -> y_reading y = false /\ y_applied y = [] }.

Lemma make_tasks_keys order : forall i ug, map fst (fst (make_tasks St i order ug)) = order.
Proof.
  induction order as [|k o IH]; intros i ug; cbn [make_tasks]; [reflexivity|].
  specialize (IH (S i) (upd St ug k (NLive i))). destruct (make_tasks St (S i) o _) as [ts ug']. cbn in *. congruence.
Qed.
Lemma set_nth_keys (l : list (key * tugen St)) j ku l' : nth_error l j = Some ku ->
  set_nth l j (fst ku, Gone) = Some l' -> map fst l' = map fst l.
Proof.
  revert j l'. induction l as [|a l IH]; intros [|j] l' H1 H2; cbn in *; try discriminate.
  - injection H1 as ->. injection H2 as <-. reflexivity.
  - destruct (set_nth l j (fst ku, Gone)) as [l0|] eqn:E; [|discriminate]. injection H2 as <-. cbn. rewrite (IH j l0); auto.
Qed.
Lemma take_all_keys new : forall old new' old', take_all St new old = Some (new', old') ->
  map fst new' = map fst new /\ map fst old' = map fst old.
Proof.
  induction new as [|[k u] new IH]; intros old new' old' H; cbn [take_all] in H.
  - injection H as <- <-. auto.
  - destruct u as [s|j|].
    + destruct (take_all St new old) as [[n o]|] eqn:E; cbn [bind] in H; [|discriminate]. injection H as <- <-.
      apply IH in E as [E1 E2]. cbn. rewrite E1. auto.
    + destruct (nth_error old j) as [ku|] eqn:En; cbn [bind] in H; [|discriminate].
      destruct (set_nth old j _) as [old1|] eqn:Es; cbn [bind] in H; [|discriminate].
      destruct (take_all St new old1) as [[n o]|] eqn:E; cbn [bind] in H; [|discriminate]. injection H as <- <-.
      apply IH in E as [E1 E2]. cbn. rewrite E1, E2. split; [reflexivity|]. eapply set_nth_keys; eauto.
    + destruct (take_all St new old) as [[n o]|] eqn:E; cbn [bind] in H; [|discriminate]. injection H as <- <-.
      apply IH in E as [E1 E2]. cbn. rewrite E1. auto.
Qed.
Lemma run_all_keys x ts : forall ts', run_all St X proc x ts = Some ts' -> map fst ts' = map fst ts.
Proof.
  induction ts as [|[k [s|j|]] ts IH]; intros ts' H; cbn [run_all] in H; try discriminate.
  - injection H as <-. reflexivity.
  - destruct (run_all St X proc x ts) as [r|] eqn:E; cbn [bind] in H; [|discriminate]. injection H as <-. cbn. rewrite (IH r); auto.
Qed.
Lemma sorted_snoc (l : list rtd) t : StronglySorted (fun a b => flagn a < flagn b) l ->
  (forall a, In a l -> flagn a < flagn t) -> StronglySorted (fun a b => flagn a < flagn b) (l ++ [t]).
Proof.
  induction l as [|a l IH]; intros H1 H2; cbn; [repeat constructor|]. inversion H1 as [|? ? Hs Hf]; subst. constructor.
  - apply IH; [exact Hs|]. intros b Hb. apply H2. right. exact Hb.
  - apply Forall_app. split; [exact Hf|]. constructor; [|constructor]. apply H2. left. reflexivity.
Qed.

Lemma applied_fn_In y f : applied_fn St X y f = true <-> In f (y_applied y).
Proof. unfold applied_fn. apply existsb_eqb_In. Qed.
Lemma safe_fresh_flag y : safe y -> applied_fn St X y (g_flag (y_g y)) = false.
Proof.
  intros Hs. apply not_true_iff_false. rewrite applied_fn_In. intros H. apply (sf_applied y Hs) in H as [H _]. lia.
Qed.

(** What is removed by the clean-up of a commit is released. *)
Lemma safe_removed y k f : safe y -> In (k, f) (g_pending (y_g y)) -> In f (y_applied y) -> released y k.
Proof.
  intros Hs Hp Hf. split; [eapply sf_run; eauto|]. intros t Ht. eapply sf_wait; eauto.
  apply (sf_applied y Hs) in Hf as [_ Hf]. apply Nat.lt_le_incl. auto.
Qed.

(** The graph part may change by any edit or clean-up. *)
Lemma safe_evolve y g' y' : safe y -> evolves (applied_fn St X y) (y_g y) g' \/ evolves (fun _ => false) (y_g y) g' ->
  y_g y' = g' -> y_ring y' = y_ring y -> y_chunk y' = y_chunk y -> y_next y' = y_next y -> y_cur y' = y_cur y ->
  y_applied y' = y_applied y -> y_reading y' = y_reading y -> y_started y' = y_started y -> safe y'.
Proof.
  intros [A B C D E F G H I] Hev Eg Er Ec En Eu Ea Erd Est.
  assert (Hw : waiting y' = waiting y) by (unfold waiting; rewrite Ec, Er; reflexivity).
  assert (Hr : running y' = running y) by (unfold running; rewrite En, Eu; reflexivity).
  assert (Hp : forall k f, In (k, f) (g_pending g') -> In (k, f) (g_pending (y_g y)) \/ f = g_flag (y_g y)).
  { intros k f Hk. destruct Hev as [Hev|Hev]; apply (ev_pend _ _ _ Hev) in Hk; tauto. }
  assert (Hfl : g_flag g' = g_flag (y_g y)) by (destruct Hev as [Hev|Hev]; apply (ev_flag _ _ _ Hev)).
  assert (Hwf : wf g') by (destruct Hev as [Hev|Hev]; apply (ev_wf _ _ _ Hev)).
  constructor; rewrite ?Eg, ?Hw, ?Hr, ?Ea, ?Erd, ?Est, ?Ec, ?En, ?Hfl; auto.
  - intros k f Hk. apply Hp in Hk as [Hk| ->]; eauto.
  - intros t k f Ht Hk Hle. apply Hp in Hk as [Hk| ->]; [eauto|]. exfalso. apply C in Ht as [_ Ht]. lia.
  - intros k f Hk Hf. apply Hp in Hk as [Hk| ->]; [eauto|]. exfalso. apply E in Hf as [Hf _]. lia.
Qed.
Lemma safe_commit y y' : safe y -> ycommit y = Some y' -> safe y'.
Proof.
  intros Hs H. unfold RuntimeModel.ycommit in H.
  destruct (free_old _ _) as [g1|] eqn:E; cbn [bind] in H; [|discriminate].
  assert (Hev : evolves (applied_fn St X y) (y_g y) g1)
    by (apply free_old_evolves; [apply Hs|apply safe_fresh_flag; exact Hs|exact E]).
  destruct (g_recalc g1).
  2: { injection H as <-. eapply (safe_evolve y g1); [exact Hs|left; exact Hev|..]; reflexivity. }
  destruct (node_order g1) as [ord|] eqn:Eo; cbn [bind] in H; [|discriminate].
  pose proof (make_tasks_keys ord 0 (y_ug y)) as Hk. destruct (make_tasks St 0 ord (y_ug y)) as [ts ug]. cbn [fst] in Hk.
  (* the same state with the cleaned graph *)
  assert (Hs1 : safe (mk_sys _ _ g1 (y_ug y) (y_order y) (RuntimeModel.y_seen _ _ y) (RuntimeModel.y_cap _ _ y)
     (RuntimeModel.y_dcap _ _ y) (y_ring y) [] (y_applied y) (y_started y) (y_cur y) (y_reading y) (y_chunk y)
     (RuntimeModel.y_held _ _ y) (y_next y) (RuntimeModel.y_trace _ _ y) [] false false))
    by (eapply (safe_evolve y g1); [exact Hs|left; exact Hev|..]; reflexivity).
  destruct Hs1 as [A B C D F G K L M]. unfold waiting, running in *; cbn in A, B, C, D, F, G, K, L, M.
  destruct (order_once g1 ord A Eo) as [_ Hlive].
  destruct (_ <? _); injection H as <-; constructor; unfold waiting, running; cbn.
  - eapply wf_frame; [..|exact A]; reflexivity.
  - intros k f Hp. specialize (B k f Hp). lia.
  - intros t Ht. rewrite app_assoc in Ht. apply in_app_or in Ht as [Ht|[<-|[]]].
    + destruct (C t Ht). split; [assumption|lia].
    + unfold flagn; cbn. split; [discriminate|lia].
  - rewrite app_assoc. apply sorted_snoc; [exact D|]. intros a Ha. apply C in Ha as [_ Ha]. unfold flagn at 2; cbn. lia.
  - intros f Hf. destruct (F f Hf) as [F1 F2]. split; [lia|]. intros t Ht. rewrite app_assoc in Ht.
    apply in_app_or in Ht as [Ht|[<-|[]]]; [auto|unfold flagn; cbn; lia].
  - intros t k f Ht Hp Hle. rewrite app_assoc in Ht. apply in_app_or in Ht as [Ht|[<-|[]]]; [eauto|].
    unfold RuntimeModel.r_keys; cbn. rewrite Hk, Hlive, live_iff by exact A. intros [_ Hn]. apply Hn.
    apply in_map_iff. exists (k, f). auto.
  - exact K.
  - exact L.
  - exact M.
  - eapply wf_frame; [..|exact A]; reflexivity.
  - intros k f Hp. specialize (B k f Hp). lia.
  - intros t Ht. destruct (C t Ht). split; [assumption|lia].
  - exact D.
  - intros f Hf. destruct (F f Hf) as [F1 F2]. split; [lia|exact F2].
  - exact G.
  - exact K.
  - exact L.
  - exact M.
Qed.
Lemma safe_step y o y' : safe y -> ystep y o = Some y' -> safe y'.
Proof.
  intros Hs H. destruct o as [o| | | | | |x].
  - destruct (match o with OpCommit _ => true | _ => false end) eqn:Eo.
    { destruct o; try discriminate. injection H as <-. exact Hs. }
    assert (Hne : forall fl, o <> OpCommit fl) by (intros fl ->; discriminate).
    assert (Hst : exists gr, step (y_g y) o = Some gr /\ y' = mk_sys _ _ (fst gr) (y_ug y) (y_order y) (RuntimeModel.y_seen _ _ y)
       (RuntimeModel.y_cap _ _ y) (RuntimeModel.y_dcap _ _ y) (y_ring y) (y_trash y) (y_applied y) (y_started y) (y_cur y)
       (y_reading y) (y_chunk y) (RuntimeModel.y_held _ _ y) (y_next y) (RuntimeModel.y_trace _ _ y) (RuntimeModel.y_dead _ _ y)
       (RuntimeModel.y_lost _ _ y) (RuntimeModel.y_virgin _ _ y)).
    { destruct o; try discriminate; cbn [RuntimeModel.ystep] in H;
        (destruct (step _ _) as [gr|] eqn:E in H; cbn [bind] in H; [|discriminate]; injection H as <-; exists gr; split; [exact E|reflexivity]). }
    destruct Hst as ([g' r] & Est & ->). eapply (safe_evolve y g'); [exact Hs| |reflexivity..].
    right. eapply edit_evolves; [apply Hs|exact Hne|exact Est].
  - eapply safe_commit; eauto.
  - cbn [RuntimeModel.ystep] in H. destruct (y_started y) eqn:Es; [injection H as <-; exact Hs|].
    destruct (make_tasks St 0 (y_order y) (y_ug y)) as [ts ug]. injection H as <-.
    destruct Hs as [A B C D F G K L M]. destruct (M Es) as [Mr Ma]. destruct (L Mr) as [Lc Ln].
    unfold waiting, running in *. rewrite Lc in *.
    constructor; unfold waiting, running; cbn; auto.
    rewrite Ma. intros k f _ [].
  - cbn [RuntimeModel.ystep] in H. destruct (y_started y && negb (y_reading y)) eqn:Ec; [|injection H as <-; exact Hs].
    apply andb_true_iff in Ec as [_ Er]. apply negb_true_iff in Er. injection H as <-.
    destruct Hs as [A B C D F G K L M]. destruct (L Er) as [Lc Ln]. unfold waiting, running in *. rewrite Lc in *. rewrite Ln in K.
    cbn [List.app] in *. constructor; unfold waiting, running; cbn; rewrite ?app_nil_r; auto; discriminate.
  - cbn [RuntimeModel.ystep] in H. destruct (y_reading y) eqn:Er; [|injection H as <-; exact Hs].
    destruct (y_next y) as [nx|] eqn:En; [injection H as <-; exact Hs|].
    destruct (y_chunk y) as [|td rest] eqn:Ec; [injection H as <-; exact Hs|].
    destruct (take_all _ _ _) as [[new old]|] eqn:Et; cbn [bind] in H; [|discriminate]. injection H as <-.
    destruct Hs as [A B C D F G K L M]. unfold waiting, running in *. rewrite Ec in *. rewrite En in *.
    apply take_all_keys in Et as [Et1 Et2]. cbn [List.app] in *.
    destruct (C td (or_introl eq_refl)) as [Hfn Hlt]. destruct (r_flag St td) as [fl|] eqn:Efl; [|tauto].
    assert (Hflag : flagn td = fl) by (unfold flagn; rewrite Efl; reflexivity).
    inversion D as [|? ? Ds Df]; subst. rewrite Forall_forall in Df.
    constructor; unfold waiting, running; cbn.
    + exact A.
    + exact B.
    + intros t Ht. apply C. right. exact Ht.
    + exact Ds.
    + intros f [<-|Hf].
      * split; [exact Hlt|exact Df].
      * destruct (F f Hf) as [F1 F2]. split; [exact F1|]. intros t Ht. apply F2. right. exact Ht.
    + intros t k f Ht Hp Hle. apply (G t k f); [right; exact Ht|exact Hp|exact Hle].
    + intros k f Hp Hf. unfold RuntimeModel.r_keys; cbn. rewrite Et1. apply (G td k f); [left; reflexivity|exact Hp|].
      destruct Hf as [<-|Hf]; [lia|]. apply F in Hf as [_ Hf]. apply Nat.lt_le_incl, Hf. left. reflexivity.
    + discriminate.
    + discriminate.
  - cbn [RuntimeModel.ystep] in H. destruct (y_next y) as [td|] eqn:En; [|injection H as <-; exact Hs]. injection H as <-.
    destruct Hs as [A B C D F G K L M]. unfold waiting, running in *. rewrite En in *.
    constructor; unfold waiting, running; cbn; auto; discriminate.
  - cbn [RuntimeModel.ystep] in H. destruct (y_reading y) eqn:Er; [|injection H as <-; exact Hs].
    destruct (y_next y) as [nx|] eqn:En; [injection H as <-; exact Hs|].
    destruct (y_chunk y) as [|td rest] eqn:Ec; [|injection H as <-; exact Hs].
    destruct (run_all _ _ _ _ _) as [ts|] eqn:Et; cbn [bind] in H; [|discriminate]. injection H as <-.
    destruct Hs as [A B C D F G K L M]. unfold waiting, running in *. rewrite Ec in *. rewrite En in *. cbn [List.app] in *.
    apply run_all_keys in Et.
    constructor; unfold waiting, running; cbn; auto; [|discriminate].
    intros k f Hp Hf. unfold RuntimeModel.r_keys; cbn. rewrite Et. apply (K k f); assumption.
Qed.
Lemma safe_new id i o slots cap dcap : safe (sys_new St X init id i o slots cap dcap).
Proof.
  constructor; unfold waiting, running; cbn; try tauto; try constructor; try reflexivity.
  - apply graph_new_wf.
  - apply graph_new_wf.
Qed.
Lemma safe_run ops : forall y y', safe y -> yrun St X proc y ops = Some y' -> safe y'.
Proof.
  induction ops as [|o ops IH]; intros y y' Hs H; cbn [yrun] in H; [injection H as <-; exact Hs|].
  destruct (ystep y o) as [y1|] eqn:E; cbn [bind] in H; [|discriminate]. eapply IH; [|exact H]. eapply safe_step; eauto.
Qed.
(** A node that a commit removes from the graph. *)
Lemma commit_removes y y' k : safe y -> ystep y (YCommit X) = Some y' ->
  In k (map fst (g_nodes (y_g y))) -> ~ In k (map fst (g_nodes (y_g y'))) -> released y k /\ released y' k.
Proof.
  intros Hs H Hin Hout. cbn [RuntimeModel.ystep] in H. pose proof H as H0. unfold RuntimeModel.ycommit in H.
  destruct (free_old _ _) as [g1|] eqn:E; cbn [bind] in H; [|discriminate].
  assert (Hev : evolves (applied_fn St X y) (y_g y) g1)
    by (apply free_old_evolves; [apply Hs|apply safe_fresh_flag; exact Hs|exact E]).
  assert (Hg : map fst (g_nodes (y_g y')) = keys g1).
  { destruct (g_recalc g1); [|injection H as <-; reflexivity].
    destruct (node_order g1); cbn [bind] in H; [|discriminate]. destruct (make_tasks _ _ _ _).
    destruct (_ <? _); injection H as <-; reflexivity. }
  rewrite Hg in Hout. destruct (ev_back _ _ _ Hev k Hin) as [Hc|(f & Hp & Hf)]; [contradiction|]. apply applied_fn_In in Hf.
  assert (Hr : released y k) by (eapply safe_removed; eauto). split; [exact Hr|].
  assert (Hnl : forall ord, node_order g1 = Some ord -> ~ In k ord).
  { intros ord Eo. destruct (order_once g1 ord (ev_wf _ _ _ Hev) Eo) as [_ Hl]. rewrite Hl. intros Hlv.
    apply live_key in Hlv. contradiction. }
  destruct Hr as [Hr1 Hr2]. unfold released, running, waiting in *.
  destruct (g_recalc g1); [|injection H as <-; split; cbn; assumption].
  destruct (node_order g1) as [ord|] eqn:Eo; cbn [bind] in H; [|discriminate].
  pose proof (make_tasks_keys ord 0 (y_ug y)) as Hk. destruct (make_tasks _ _ _ _) as [ts ug]. cbn [fst] in Hk.
  destruct (_ <? _); injection H as <-; cbn; (split; [assumption|]); [|assumption].
  intros t Ht. rewrite app_assoc in Ht. apply in_app_or in Ht as [Ht|[<-|[]]]; [auto|]. unfold RuntimeModel.r_keys; cbn. rewrite Hk.
  apply Hnl. reflexivity.
Qed.

(** ... and it stays that way: no later block runs it. *)
Definition forgotten (y : sys) (k : key) : Prop :=
  released y k /\ ~ In k (keys (y_g y)) /\ k < g_next (y_g y) /\ y_started y = true.
Lemma commit_forgets y y' k : safe y -> ystep y (YCommit X) = Some y' ->
  In k (map fst (g_nodes (y_g y))) -> ~ In k (map fst (g_nodes (y_g y'))) -> forgotten y' k.
Proof.
  intros Hs H Hin Hout. destruct (commit_removes y y' k Hs H Hin Hout) as [_ Hr]. split; [exact Hr|]. split; [exact Hout|].
  cbn [RuntimeModel.ystep] in H. unfold RuntimeModel.ycommit in H.
  destruct (free_old _ _) as [g1|] eqn:E; cbn [bind] in H; [|discriminate].
  assert (Hev : evolves (applied_fn St X y) (y_g y) g1)
    by (apply free_old_evolves; [apply Hs|apply safe_fresh_flag; exact Hs|exact E]).
  assert (Hf : keys (y_g y') = keys g1 /\ g_next (y_g y') = g_next g1 /\ y_started y' = y_started y).
  { destruct (g_recalc g1); [|injection H as <-; repeat split].
    destruct (node_order g1); cbn [bind] in H; [|discriminate]. destruct (make_tasks _ _ _ _).
    destruct (_ <? _); injection H as <-; repeat split. }
  destruct Hf as (F1 & F2 & F3). rewrite F2, F3. split.
  - pose proof (bi_lt _ (proj1 (proj1 (sf_wf y Hs))) k Hin). pose proof (ev_next _ _ _ Hev). lia.
  - unfold keys in F1. rewrite F1 in Hout. destruct (ev_back _ _ _ Hev k Hin) as [Hc|(f & Hp & Hf)]; [contradiction|].
    apply applied_fn_In in Hf. destruct (y_started y) eqn:Es; [reflexivity|]. destruct (sf_unstarted y Hs Es) as [_ Ha].
    rewrite Ha in Hf. destruct Hf.
Qed.
Lemma forgotten_step y o y' k : safe y -> ystep y o = Some y' -> forgotten y k ->
  forgotten y' k /\ exists l, RuntimeModel.y_trace _ _ y' = RuntimeModel.y_trace _ _ y ++ l /\ forall b, In b l -> ~ In k (fst b).
Proof.
  intros Hs H ([Hr Hw] & Hk & Hlt & Hst).
  assert (Hsame : forall yy : sys, RuntimeModel.y_trace _ _ yy = RuntimeModel.y_trace _ _ y ->
    exists l, RuntimeModel.y_trace _ _ yy = RuntimeModel.y_trace _ _ y ++ l /\ forall b, In b l -> ~ In k (fst b)).
  { intros yy E. exists []. rewrite app_nil_r. split; [exact E|intros b []]. }
  assert (Hid : y' = y -> forgotten y' k /\ exists l, RuntimeModel.y_trace _ _ y' = RuntimeModel.y_trace _ _ y ++ l /\ forall b, In b l -> ~ In k (fst b)).
  { intros ->. split; [split; [split; assumption|auto]|]. apply Hsame. reflexivity. }
  destruct o as [o| | | | | |x].
  - destruct (match o with OpCommit _ => true | _ => false end) eqn:Eo.
    { destruct o; try discriminate. injection H as <-. auto. }
    assert (Hne : forall fl, o <> OpCommit fl) by (intros fl ->; discriminate).
    assert (Hstp : exists gr, step (y_g y) o = Some gr /\ y' = mk_sys _ _ (fst gr) (y_ug y) (y_order y) (RuntimeModel.y_seen _ _ y)
       (RuntimeModel.y_cap _ _ y) (RuntimeModel.y_dcap _ _ y) (y_ring y) (y_trash y) (y_applied y) (y_started y) (y_cur y)
       (y_reading y) (y_chunk y) (RuntimeModel.y_held _ _ y) (y_next y) (RuntimeModel.y_trace _ _ y) (RuntimeModel.y_dead _ _ y)
       (RuntimeModel.y_lost _ _ y) (RuntimeModel.y_virgin _ _ y)).
    { destruct o; try discriminate; cbn [RuntimeModel.ystep] in H;
        (destruct (step _ _) as [gr|] eqn:E in H; cbn [bind] in H; [|discriminate]; injection H as <-; exists gr; split; [exact E|reflexivity]). }
    destruct Hstp as ([g' r] & Est & ->). assert (Hev : evolves (fun _ => false) (y_g y) g') by (eapply edit_evolves; [apply Hs|exact Hne|exact Est]).
    split; [|apply Hsame; reflexivity]. split; [split; assumption|]. cbn. split.
    + intros Hi. apply (ev_new _ _ _ Hev) in Hi as [Hi|Hi]; [contradiction|lia].
    + pose proof (ev_next _ _ _ Hev). split; [lia|exact Hst].
  - cbn [RuntimeModel.ystep] in H. unfold RuntimeModel.ycommit in H.
    destruct (free_old _ _) as [g1|] eqn:E; cbn [bind] in H; [|discriminate].
    assert (Hev : evolves (applied_fn St X y) (y_g y) g1)
      by (apply free_old_evolves; [apply Hs|apply safe_fresh_flag; exact Hs|exact E]).
    assert (Hk1 : ~ In k (keys g1)) by (intros Hi; apply (ev_new _ _ _ Hev) in Hi as [Hi|Hi]; [contradiction|lia]).
    assert (Hlt1 : k < g_next g1) by (pose proof (ev_next _ _ _ Hev); lia).
    destruct (g_recalc g1).
    2: { injection H as <-. split; [|apply Hsame; reflexivity]. split; [split; assumption|]. cbn. auto. }
    destruct (node_order g1) as [ord|] eqn:Eo; cbn [bind] in H; [|discriminate].
    pose proof (make_tasks_keys ord 0 (y_ug y)) as Hkk. destruct (make_tasks St 0 ord (y_ug y)) as [ts ug]. cbn [fst] in Hkk.
    destruct (order_once g1 ord (ev_wf _ _ _ Hev) Eo) as [_ Hlive].
    destruct (_ <? _); injection H as <-; (split; [|apply Hsame; reflexivity]); split; cbn; auto; split; try assumption.
    intros t Ht. unfold waiting in *; cbn in Ht. rewrite app_assoc in Ht. apply in_app_or in Ht as [Ht|[<-|[]]]; [auto|].
    unfold RuntimeModel.r_keys; cbn. rewrite Hkk, Hlive. intros Hl. apply live_key in Hl. contradiction.
  - cbn [RuntimeModel.ystep] in H. rewrite Hst in H. injection H as <-. auto.
  - cbn [RuntimeModel.ystep] in H. destruct (y_started y && negb (y_reading y)) eqn:Ec; injection H as <-; [|auto].
    apply andb_true_iff in Ec as [_ Er]. apply negb_true_iff in Er. destruct (sf_idle y Hs Er) as [Hc Hn].
    split; [|apply Hsame; reflexivity]. unfold running, waiting in *. rewrite Hn in Hr. rewrite Hc in Hw. split; [|cbn; auto].
    split; unfold running, waiting; cbn; [exact Hr|]. rewrite app_nil_r. exact Hw.
  - cbn [RuntimeModel.ystep] in H. destruct (y_reading y) eqn:Er; [|injection H as <-; auto].
    destruct (y_next y) as [nx|] eqn:En; [injection H as <-; auto|].
    destruct (y_chunk y) as [|td rest] eqn:Ec; [injection H as <-; auto|].
    destruct (take_all _ _ _) as [[new old]|] eqn:Et; cbn [bind] in H; [|discriminate]. injection H as <-.
    apply take_all_keys in Et as [Et1 Et2]. split; [|apply Hsame; reflexivity]. split; [|cbn; auto].
    unfold running, waiting in *. rewrite Ec in Hw. split; unfold running, waiting; cbn.
    + unfold RuntimeModel.r_keys; cbn. rewrite Et1. apply Hw. left. reflexivity.
    + intros t Ht. apply Hw. right. exact Ht.
  - cbn [RuntimeModel.ystep] in H. destruct (y_next y) as [td|] eqn:En; injection H as <-; [|auto].
    split; [|apply Hsame; reflexivity]. split; [|cbn; auto]. unfold running, waiting in *. rewrite En in Hr. split; assumption.
  - cbn [RuntimeModel.ystep] in H. destruct (y_reading y) eqn:Er; [|injection H as <-; auto].
    destruct (y_next y) as [nx|] eqn:En; [injection H as <-; auto|].
    destruct (y_chunk y) as [|td rest] eqn:Ec; [|injection H as <-; auto].
    destruct (run_all _ _ _ _ _) as [ts|] eqn:Et; cbn [bind] in H; [|discriminate]. injection H as <-. apply run_all_keys in Et.
    unfold running, waiting in *. rewrite En in Hr. rewrite Ec in Hw. split.
    + split; [|cbn; auto]. split; unfold running, waiting; cbn; [|exact Hw]. unfold RuntimeModel.r_keys; cbn. rewrite Et. exact Hr.
    + cbn. eexists. split; [reflexivity|]. intros b [<-|[]]. exact Hr.
Qed.
Lemma forgotten_run ops : forall y y' k, safe y -> yrun St X proc y ops = Some y' -> forgotten y k ->
  forgotten y' k /\ exists l, RuntimeModel.y_trace _ _ y' = RuntimeModel.y_trace _ _ y ++ l /\ forall b, In b l -> ~ In k (fst b).
Proof.
  induction ops as [|o ops IH]; intros y y' k Hs H Hf; cbn [yrun] in H.
  - injection H as <-. split; [exact Hf|]. exists []. rewrite app_nil_r. split; [reflexivity|intros b []].
  - destruct (ystep y o) as [y1|] eqn:E; cbn [bind] in H; [|discriminate].
    destruct (forgotten_step y o y1 k Hs E Hf) as (Hf1 & l1 & E1 & H1).
    destruct (IH y1 y' k (safe_step y o y1 Hs E) H Hf1) as (Hf2 & l2 & E2 & H2).
    split; [exact Hf2|]. exists (l1 ++ l2). rewrite E2, E1, app_assoc. split; [reflexivity|].
    intros b Hb. apply in_app_or in Hb as [Hb|Hb]; auto.
Qed.
End Safe.
