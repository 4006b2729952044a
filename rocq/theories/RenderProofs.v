(** A rendered block is the meaning of the graph. *)
From Verif Require Import Base GraphModel GraphSpec GraphBase GraphPath GraphInv GraphShape GraphRefs GraphClean
  OrderModel OrderSpec OrderProofs AllocModel AllocProofs PlaceProofs RenderSpec PlanProofs RenderModel.
Local Open Scope nat_scope.

Section Render.
Variable F : Type.
Variable zero : F.
Variable St : Type.
Variable proc : key -> St -> list (list F) -> list (N * list F) -> St * (nat -> nat -> F).
Variable bs : nat.
Hypothesis Hbs : 0 < bs.
Variable g : graph.
Variable order : list key.
Variable off : key -> nat.
Variable size : nat.
Hypothesis Hnd : NoDup order.
Hypothesis Hplaced : placed g bs order off size.
Hypothesis Hrefs : refs_ok g.
Variable gin : nat -> list F.
Variable st : key -> St.

Notation memory := (memory F).
Notation write := (write F bs).
Notation read := (read F bs).
Notation read_src := (read_src F bs).
Notation run_task := (run_task F St proc bs).
Notation signal := (signal F zero bs gin).
Notation par_signal := (par_signal F bs).
Notation computes := (computes F zero St proc bs g gin st).
Notation solves := (solves F zero St proc bs g gin st).

Definition silent (m : memory) : Prop := forall x, x < bs -> m x = zero.
Definition vupd (V : key -> nat -> nat -> F) (k : key) (f : nat -> nat -> F) := fun k' => if k' =? k then f else V k'.
(** All sources of [k] come before it. *)
Definition good (k : key) : Prop := forall l1 l2, order = l1 ++ k :: l2 -> incl (sources g k) l1.

Lemma write_other m a c f x : x < a \/ a + c * bs <= x -> write m a c f x = m x.
Proof.
  intros H. unfold RenderModel.write. destruct (Nat.leb_spec a x), (Nat.ltb_spec x (a + c * bs)); cbn; try reflexivity; lia.
Qed.
Lemma write_in m a n f c i : c < n -> i < bs -> write m a n f (a + c * bs + i) = f c i.
Proof.
  intros Hc Hi. unfold RenderModel.write. destruct (Nat.leb_spec a (a + c * bs + i)); [|lia].
  destruct (Nat.ltb_spec (a + c * bs + i) (a + n * bs)); [|nia]. cbn.
  replace (a + c * bs + i - a) with (i + c * bs) by lia.
  rewrite Nat.div_add, Nat.div_small, Nat.mod_add, Nat.mod_small by lia. reflexivity.
Qed.

Record rinv (done : list key) (m : memory) (st' : key -> St) (V : key -> nat -> nat -> F) : Prop := {
  r_fresh : forall s, ~ In s done -> st' s = st s;
  r_zero : silent m;
  r_intact : forall l1 s l2, done = l1 ++ s :: l2 ->
    forall c i, c < nouts g s -> i < bs ->
    (forall y, In y l2 -> ~ (off y <= off s + c * bs + i < off y + nouts g y * bs)) ->
    m (off s + c * bs + i) = V s c i;
  r_solved : forall k, In k done -> good k -> exists n r, lookup g k = Some n /\ computes V k r /\ snd r = V k /\ st' k = fst r }.

Lemma signal_ext V V' es : (forall e s, In (Some e) es -> e_src e = Some s -> V s = V' s) ->
  map (signal V) es = map (signal V') es.
Proof.
  intros H. apply map_ext_in. intros [e|] Hin; [|reflexivity]. cbn. destruct (e_src e) as [s|] eqn:Es; [|reflexivity].
  unfold chan. rewrite (H e s Hin Es). reflexivity.
Qed.
Lemma par_ext V V' ps : (forall p, In p ps -> V (p_src p) = V' (p_src p)) -> map (par_signal V) ps = map (par_signal V') ps.
Proof.
  intros H. apply map_ext_in. intros p Hin. unfold RenderSpec.par_signal, chan. rewrite (H p Hin). reflexivity.
Qed.
Lemma src_edge k es e s : edges_of g k = Some es -> In (Some e) es -> e_src e = Some s -> In s (sources g k).
Proof.
  intros E Hin Hs. unfold sources. rewrite E. apply in_or_app. left. apply edge_sources_spec.
  apply In_nth_error in Hin as [c Hc]. eauto.
Qed.
Lemma src_par k ps p : pedges_of g k = Some ps -> In p ps -> In (p_src p) (sources g k).
Proof. intros E Hin. unfold sources. rewrite E. apply in_or_app. right. apply in_map. exact Hin. Qed.

(** What a good node finds at the addresses it reads. *)
Lemma reads_ok done k rest m st' V n es ps : order = done ++ k :: rest -> rinv done m st' V ->
  task_of g bs order off k (mk_task k (map (in_of bs off) es) (map (par_of bs off) ps) (off k) (n_outputs n)) ->
  edges_of g k = Some es -> pedges_of g k = Some ps -> good k ->
  map (read_src m gin) (map (in_of bs off) es) = map (signal V) es /\
  map (fun p => (fst p, read m (snd p))) (map (par_of bs off) ps) = map (par_signal V) ps.
Proof.
  intros Eo Hi (n' & es' & ps' & E1 & E2 & E3 & E4 & Hpar & _) He Hp Hg.
  assert (Hread : forall s c, In s (sources g k) -> c < nouts g s -> read m (off s + c * bs) = chan F bs V s c).
  { intros s c Hs Hc. unfold RenderModel.read, chan. apply map_ext_in. intros i Hin. apply in_seq in Hin.
    assert (Hsd : In s done) by (apply (Hg done rest Eo); exact Hs).
    apply in_split in Hsd as (l1 & l2 & El). eapply (r_intact _ _ _ _ Hi l1 s l2 El); [exact Hc|lia|].
    intros y Hy. assert (Hd : disj (off s) (nouts g s * bs) (off y) (nouts g y * bs)).
    { eapply (pl_read _ _ _ _ _ Hplaced l1 s l2 k rest); [|exact Hs|apply in_or_app; left; exact Hy].
      rewrite Eo, El, <- app_assoc. reflexivity. }
    destruct Hd; nia. }
  rewrite !map_map. split; apply map_ext_in.
  - intros [e|] Hin; cbn.
    + destruct (e_src e) as [s|] eqn:Es; [|reflexivity]. cbn. apply Hread; [eapply src_edge; eauto|].
      apply In_nth_error in Hin as [c Hc]. assert (Hie : in_edge g k c = Some e) by (unfold in_edge; rewrite He, Hc; reflexivity).
      pose proof (proj1 Hrefs k c e Hie) as Hok. unfold edge_ok in Hok. rewrite Es in Hok.
      destruct Hok as (m' & El & _ & Hlt). unfold nouts. rewrite El. exact Hlt.
    + unfold RenderModel.read. rewrite <- (seq_length bs 0) at 2. generalize (r_zero _ _ _ _ Hi). intros Hz.
      assert (forall l, (forall x, In x l -> x < bs) -> map (fun i => m (0 + i)) l = repeat zero (List.length l)) as Hl.
      { induction l as [|x l IH]; intros Hx; [reflexivity|]. cbn. rewrite Hz by (apply Hx; left; reflexivity).
        f_equal. apply IH. intros z Hzz. apply Hx. right. exact Hzz. }
      apply Hl. intros x Hx. apply in_seq in Hx. lia.
  - intros p Hin. unfold RenderSpec.par_signal. cbn. f_equal. apply Hread; [eapply src_par; eauto|].
    rewrite E3 in Hp. injection Hp as ->. apply Hpar. exact Hin.
Qed.

Lemma task_step done k rest m st' V t : order = done ++ k :: rest -> rinv done m st' V -> task_of g bs order off k t ->
  let ms := run_task gin (m, st') t in
  exists V', rinv (done ++ [k]) (fst ms) (snd ms) V' /\ (forall s, In s done -> V' s = V s).
Proof.
  intros Eo Hi Ht ms. pose proof Ht as (n & es & ps & E1 & E2 & E3 & -> & Hpar & Hes).
  subst ms. cbn [RenderModel.run_task t_key t_ins t_pars t_out t_outs fst snd].
  set (r := proc k (st' k) _ _). exists (vupd V k (snd r)).
  assert (Hk : ~ In k done).
  { rewrite Eo in Hnd. apply NoDup_remove_2 in Hnd. rewrite in_app_iff in Hnd. tauto. }
  assert (Hkin : In k order) by (rewrite Eo; apply in_or_app; right; left; reflexivity).
  assert (Hnk : nouts g k = n_outputs n) by (unfold nouts; rewrite E1; reflexivity).
  assert (Hold : forall s, In s done -> vupd V k (snd r) s = V s).
  { intros s Hs. unfold vupd. destruct (Nat.eqb_spec s k) as [->|_]; [contradiction|reflexivity]. }
  split; [|exact Hold]. constructor.
  - intros s Hs. rewrite in_app_iff in Hs. unfold upd_st. destruct (Nat.eqb_spec s k) as [->|_].
    + exfalso. apply Hs. right. left. reflexivity.
    + apply (r_fresh _ _ _ _ Hi). tauto.
  - intros x Hx. rewrite write_other; [apply (r_zero _ _ _ _ Hi); exact Hx|].
    left. pose proof (pl_low _ _ _ _ _ Hplaced k Hkin). lia.
  - intros l1 s l2 E c i Hc Hlt Hd. apply last_split in E as [(-> & -> & ->)|(l2' & -> & E)].
    + rewrite write_in by (rewrite <- ?Hnk; assumption). unfold vupd. rewrite Nat.eqb_refl. reflexivity.
    + assert (Hs : In s done) by (rewrite E; apply in_or_app; right; left; reflexivity).
      rewrite Hold by exact Hs. rewrite write_other.
      * apply (r_intact _ _ _ _ Hi l1 s l2' E); [exact Hc|exact Hlt|].
        intros y Hy. apply Hd. apply in_or_app. left. exact Hy.
      * rewrite <- Hnk. assert (Hk' := Hd k ltac:(apply in_or_app; right; left; reflexivity)).
        clear - Hk'. generalize dependent (nouts g k * bs). intros; lia.
  - intros x Hx Hg. apply in_app_or in Hx as [Hx|[<-|[]]].
    + destruct (r_solved _ _ _ _ Hi x Hx Hg) as (n' & r' & A1 & (es' & ps' & B1 & B2 & B3) & A3 & A4).
      exists n', r'. split; [exact A1|].
      assert (Hbefore : incl (sources g x) done).
      { apply in_split in Hx as (l1 & l2 & ->). intros y Hy. apply in_or_app. left.
        eapply (Hg l1 (l2 ++ k :: rest)); [rewrite Eo, <- app_assoc; reflexivity|exact Hy]. }
      split; [|split].
      * exists es', ps'. split; [exact B1|]. split; [exact B2|]. rewrite B3. f_equal.
        -- apply signal_ext. intros e s Hin Hs. symmetry. apply Hold. apply Hbefore. eapply src_edge; eauto.
        -- apply par_ext. intros p Hin. symmetry. apply Hold. apply Hbefore. eapply src_par; eauto.
      * rewrite Hold by exact Hx. exact A3.
      * unfold upd_st. destruct (Nat.eqb_spec x k) as [->|_]; [contradiction|exact A4].
    + exists n, r. split; [exact E1|].
      assert (Hbefore : incl (sources g k) done) by (apply (Hg done rest Eo)).
      destruct (reads_ok done k rest m st' V n es ps Eo Hi Ht E2 E3 Hg) as [R1 R2].
      split; [|split].
      * exists es, ps. split; [exact E2|]. split; [exact E3|]. 
        transitivity (proc k (st k) (map (signal V) es) (map (par_signal V) ps)).
        { unfold r. rewrite (r_fresh _ _ _ _ Hi k Hk), R1, R2. reflexivity. }
        f_equal.
        -- apply signal_ext. intros e s Hin Hs. symmetry. apply Hold. apply Hbefore. eapply src_edge; eauto.
        -- apply par_ext. intros p Hin. symmetry. apply Hold. apply Hbefore. eapply src_par; eauto.
      * unfold vupd. rewrite Nat.eqb_refl. reflexivity.
      * unfold upd_st. rewrite Nat.eqb_refl. reflexivity.
Qed.
Lemma tasks_run rest ts : Forall2 (task_of g bs order off) rest ts -> forall done m st' V,
  order = done ++ rest -> rinv done m st' V ->
  exists V', let ms := run_tasks F St proc bs gin ts (m, st') in rinv order (fst ms) (snd ms) V'.
Proof.
  intros H. induction H as [|k t rest ts Hkt _ IH]; intros done m st' V Eo Hi.
  - exists V. rewrite app_nil_r in Eo. subst done. exact Hi.
  - unfold run_tasks. cbn [fold_left]. destruct (task_step done k rest m st' V t Eo Hi Hkt) as (V1 & Hi1 & _).
    destruct (run_task gin (m, st') t) as [m1 st1]. cbn [fst snd] in Hi1.
    eapply (IH (done ++ [k])); [rewrite <- app_assoc; exact Eo|exact Hi1].
Qed.
Lemma rinv_start m : silent m -> rinv [] m st (fun _ _ _ => zero).
Proof.
  intros Hz. constructor; auto.
  - intros l1 s l2 E. destruct l1; discriminate.
  - intros k [].
Qed.

(** ** meaning is unique *)
Lemma solves_unique (P : key -> Prop) V V' : (forall k, P k -> In k order) -> (forall k, P k -> good k) ->
  (forall k s, P k -> In s (sources g k) -> P s) ->
  (forall k p ps, P k -> pedges_of g k = Some ps -> In p ps -> p_chan p < nouts g (p_src p)) ->
  (forall k, P k -> solves V k) -> (forall k, P k -> solves V' k) ->
  forall k, P k -> forall c i, c < nouts g k -> i < bs -> V k c i = V' k c i.
Proof.
  intros Hin Hgood Hclos Hpc HV HV' k Hk.
  destruct (in_split k order (Hin k Hk)) as (l1 & l2 & E). revert k l2 Hk E.
  induction l1 as [l1 IH] using (well_founded_induction (Wf_nat.well_founded_ltof _ (@List.length key))).
  intros k l2 Hk E c i Hc Hi.
  destruct (HV k Hk) as (n & r & A1 & (es & ps & B1 & B2 & ->) & A3).
  destruct (HV' k Hk) as (n' & r' & A1' & (es' & ps' & B1' & B2' & ->) & A3').
  assert (n' = n) by congruence. assert (es' = es) by congruence. assert (ps' = ps) by congruence. subst.
  unfold nouts in Hc. rewrite A1 in Hc. rewrite A3, A3' by assumption.
  assert (Hsrc : forall s c i, In s (sources g k) -> c < nouts g s -> i < bs -> V s c i = V' s c i).
  { intros s c' i' Hs Hc' Hi'. assert (Hsl : In s l1) by (apply (Hgood k Hk l1 l2 E); exact Hs).
    apply in_split in Hsl as (m1 & m2 & ->). eapply (IH m1); [|eapply Hclos; eauto| |exact Hc'|exact Hi'].
    - unfold Wf_nat.ltof. rewrite app_length. cbn. lia.
    - rewrite E, <- app_assoc. reflexivity. }
  assert (map (signal V) es = map (signal V') es) as ->.
  { apply map_ext_in. intros [e|] He; [|reflexivity]. cbn. destruct (e_src e) as [s|] eqn:Es; [|reflexivity].
    unfold chan. apply map_ext_in. intros j Hj. apply in_seq in Hj. apply Hsrc; [eapply src_edge; eauto| |lia].
    apply In_nth_error in He as [d Hd]. assert (Hie : in_edge g k d = Some e) by (unfold in_edge; rewrite B1, Hd; reflexivity).
    pose proof (proj1 Hrefs k d e Hie) as Hok. unfold edge_ok in Hok. rewrite Es in Hok.
    destruct Hok as (m' & El & _ & Hlt). unfold nouts. rewrite El. exact Hlt. }
  assert (map (par_signal V) ps = map (par_signal V') ps) as ->; [|reflexivity].
  apply map_ext_in. intros p Hp. unfold RenderSpec.par_signal, chan. f_equal. apply map_ext_in. intros j Hj. apply in_seq in Hj.
  apply Hsrc; [eapply src_par; eauto|eapply Hpc; eauto|lia].
Qed.
End Render.
