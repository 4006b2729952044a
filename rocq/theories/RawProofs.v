From Verif Require Import Base GraphModel GraphSpec GraphBase GraphPath GraphInv GraphShape GraphRefs GraphClean
  OrderModel OrderSpec OrderProofs AllocModel AllocProofs PlaceProofs RenderSpec PlanProofs RenderModel RenderProofs RenderMain SoundSpec SoundProofs RawModel RawSpec.
Local Open Scope nat_scope.

Section Run.
Variable F St : Type.
Variables bs size : nat.
Hypothesis Hbs : 0 < bs.
Variable gin : nat -> list F.
Notation raw := (raw_run F St bs size gin).
Notation memory := (memory F).

Lemma cell_spec : forall out outs c f a, cell bs size out outs c f = Some a -> c < outs /\ f < bs /\ a = out + c * bs + f /\ a < size.
Proof.
  intros out outs c f a H. unfold cell in H. destruct (Nat.ltb_spec c outs), (Nat.ltb_spec f bs); cbn [andb] in H; try discriminate.
  destruct (Nat.ltb_spec (out + c * bs + f) size); [| discriminate]. injection H as <-. auto.
Qed.
Lemma cell_ok : forall out outs c f, c < outs -> f < bs -> out + outs * bs <= size -> cell bs size out outs c f = Some (out + c * bs + f).
Proof.
  intros out outs c f Hc Hf Hs. unfold cell. destruct (Nat.ltb_spec c outs); [| lia]. destruct (Nat.ltb_spec f bs); [| lia]. cbn [andb].
  assert (c * bs + bs <= outs * bs) by (replace (c * bs + bs) with (S c * bs) by lia; apply Nat.mul_le_mono_r; lia).
  destruct (Nat.ltb_spec (out + c * bs + f) size); [reflexivity | lia].
Qed.
(** Nothing but the output changes, whatever is read *)
Lemma raw_confined : forall p ins pars out outs m r, raw ins pars out outs p m = Some r -> forall x, x < out \/ out + outs * bs <= x -> snd r x = m x.
Proof.
  induction p as [s | c f k IH | c f k IH | c f k IH | c f v k IH]; intros ins pars out outs m r H x Hx; cbn [raw_run] in H.
  - injection H as <-. reflexivity.
  - destruct (raw_in _ _ _ _ _ _ _ _) as [y |]; [| discriminate]. exact (IH y _ _ _ _ _ _ H x Hx).
  - destruct (raw_par _ _ _ _ _ _ _) as [y |]; [| discriminate]. exact (IH y _ _ _ _ _ _ H x Hx).
  - destruct (cell _ _ _ _ _ _) as [a |]; [| discriminate]. exact (IH (m a) _ _ _ _ _ _ H x Hx).
  - destruct (cell _ _ _ _ _ _) as [a |] eqn:E; [| discriminate]. cbn [bind] in H. rewrite (IH _ _ _ _ _ _ H x Hx). unfold setm.
    destruct (Nat.eqb_spec x a) as [-> | _]; [| reflexivity]. apply cell_spec in E as (A & B & E & _).
    assert (c * bs + bs <= outs * bs) by (replace (c * bs + bs) with (S c * bs) by lia; apply Nat.mul_le_mono_r; lia). lia.
Qed.
(** A program that fits, on memory that is there, runs *)
Definition there (ins : list isrc) (pars : list nat) (out outs : nat) : Prop :=
  (forall i, In i ins -> match i with IBuf a => a + bs <= size | IGraph g => List.length (gin g) = bs end) /\ (forall a, In a pars -> a + bs <= size) /\ out + outs * bs <= size.
Lemma in_there : forall ins pars out outs m c f, there ins pars out outs -> c < List.length ins -> f < bs ->
  exists x, raw_in F bs size gin ins m c f = Some x.
Proof.
  intros ins pars out outs m c f (A & _) Hc Hf. unfold raw_in. destruct (nth_error ins c) as [i |] eqn:E; [| apply nth_error_None in E; lia]. cbn [bind].
  destruct (Nat.ltb_spec f bs); [| lia]. specialize (A i (nth_error_In _ _ E)). destruct i as [a | g].
  - unfold peek. destruct (Nat.ltb_spec (a + f) size); [eauto | lia].
  - destruct (nth_error (gin g) f) eqn:N; [eauto |]. apply nth_error_None in N. lia.
Qed.
Lemma par_there : forall ins pars out outs m c f, there ins pars out outs -> c < List.length pars -> f < bs -> exists x, raw_par F bs size pars m c f = Some x.
Proof.
  intros ins pars out outs m c f (_ & A & _) Hc Hf. unfold raw_par. destruct (nth_error pars c) as [a |] eqn:E; [| apply nth_error_None in E; lia]. cbn [bind].
  destruct (Nat.ltb_spec f bs); [| lia]. specialize (A a (nth_error_In _ _ E)). unfold peek. destruct (Nat.ltb_spec (a + f) size); [eauto | lia].
Qed.
Lemma raw_runs : forall p ins pars out outs m, there ins pars out outs -> fits bs (List.length ins) (List.length pars) outs p -> exists r, raw ins pars out outs p m = Some r.
Proof.
  induction p as [s | c f k IH | c f k IH | c f k IH | c f v k IH]; intros ins pars out outs m T H; cbn [raw_run fits] in *.
  - eauto.
  - destruct H as (Hc & Hf & Hk). destruct (in_there ins pars out outs m c f T Hc Hf) as [x ->]. cbn [bind]. apply IH; [exact T | apply Hk].
  - destruct H as (Hc & Hf & Hk). destruct (par_there ins pars out outs m c f T Hc Hf) as [x ->]. cbn [bind]. apply IH; [exact T | apply Hk].
  - destruct H as (Hc & Hf & Hk). rewrite (cell_ok out outs c f Hc Hf (proj2 (proj2 T))). cbn [bind]. apply IH; [exact T | apply Hk].
  - destruct H as (Hc & Hf & Hk). rewrite (cell_ok out outs c f Hc Hf (proj2 (proj2 T))). cbn [bind]. apply IH; [exact T | exact Hk].
Qed.

(** With an output of its own, a program does what it does on memory of its own *)
Section Apart.
Variable ins : list isrc. Variable pars : list nat. Variables out outs : nat.
Hypothesis T : there ins pars out outs.
Hypothesis Ai : forall a, In (IBuf a) ins -> separate a bs out (outs * bs).
Hypothesis Ap : forall a, In a pars -> separate a bs out (outs * bs).
Variable m0 : memory.
Notation ls := (map (read_src F bs m0 gin) ins).
Notation ps := (map (read F bs m0) pars).
Definition like (m : memory) (o : nat -> nat -> F) : Prop :=
  (forall x, x < out \/ out + outs * bs <= x -> m x = m0 x) /\ (forall c f, c < outs -> f < bs -> m (out + c * bs + f) = o c f).

Lemma read_nth : forall m a f, f < bs -> nth_error (read F bs m a) f = Some (m (a + f)).
Proof.
  intros m a f H. unfold read. rewrite nth_error_map. replace (nth_error (seq 0 bs) f) with (Some f); [reflexivity |].
  symmetry. rewrite nth_error_nth' with (d := 0) by (rewrite seq_length; exact H). rewrite seq_nth by exact H. reflexivity.
Qed.
Lemma read_len : forall m a, List.length (read F bs m a) = bs.
Proof. intros. unfold read. rewrite map_length, seq_length. reflexivity. Qed.
Lemma outside : forall m o a f, like m o -> separate a bs out (outs * bs) -> f < bs -> m (a + f) = m0 (a + f).
Proof.
  intros m o a f [L _] S Hf. apply L. destruct (Nat.lt_ge_cases (a + f) out); [left; assumption |]. destruct (Nat.lt_ge_cases (a + f) (out + outs * bs)); [| right; assumption].
  exfalso. apply (S (a + f)); lia.
Qed.
Lemma in_like : forall m o c f, like m o -> raw_in F bs size gin ins m c f = (l <- nth_error ls c ;; nth_error l f).
Proof.
  intros m o c f L. unfold raw_in. rewrite nth_error_map. destruct (nth_error ins c) as [i |] eqn:E; [| reflexivity]. cbn [option_map bind]. pose proof (nth_error_In _ _ E) as Hi.
  pose proof (proj1 T i Hi) as B. destruct i as [a | g]; cbn [read_src].
  - destruct (Nat.ltb_spec f bs) as [Hf | Hf].
    + rewrite read_nth by exact Hf. unfold peek. destruct (Nat.ltb_spec (a + f) size); [| lia]. f_equal. eapply outside; [exact L | apply Ai; exact Hi | exact Hf].
    + symmetry. apply nth_error_None. rewrite read_len. exact Hf.
  - destruct (Nat.ltb_spec f bs); [reflexivity |]. symmetry. apply nth_error_None. lia.
Qed.
Lemma par_like : forall m o c f, like m o -> raw_par F bs size pars m c f = (l <- nth_error ps c ;; nth_error l f).
Proof.
  intros m o c f L. unfold raw_par. rewrite nth_error_map. destruct (nth_error pars c) as [a |] eqn:E; [| reflexivity]. cbn [option_map bind]. pose proof (nth_error_In _ _ E) as Hi.
  pose proof (proj1 (proj2 T) a Hi) as B. destruct (Nat.ltb_spec f bs) as [Hf | Hf].
  - rewrite read_nth by exact Hf. unfold peek. destruct (Nat.ltb_spec (a + f) size); [| lia]. f_equal. eapply outside; [exact L | apply Ap; exact Hi | exact Hf].
  - symmetry. apply nth_error_None. rewrite read_len. exact Hf.
Qed.
Lemma bind_bind : forall A B C (a : option A) (f : A -> option B) (h : B -> option C), (y <- (x <- a ;; f x) ;; h y) = (x <- a ;; y <- f x ;; h y).
Proof. intros A B C [a |] f h; reflexivity. Qed.
Lemma raw_own : forall p m o, like m o ->
  match own_run bs ls ps outs p o with
  | None => raw ins pars out outs p m = None
  | Some r => exists m', raw ins pars out outs p m = Some (fst r, m') /\ like m' (snd r)
  end.
Proof.
  induction p as [s | c f k IH | c f k IH | c f k IH | c f v k IH]; intros m o L; cbn [raw_run own_run].
  - exists m. split; [reflexivity | exact L].
  - rewrite (in_like m o c f L), bind_bind. destruct (nth_error ls c) as [l |]; [| reflexivity]. cbn [bind]. destruct (nth_error l f) as [x |]; [| reflexivity]. cbn [bind]. apply IH. exact L.
  - rewrite (par_like m o c f L), bind_bind. destruct (nth_error ps c) as [l |]; [| reflexivity]. cbn [bind]. destruct (nth_error l f) as [x |]; [| reflexivity]. cbn [bind]. apply IH. exact L.
  - destruct (Nat.ltb_spec c outs) as [Hc | Hc], (Nat.ltb_spec f bs) as [Hf | Hf]; cbn [andb].
    + rewrite (cell_ok out outs c f Hc Hf (proj2 (proj2 T))). cbn [bind]. rewrite (proj2 L c f Hc Hf). apply IH. exact L.
    + unfold cell. destruct (Nat.ltb_spec f bs); [lia |]. rewrite andb_false_r. reflexivity.
    + unfold cell. destruct (Nat.ltb_spec c outs); [lia |]. reflexivity.
    + unfold cell. destruct (Nat.ltb_spec c outs); [lia |]. reflexivity.
  - destruct (Nat.ltb_spec c outs) as [Hc | Hc], (Nat.ltb_spec f bs) as [Hf | Hf]; cbn [andb].
    + rewrite (cell_ok out outs c f Hc Hf (proj2 (proj2 T))). cbn [bind]. apply IH. split.
      * intros x Hx. unfold setm. destruct (Nat.eqb_spec x (out + c * bs + f)) as [E | _]; [| apply L; exact Hx].
        assert (c * bs + bs <= outs * bs) by (replace (c * bs + bs) with (S c * bs) by lia; apply Nat.mul_le_mono_r; lia). lia.
      * intros c' f' Hc' Hf'. unfold setm. destruct (Nat.eqb_spec (out + c' * bs + f') (out + c * bs + f)) as [E | E].
        -- assert (c' = c) by (destruct (Nat.lt_trichotomy c' c) as [K | [K | K]]; [| exact K |];
             [assert (c' * bs + bs <= c * bs) by (replace (c' * bs + bs) with (S c' * bs) by lia; apply Nat.mul_le_mono_r; lia); lia |
              assert (c * bs + bs <= c' * bs) by (replace (c * bs + bs) with (S c * bs) by lia; apply Nat.mul_le_mono_r; lia); lia]).
           subst c'. replace f' with f by lia. rewrite !Nat.eqb_refl. reflexivity.
        -- destruct (Nat.eqb_spec c' c) as [-> | _]; [| apply L; assumption]. destruct (Nat.eqb_spec f' f) as [-> | _]; [congruence | apply L; assumption].
    + unfold cell. destruct (Nat.ltb_spec f bs); [lia |]. rewrite andb_false_r. reflexivity.
    + unfold cell. destruct (Nat.ltb_spec c outs); [lia |]. reflexivity.
    + unfold cell. destruct (Nat.ltb_spec c outs); [lia |]. reflexivity.
Qed.
End Apart.
End Run.

(** ** A whole graph *)
Section Places.
Variable bs : nat.
Variable g : graph.
Variable order : list key.
Variable off : key -> nat.
Variable size : nat.
Hypothesis Hplaced : placed g bs order off size.
Hypothesis Hrefs : refs_ok g.
Lemma src_chan : forall k es e s, edges_of g k = Some es -> In (Some e) es -> e_src e = Some s -> e_chan e < nouts g s.
Proof.
  intros k es e s He Hin Es. apply In_nth_error in Hin as [c Hc]. assert (Hie : in_edge g k c = Some e) by (unfold in_edge; rewrite He, Hc; reflexivity).
  pose proof (proj1 Hrefs k c e Hie) as Hok. unfold edge_ok in Hok. rewrite Es in Hok. destruct Hok as (m' & El & _ & Hlt). unfold nouts. rewrite El. exact Hlt.
Qed.
Lemma chan_fits : forall s c, In s order -> c < nouts g s -> off s + c * bs + bs <= size.
Proof.
  intros s c Hs Hc. pose proof (pl_high _ _ _ _ _ Hplaced s Hs). assert (c * bs + bs <= nouts g s * bs) by (replace (c * bs + bs) with (S c * bs) by lia; apply Nat.mul_le_mono_r; lia). lia.
Qed.
Lemma disj_chan : forall s c y ly, disj (off s) (nouts g s * bs) y ly -> c < nouts g s -> separate (off s + c * bs) bs y ly.
Proof.
  intros s c y ly D Hc x H1 H2. assert (c * bs + bs <= nouts g s * bs) by (replace (c * bs + bs) with (S c * bs) by lia; apply Nat.mul_le_mono_r; lia). destruct D; lia.
Qed.
Lemma good_isolated : forall done k rest t, order = done ++ k :: rest -> task_of g bs order off k t -> incl (sources g k) done -> isolated bs t.
Proof.
  intros done k rest t Eo (n & es & ps & E1 & E2 & E3 & -> & Hpar & Hes) Hin.
  assert (Hk : In k order) by (rewrite Eo; apply in_or_app; right; left; reflexivity).
  assert (Hn : nouts g k = n_outputs n) by (unfold nouts; rewrite E1; reflexivity).
  assert (D : forall s c, In s (sources g k) -> c < nouts g s -> separate (off s + c * bs) bs (off k) (n_outputs n * bs)).
  { intros s c Hs Hc. apply disj_chan; [| exact Hc]. rewrite <- Hn. destruct (in_split _ _ (Hin s Hs)) as (l1 & l2 & El).
    eapply (pl_read _ _ _ _ _ Hplaced l1 s l2 k rest); [rewrite Eo, El, <- app_assoc; reflexivity | exact Hs | apply in_or_app; right; left; reflexivity]. }
  split; cbn [t_ins t_pars t_out t_outs].
  - intros a Ha. apply in_map_iff in Ha as (o & Hoa & Ho). destruct o as [e |]; cbn [in_of] in Hoa.
    + destruct (e_src e) as [s |] eqn:Es; [| discriminate]. injection Hoa as <-. apply D; [eapply src_edge; eauto | eapply src_chan; eauto].
    + injection Hoa as <-. intros x H1 H2. pose proof (pl_low _ _ _ _ _ Hplaced k Hk). lia.
  - intros x Hx. apply in_map_iff in Hx as (p & <- & Hp). cbn [par_of snd]. apply D; [eapply src_par; eauto | apply Hpar; exact Hp].
Qed.
End Places.
Section Graph.
Variable F St : Type.
Variable zero : F.
Variable bs : nat.
Hypothesis Hbs : 0 < bs.
Variable g : graph.
Variable code : key -> St -> prog F St.
Hypothesis Hcode : forall k n es ps s, lookup g k = Some n -> edges_of g k = Some es -> pedges_of g k = Some ps ->
  fits bs (List.length es) (List.length ps) (n_outputs n) (code k s) /\ covers bs (List.length es) (List.length ps) (n_outputs n) (code k s).
Definition node_proc (k : key) (s : St) (ins : list (list F)) (pars : list (N * list F)) : St * (nat -> nat -> F) := computed bs zero (nouts g k) (code k s) s ins pars.
Variable order : list key.
Variable off : key -> nat.
Variable size : nat.
Hypothesis Hnd : NoDup order.
Hypothesis Hplaced : placed g bs order off size.
Hypothesis Hrefs : refs_ok g.
Variable gin : nat -> list F.
Hypothesis Hgin : forall c, c < g_inputs g -> List.length (gin c) = bs.
Variable st : key -> St.
Notation memory := (memory F).
Notation raw_task := (raw_task F St bs size gin code).
Notation rinv := (rinv F zero St node_proc bs g order off gin st).
Notation signal := (signal F zero bs gin).
Notation par_signal := (par_signal F bs).

Lemma own_runs : forall p ins pars outs o, fits bs (List.length ins) (List.length pars) outs p -> Forall (fun l => List.length l = bs) ins -> Forall (fun l => List.length l = bs) pars ->
  exists r, own_run (F := F) (St := St) bs ins pars outs p o = Some r.
Proof.
  assert (E : forall (l : list (list F)) c f, c < List.length l -> f < bs -> Forall (fun l => List.length l = bs) l -> exists x y, nth_error l c = Some x /\ nth_error x f = Some y).
  { intros l c f Hc Hf H. destruct (nth_error l c) as [x |] eqn:N; [| apply nth_error_None in N; lia]. exists x. rewrite Forall_forall in H. pose proof (H x (nth_error_In _ _ N)) as L.
    destruct (nth_error x f) as [y |] eqn:M; [eauto |]. apply nth_error_None in M. lia. }
  induction p as [s | c f k IH | c f k IH | c f k IH | c f v k IH]; intros ins pars outs o H A B; cbn [own_run fits] in *.
  - eauto.
  - destruct H as (Hc & Hf & Hk). destruct (E ins c f Hc Hf A) as (x & y & -> & E2). cbn [bind]. rewrite E2. cbn [bind]. apply IH; auto.
  - destruct H as (Hc & Hf & Hk). destruct (E pars c f Hc Hf B) as (x & y & -> & E2). cbn [bind]. rewrite E2. cbn [bind]. apply IH; auto.
  - destruct H as (Hc & Hf & Hk). destruct (Nat.ltb_spec c outs); [| lia]. destruct (Nat.ltb_spec f bs); [| lia]. cbn [andb]. apply IH; auto.
  - destruct H as (Hc & Hf & Hk). destruct (Nat.ltb_spec c outs); [| lia]. destruct (Nat.ltb_spec f bs); [| lia]. cbn [andb]. apply IH; auto.
Qed.

Lemma task_there : forall k t, In k order -> task_of g bs order off k t -> there F bs size gin (t_ins t) (map snd (t_pars t)) (t_out t) (t_outs t).
Proof.
  intros k t Hk (n & es & ps & E1 & E2 & E3 & -> & Hpar & Hes). cbn [t_ins t_pars t_out t_outs]. split; [| split].
  - intros i Hi. apply in_map_iff in Hi as (o & <- & Ho). destruct o as [e |]; cbn [in_of].
    + destruct (e_src e) as [s |] eqn:Es; [eapply chan_fits; [exact Hplaced | eapply Hes; eauto | eapply src_chan; eauto] |].
      apply In_nth_error in Ho as [c Hc]. assert (Hie : in_edge g k c = Some e) by (unfold in_edge; rewrite E2, Hc; reflexivity).
      pose proof (proj1 Hrefs k c e Hie) as Hok. unfold edge_ok in Hok. rewrite Es in Hok. apply Hgin. exact Hok.
    + pose proof (pl_low _ _ _ _ _ Hplaced k Hk). pose proof (pl_high _ _ _ _ _ Hplaced k Hk). lia.
  - intros a Ha. apply in_map_iff in Ha as (x & <- & Hx). apply in_map_iff in Hx as (p & <- & Hp). cbn [par_of snd]. destruct (Hpar p Hp) as [A B]. eapply chan_fits; eassumption.
  - pose proof (pl_high _ _ _ _ _ Hplaced k Hk). unfold nouts in H. rewrite E1 in H. exact H.
Qed.

Lemma raw_result : forall done k rest t m st', order = done ++ k :: rest -> task_of g bs order off k t ->
  exists s m1 W, raw_task (m, st') t = Some (m1, upd_st St st' k s) /\ (forall x, x < off k \/ off k + nouts g k * bs <= x -> m1 x = m x) /\
    (forall c i, c < nouts g k -> i < bs -> m1 (off k + c * bs + i) = W c i) /\
    (incl (sources g k) done -> (s, W) = node_proc k (st' k) (map (read_src F bs m gin) (t_ins t)) (map (fun p => (fst p, read F bs m (snd p))) (t_pars t))).
Proof.
  intros done k rest t m st' Eo Ht. pose proof Ht as (n & es & ps & E1 & E2 & E3 & Et & Hpar & Hes).
  assert (Hk : In k order) by (rewrite Eo; apply in_or_app; right; left; reflexivity).
  assert (Hn : nouts g k = n_outputs n) by (unfold nouts; rewrite E1; reflexivity).
  pose proof (task_there k t Hk Ht) as T. destruct (Hcode k n es ps (st' k) E1 E2 E3) as [Hf Hc].
  assert (L1 : List.length (t_ins t) = List.length es) by (rewrite Et; cbn; apply map_length).
  assert (L2 : List.length (map snd (t_pars t)) = List.length ps) by (rewrite Et; cbn; rewrite !map_length; reflexivity).
  assert (Eout : t_out t = off k) by (rewrite Et; reflexivity). assert (Eouts : t_outs t = n_outputs n) by (rewrite Et; reflexivity). assert (Ekey : t_key t = k) by (rewrite Et; reflexivity).
  assert (Conf : forall r, raw_run F St bs size gin (t_ins t) (map snd (t_pars t)) (t_out t) (t_outs t) (code k (st' k)) m = Some r ->
    forall x, x < off k \/ off k + nouts g k * bs <= x -> snd r x = m x).
  { intros r Hr x Hx. eapply raw_confined; [exact Hbs | exact Hr |]. rewrite Eout, Eouts, <- Hn. exact Hx. }
  unfold RawModel.raw_task. cbn [fst snd]. rewrite Ekey.
  destruct (Forall_dec (fun s => In s done) (fun s => in_dec Nat.eq_dec s done) (sources g k)) as [D | D].
  - rewrite Forall_forall in D. pose proof (good_isolated bs g order off size Hplaced Hrefs done k rest t Eo Ht D) as [I1 I2].
    assert (I3 : forall a, In a (map snd (t_pars t)) -> separate a bs (t_out t) (t_outs t * bs)) by (intros a Ha; apply in_map_iff in Ha as (p & <- & Hp); apply I2; exact Hp).
    set (ls := map (read_src F bs m gin) (t_ins t)). set (qs := map (read F bs m) (map snd (t_pars t))).
    assert (Fl : Forall (fun l => List.length l = bs) ls).
    { apply Forall_forall. intros l Hl. apply in_map_iff in Hl as (i & <- & Hi). pose proof (proj1 T i Hi) as Q. destruct i; cbn [read_src]; [apply read_len | exact Q]. }
    assert (Fq : Forall (fun l => List.length l = bs) qs) by (apply Forall_forall; intros l Hl; apply in_map_iff in Hl as (a & <- & _); apply read_len).
    assert (Ll : List.length ls = List.length es) by (unfold ls; rewrite map_length; exact L1).
    assert (Lq : List.length qs = List.length ps) by (unfold qs; rewrite map_length; exact L2).
    rewrite <- Ll, <- Lq in Hf.
    set (o0 := fun c i => m (off k + c * bs + i)).
    destruct (own_runs (code k (st' k)) ls qs (n_outputs n) o0 Hf Fl Fq) as [r1 R1].
    destruct (own_runs (code k (st' k)) ls qs (n_outputs n) (fun _ _ => zero) Hf Fl Fq) as [r2 R2].
    destruct (Hc ls qs o0 (fun _ _ => zero) r1 r2 Ll Lq Fl Fq R1 R2) as [C1 C2].
    pose proof (raw_own F St bs size Hbs gin (t_ins t) (map snd (t_pars t)) (t_out t) (t_outs t) T I1 I3 m (code k (st' k)) m o0) as Q.
    fold ls qs in Q. rewrite Eouts in Q at 2. rewrite R1 in Q.
    destruct Q as (m1 & Hr & Lk).
    { split; [reflexivity |]. intros c f _ _. unfold o0. rewrite Eout. reflexivity. }
    rewrite Hr. cbn [bind fst snd]. exists (fst r2), m1, (snd r2). rewrite C1. split; [reflexivity |]. split; [exact (Conf _ Hr) |]. split.
    + intros c i Hc' Hi. rewrite <- Eout. rewrite (proj2 Lk c i) by (rewrite ?Eouts, <- ?Hn; assumption). apply C2; [rewrite <- Hn; exact Hc' | exact Hi].
    + intros _. unfold node_proc, computed. rewrite map_map. cbn [snd]. replace (map (fun x : N * nat => read F bs m (snd x)) (t_pars t)) with qs by (unfold qs; rewrite map_map; reflexivity).
      fold ls. rewrite Hn, R2. destruct r2; reflexivity.
  - destruct (raw_runs F St bs size Hbs gin (code k (st' k)) (t_ins t) (map snd (t_pars t)) (t_out t) (t_outs t) m T) as [[s m1] Hr]; [rewrite L1, L2, Eouts; exact Hf |].
    rewrite Hr. cbn [bind fst snd]. exists s, m1, (fun c i => m1 (off k + c * bs + i)). split; [reflexivity |]. split; [exact (Conf _ Hr) |]. split; [reflexivity |].
    intros K. exfalso. apply D. apply Forall_forall. exact K.
Qed.

Lemma raw_step : forall done k rest m st' V t, order = done ++ k :: rest -> rinv done m st' V -> task_of g bs order off k t ->
  exists ms V', raw_task (m, st') t = Some ms /\ rinv (done ++ [k]) (fst ms) (snd ms) V'.
Proof.
  intros done k rest m st' V t Eo Hi Ht. pose proof Ht as (n & es & ps & E1 & E2 & E3 & Et & Hpar & Hes).
  destruct (raw_result done k rest t m st' Eo Ht) as (s & m1 & W & Hr & Hconf & Hcell & Hgood). exists (m1, upd_st St st' k s), (vupd F V k W). split; [exact Hr |]. cbn [fst snd].
  assert (Hk : ~ In k done) by (rewrite Eo in Hnd; apply NoDup_remove_2 in Hnd; rewrite in_app_iff in Hnd; tauto).
  assert (Hkin : In k order) by (rewrite Eo; apply in_or_app; right; left; reflexivity).
  assert (Hold : forall s, In s done -> vupd F V k W s = V s).
  { intros s0 Hs. unfold vupd. destruct (Nat.eqb_spec s0 k) as [-> | _]; [contradiction | reflexivity]. }
  constructor.
  - intros s0 Hs. rewrite in_app_iff in Hs. unfold upd_st. destruct (Nat.eqb_spec s0 k) as [-> | _].
    + exfalso. apply Hs. right. left. reflexivity.
    + apply (r_fresh _ _ _ _ _ _ _ _ _ _ _ _ _ _ Hi). tauto.
  - intros x Hx. rewrite Hconf; [apply (r_zero _ _ _ _ _ _ _ _ _ _ _ _ _ _ Hi); exact Hx |]. left. pose proof (pl_low _ _ _ _ _ Hplaced k Hkin). lia.
  - intros l1 s0 l2 E c i Hc Hlt Hd. apply last_split in E as [(-> & -> & ->) | (l2' & -> & E)].
    + rewrite Hcell by assumption. unfold vupd. rewrite Nat.eqb_refl. reflexivity.
    + assert (Hs : In s0 done) by (rewrite E; apply in_or_app; right; left; reflexivity). rewrite Hold by exact Hs. rewrite Hconf.
      * apply (r_intact _ _ _ _ _ _ _ _ _ _ _ _ _ _ Hi l1 s0 l2' E); [exact Hc | exact Hlt |]. intros y Hy. apply Hd. apply in_or_app. left. exact Hy.
      * assert (Hk' := Hd k ltac:(apply in_or_app; right; left; reflexivity)).
        clear - Hk'. generalize dependent (nouts g k * bs). intros; lia.
  - intros x Hx Hg. apply in_app_or in Hx as [Hx | [<- | []]].
    + destruct (r_solved _ _ _ _ _ _ _ _ _ _ _ _ _ _ Hi x Hx Hg) as (n' & r' & A1 & (es' & ps' & B1 & B2 & B3) & A3 & A4). exists n', r'. split; [exact A1 |].
      assert (Hbefore : incl (sources g x) done).
      { apply in_split in Hx as (l1 & l2 & ->). intros y Hy. apply in_or_app. left. eapply (Hg l1 (l2 ++ k :: rest)); [rewrite Eo, <- app_assoc; reflexivity | exact Hy]. }
      split; [| split].
      * exists es', ps'. split; [exact B1 |]. split; [exact B2 |]. rewrite B3. f_equal.
        -- apply signal_ext. intros e s0 Hin Hs. symmetry. apply Hold. apply Hbefore. eapply src_edge; eauto.
        -- apply par_ext. intros p Hin. symmetry. apply Hold. apply Hbefore. eapply src_par; eauto.
      * rewrite Hold by exact Hx. exact A3.
      * unfold upd_st. destruct (Nat.eqb_spec x k) as [-> | _]; [contradiction | exact A4].
    + exists n, (s, W). split; [exact E1 |]. pose proof (Hg done rest Eo) as Hbefore. rewrite Et in Ht.
      destruct (reads_ok F zero St node_proc bs Hbs g order off size Hplaced Hrefs gin st done k rest m st' V n es ps Eo Hi Ht E2 E3 Hg) as [R1 R2].
      split; [| split].
      * exists es, ps. split; [exact E2 |]. split; [exact E3 |]. rewrite (Hgood Hbefore). rewrite Et. cbn [t_ins t_pars].
        transitivity (node_proc k (st k) (map (signal V) es) (map (par_signal V) ps)).
        { rewrite (r_fresh _ _ _ _ _ _ _ _ _ _ _ _ _ _ Hi k Hk), R1, R2. reflexivity. }
        f_equal.
        -- apply signal_ext. intros e s0 Hin Hs. symmetry. apply Hold. apply Hbefore. eapply src_edge; eauto.
        -- apply par_ext. intros p Hin. symmetry. apply Hold. apply Hbefore. eapply src_par; eauto.
      * unfold vupd. rewrite Nat.eqb_refl. reflexivity.
      * unfold upd_st. rewrite Nat.eqb_refl. reflexivity.
Qed.
Lemma raw_all : forall rest ts, Forall2 (task_of g bs order off) rest ts -> forall done m st' V, order = done ++ rest -> rinv done m st' V ->
  exists ms V', raw_tasks F St bs size gin code ts (m, st') = Some ms /\ rinv order (fst ms) (snd ms) V'.
Proof.
  intros rest ts H. induction H as [| k t rest ts Hkt _ IH]; intros done m st' V Eo Hi; cbn [raw_tasks].
  - exists (m, st'), V. rewrite app_nil_r in Eo. subst done. split; [reflexivity | exact Hi].
  - destruct (raw_step done k rest m st' V t Eo Hi Hkt) as (ms & V1 & -> & Hi1). cbn [bind]. destruct ms as [m1 st1]. cbn [fst snd] in Hi1.
    eapply (IH (done ++ [k])); [rewrite <- app_assoc; exact Eo | exact Hi1].
Qed.
End Graph.

Section Blocks.
Variable F St : Type.
Variable zero : F.
Variable bs : nat.
Variable g : graph.
Variable code : key -> St -> prog F St.
Hypothesis Hcode : forall k n es ps s, lookup g k = Some n -> edges_of g k = Some es -> pedges_of g k = Some ps ->
  fits bs (List.length es) (List.length ps) (n_outputs n) (code k s) /\ covers bs (List.length es) (List.length ps) (n_outputs n) (code k s).
Notation proc := (node_proc F St zero bs g code).
Notation solves := (solves F zero St proc bs).
Notation computes := (computes F zero St proc bs).
Notation signal := (signal F zero bs).

Lemma raw_block : forall a old a1 td gin m st, forward_graph g -> 0 < bs -> plan g bs a old = Some (a1, td) -> sound_plan g bs td -> (forall c, c < g_inputs g -> List.length (gin c) = bs) -> silent F zero bs m ->
  exists ms out V, raw_render F St bs (a_size a1) gin zero code td (m, st) = Some (ms, out) /\ silent F zero bs (fst ms) /\ (forall k, heard g k -> solves g gin st V k) /\
    (forall k, heard g k -> exists r, computes g gin st V k r /\ snd ms k = fst r) /\ out = map (signal gin V) (g_outs g).
Proof.
  intros a old a1 td gin m st Hr Hbs Hp Hsound Hgin Hm. pose proof Hr as [Hw Hrefs Hl Hfb].
  destruct (plan_placed g bs a old a1 td Hw Hrefs Hbs Hl Hp) as (order & off & Ho & Hpl & Ht & Htd & Hoe).
  destruct (order_once g order Hw Ho) as [Hnd _]. pose proof (sound_order g bs td order off Hr Ht Ho Hsound) as Hgood.
  destruct (raw_all F St zero bs Hbs g code Hcode order off (a_size a1) Hnd Hpl Hrefs gin Hgin st order (td_tasks td) Ht [] m st (fun _ _ _ => zero) eq_refl) as (ms & V & Hms & Hi);
    [apply (rinv_start F zero St proc bs g order off gin st m Hm) |].
  unfold raw_render. rewrite Hms. cbn [bind]. eexists ms, _, V. split; [reflexivity |]. split; [apply (r_zero _ _ _ _ _ _ _ _ _ _ _ _ _ _ Hi) |].
  pose proof (r_solved _ _ _ _ _ _ _ _ _ _ _ _ _ _ Hi) as Hsolved. split; [| split].
  - intros k Hk. destruct (Hgood k Hk) as [Hin Hg]. destruct (Hsolved k Hin Hg) as (n & r & E1 & E2 & E3 & _). exists n, r. rewrite E3. auto.
  - intros k Hk. destruct (Hgood k Hk) as [Hin Hg]. destruct (Hsolved k Hin Hg) as (n & r & E1 & E2 & E3 & E4). exists r. auto.
  - rewrite Htd, map_map. apply map_ext_in. intros [e |] Hin; [| reflexivity]. cbn.
    destruct (e_src e) as [s |] eqn:Es; [| reflexivity]. cbn. unfold read, chan. apply map_ext_in. intros i Hi'.
    apply in_seq in Hi'. destruct (Hoe e s Hin Es) as [Hs Hc]. destruct (in_split _ _ Hs) as (l1 & l2 & El).
    apply (r_intact _ _ _ _ _ _ _ _ _ _ _ _ _ _ Hi l1 s l2 El); [exact Hc | lia |].
    intros y Hy. destruct (task_at _ _ _ _ _ _ Ht l1 s l2 El) as (ts1 & t & ts2 & Ets & Hts & _ & H2).
    apply in_split in Hy as (m1' & m2' & Ey). destruct (task_at _ _ _ _ _ _ H2 m1' y m2' Ey) as (u1 & t' & u2 & Eu & Hty & _).
    destruct (task_region _ _ _ _ _ _ Hts) as (K1 & K2 & K3). destruct (task_region _ _ _ _ _ _ Hty) as (K1' & K2' & K3').
    apply In_nth_error in Hin as [c Hc'].
    pose proof (proj2 Hsound c e s ltac:(unfold out_edge; rewrite Hc'; reflexivity) Es ts1 t ts2 Ets K1 t' i
      ltac:(rewrite Eu; apply in_or_app; right; left; reflexivity) ltac:(lia)) as Hno.
    unfold writes in Hno. rewrite K2, K2', K3' in Hno. exact Hno.
Qed.
Lemma raw_blocks : forall a old a1 td, forward_graph g -> 0 < bs -> plan g bs a old = Some (a1, td) -> sound_plan g bs td ->
  forall gins m st, Forall (fun gin => forall c, c < g_inputs g -> List.length (gin c) = bs) gins -> silent F zero bs m ->
  exists ms outs, raw_render_n F St bs (a_size a1) zero code td gins (m, st) = Some (ms, outs) /\ plays F zero St proc bs g gins st outs.
Proof.
  intros a old a1 td Hr Hbs Hp Hsound gins. induction gins as [| gin gins IH]; intros m st Hg Hm; cbn [raw_render_n].
  - exists (m, st), []. split; [reflexivity | constructor].
  - inversion Hg as [| ? ? Hg1 Hg2]; subst. destruct (raw_block a old a1 td gin m st Hr Hbs Hp Hsound Hg1 Hm) as ([m1 st1] & o & V & E & Hm1 & V1 & V2 & ->). rewrite E. cbn [bind fst snd].
    destruct (IH m1 st1 Hg2 Hm1) as (ms & outs & E2 & P). rewrite E2. cbn [bind fst snd]. eexists _, _. split; [reflexivity |]. eapply plays_cons; eauto.
Qed.
End Blocks.
(** Tasks of heard nodes are isolated *)
Lemma heard_isolated : forall g bs a old a1 td t, forward_graph g -> 0 < bs -> plan g bs a old = Some (a1, td) -> sound_plan g bs td -> In t (td_tasks td) -> heard g (t_key t) -> isolated bs t.
Proof.
  intros g bs a old a1 td t Hr Hbs Hp Hsound Hin Hh. pose proof Hr as [Hw Hrefs Hl Hfb].
  destruct (plan_placed g bs a old a1 td Hw Hrefs Hbs Hl Hp) as (order & off & Ho & Hpl & Ht & Htd & Hoe).
  assert (K : exists k, In k order /\ task_of g bs order off k t).
  { clear - Ht Hin. revert Hin. generalize (td_tasks td) Ht. intros ts. clear Ht. assert (G : forall o, Forall2 (task_of g bs order off) o ts -> In t ts -> exists k, In k o /\ task_of g bs order off k t).
    { intros o H. induction H as [| k x o ts Hx _ IH]; [intros [] |]; intros [<- | Hin]; [exists k; split; [left; reflexivity | exact Hx] |].
      destruct (IH Hin) as (k' & A & B). exists k'. split; [right; exact A | exact B]. }
    intros H Hin. exact (G order H Hin). }
  destruct K as (k & Hk & Hkt). assert (t_key t = k) by (destruct Hkt as (n & es & ps & _ & _ & _ & -> & _); reflexivity). subst k.
  destruct (sound_order g bs td order off Hr Ht Ho Hsound _ Hh) as [_ Hg]. destruct (in_split _ _ Hk) as (l1 & l2 & El).
  eapply (good_isolated bs g order off (a_size a1) Hpl Hrefs l1 (t_key t) l2); [exact El | exact Hkt | exact (Hg l1 l2 El)].
Qed.

(** ** The default block code *)
Section FrameCode.
Variables F St : Type.
Variable zero : F.
Variable bs : nat.
Variable step : St -> list F -> list F -> St * list F.
Variables ins pars outs : nat.
Hypothesis Hstep : forall s xs qs, List.length (snd (step s xs qs)) = outs.

Lemma fits_ins : forall n c f acc k, c + n <= ins -> f < bs -> (forall l, fits bs ins pars outs (k l)) -> fits bs ins pars outs (read_ins F St n c f acc k).
Proof. induction n as [| n IH]; intros c f acc k Hc Hf H; cbn [read_ins fits]; [apply H |]. split; [lia |]. split; [exact Hf |]. intros x. apply IH; [lia | exact Hf | exact H]. Qed.
Lemma fits_pars : forall n c f acc k, c + n <= pars -> f < bs -> (forall l, fits bs ins pars outs (k l)) -> fits bs ins pars outs (read_pars F St n c f acc k).
Proof. induction n as [| n IH]; intros c f acc k Hc Hf H; cbn [read_pars fits]; [apply H |]. split; [lia |]. split; [exact Hf |]. intros x. apply IH; [lia | exact Hf | exact H]. Qed.
Lemma fits_outs : forall l c f k, c + List.length l <= outs -> f < bs -> fits bs ins pars outs k -> fits bs ins pars outs (write_outs F St c f l k).
Proof. induction l as [| x l IH]; intros c f k Hc Hf H; cbn [write_outs fits List.length] in *; [exact H |]. split; [lia |]. split; [exact Hf |]. apply IH; [lia | exact Hf | exact H]. Qed.
Lemma frames_fit : forall n f s, f + n <= bs -> fits bs ins pars outs (frame_loop F St step ins pars n f s).
Proof.
  induction n as [| n IH]; intros f s H; cbn [frame_loop fits]; [exact I |]. apply fits_pars; [lia | lia |]. intros qs. apply fits_ins; [lia | lia |]. intros xs. cbn zeta.
  apply fits_outs; [rewrite Hstep; lia | lia |]. apply IH. lia.
Qed.

Lemma nth_error_zero : forall (l : list F) f, f < List.length l -> nth_error l f = Some (nth f l zero).
Proof. intros. apply nth_error_nth'. assumption. Qed.
Lemma skipn_nth_cons : forall A (l : list A) c x, nth_error l c = Some x -> skipn c l = x :: skipn (S c) l.
Proof. induction l as [| a l IH]; intros [| c] x H; try discriminate; cbn in H; [injection H as ->; reflexivity |]. cbn [skipn]. apply (IH c x H). Qed.
Lemma own_ins : forall ls ps n c f acc k o, c + n = List.length ls -> f < bs -> Forall (fun l => List.length l = bs) ls ->
  own_run bs ls ps outs (read_ins F St n c f acc k) o = own_run bs ls ps outs (k (rev acc ++ column zero (skipn c ls) f)) o.
Proof.
  intros ls ps. induction n as [| n IH]; intros c f acc k o Hc Hf Hl; cbn [read_ins own_run].
  - rewrite skipn_all2 by lia. cbn [column map]. rewrite app_nil_r. reflexivity.
  - destruct (nth_error ls c) as [l |] eqn:E; [| apply nth_error_None in E; lia]. cbn [bind]. rewrite Forall_forall in Hl. pose proof (Hl l (nth_error_In _ _ E)) as L.
    rewrite nth_error_zero by lia. cbn [bind]. rewrite IH by (try lia; apply Forall_forall; exact Hl). rewrite (skipn_nth_cons _ _ _ _ E). cbn [rev column map]. rewrite <- app_assoc. reflexivity.
Qed.
Lemma own_pars : forall ls ps n c f acc k o, c + n = List.length ps -> f < bs -> Forall (fun l => List.length l = bs) ps ->
  own_run bs ls ps outs (read_pars F St n c f acc k) o = own_run bs ls ps outs (k (rev acc ++ column zero (skipn c ps) f)) o.
Proof.
  intros ls ps. induction n as [| n IH]; intros c f acc k o Hc Hf Hl; cbn [read_pars own_run].
  - rewrite skipn_all2 by lia. cbn [column map]. rewrite app_nil_r. reflexivity.
  - destruct (nth_error ps c) as [l |] eqn:E; [| apply nth_error_None in E; lia]. cbn [bind]. rewrite Forall_forall in Hl. pose proof (Hl l (nth_error_In _ _ E)) as L.
    rewrite nth_error_zero by lia. cbn [bind]. rewrite IH by (try lia; apply Forall_forall; exact Hl). rewrite (skipn_nth_cons _ _ _ _ E). cbn [rev column map]. rewrite <- app_assoc. reflexivity.
Qed.
Lemma own_outs : forall ls ps l c f k o, c + List.length l <= outs -> f < bs ->
  exists o', own_run bs ls ps outs (write_outs F St c f l k) o = own_run bs ls ps outs k o' /\
    forall c' f', o' c' f' = if (f' =? f) && (c <=? c') && (c' <? c + List.length l) then nth (c' - c) l zero else o c' f'.
Proof.
  intros ls ps. induction l as [| x l IH]; intros c f k o Hc Hf; cbn [write_outs own_run List.length] in *.
  - exists o. split; [reflexivity |]. intros c' f'. destruct (Nat.leb_spec c c'), (Nat.ltb_spec c' (c + 0)); try lia; rewrite ?andb_false_r; reflexivity.
  - destruct (Nat.ltb_spec c outs); [| lia]. destruct (Nat.ltb_spec f bs); [| lia]. cbn [andb].
    destruct (IH (S c) f k (fun c' f' => if (c' =? c) && (f' =? f) then x else o c' f') ltac:(lia) Hf) as (o' & E & H'). exists o'. split; [exact E |].
    intros c' f'. rewrite H'. destruct (Nat.eqb_spec f' f) as [-> | Hf']; cbn [andb]; [| rewrite andb_false_r; reflexivity].
    rewrite andb_true_r. destruct (Nat.leb_spec (S c) c'), (Nat.ltb_spec c' (S c + List.length l)), (Nat.eqb_spec c' c), (Nat.leb_spec c c'), (Nat.ltb_spec c' (c + S (List.length l))); try lia; cbn [andb]; try reflexivity.
    + replace (c' - c) with (S (c' - S c)) by lia. reflexivity.
    + subst c'. rewrite Nat.sub_diag. reflexivity.
Qed.
Lemma own_frames : forall ls ps, List.length ls = ins -> List.length ps = pars -> Forall (fun l => List.length l = bs) ls -> Forall (fun l => List.length l = bs) ps ->
  forall n f s o, f + n <= bs -> exists o', own_run bs ls ps outs (frame_loop F St step ins pars n f s) o = Some (fst (in_frames step zero s ls ps n f), o') /\
    forall c i, c < outs -> o' c i = if (f <=? i) && (i <? f + n) then nth c (nth (i - f) (snd (in_frames step zero s ls ps n f)) []) zero else o c i.
Proof.
  intros ls ps L1 L2 F1 F2. induction n as [| n IH]; intros f s o Hn; cbn [frame_loop in_frames own_run].
  - exists o. split; [reflexivity |]. intros c i _. destruct (Nat.leb_spec f i), (Nat.ltb_spec i (f + 0)); try lia; reflexivity.
  - rewrite own_pars by (try assumption; lia). cbn beta. rewrite own_ins by (try assumption; lia). cbn [rev app skipn]. set (r := step s (column zero ls f) (column zero ps f)). cbn zeta.
    destruct (own_outs ls ps (snd r) 0 f (frame_loop F St step ins pars n (S f) (fst r)) o) as (o1 & E1 & H1); [unfold r; rewrite Hstep; lia | lia |].
    rewrite E1. destruct (IH (S f) (fst r) o1 ltac:(lia)) as (o2 & E2 & H2). exists o2. cbn [fst snd]. split; [exact E2 |].
    intros c i Hc. rewrite H2 by exact Hc. rewrite H1. replace (List.length (snd r)) with outs by (unfold r; rewrite Hstep; reflexivity).
    destruct (Nat.leb_spec (S f) i), (Nat.ltb_spec i (S f + n)), (Nat.leb_spec f i), (Nat.ltb_spec i (f + S n)), (Nat.eqb_spec i f), (Nat.ltb_spec c (0 + outs)); try lia; cbn [andb Nat.leb]; try reflexivity.
    + replace (i - f) with (S (i - S f)) by lia. reflexivity.
    + subst i. rewrite Nat.sub_diag, Nat.sub_0_r. reflexivity.
Qed.
Lemma frames_cover : forall s, covers bs ins pars outs (frame_loop F St step ins pars bs 0 s).
Proof.
  intros s ls ps o1 o2 r1 r2 L1 L2 F1 F2 R1 R2.
  destruct (own_frames ls ps L1 L2 F1 F2 bs 0 s o1 ltac:(lia)) as (p1 & E1 & H1). destruct (own_frames ls ps L1 L2 F1 F2 bs 0 s o2 ltac:(lia)) as (p2 & E2 & H2).
  rewrite E1 in R1. rewrite E2 in R2. injection R1 as <-. injection R2 as <-. cbn [fst snd]. split; [reflexivity |].
  intros c f Hc Hf. rewrite H1, H2 by exact Hc. destruct (Nat.leb_spec 0 f), (Nat.ltb_spec f (0 + bs)); try lia. reflexivity.
Qed.
Lemma frames_computed : forall s s0 ls qs, List.length ls = ins -> List.length qs = pars -> Forall (fun l => List.length l = bs) ls -> Forall (fun q => List.length (snd q) = bs) qs ->
  let r := computed bs zero outs (frame_loop F St step ins pars bs 0 s) s0 ls qs in
  fst r = fst (in_frames step zero s ls (map snd qs) bs 0) /\ forall c i, c < outs -> i < bs -> snd r c i = nth c (nth i (snd (in_frames step zero s ls (map snd qs) bs 0)) []) zero.
Proof.
  intros s s0 ls qs L1 L2 F1 F2. assert (F3 : Forall (fun l => List.length l = bs) (map snd qs)) by (apply Forall_map; exact F2).
  destruct (own_frames ls (map snd qs) L1 ltac:(rewrite map_length; exact L2) F1 F3 bs 0 s (fun _ _ => zero) ltac:(lia)) as (p & E & H). unfold computed. rewrite E. cbn [fst snd]. split; [reflexivity |].
  intros c i Hc Hi. rewrite H by exact Hc. destruct (Nat.leb_spec 0 i), (Nat.ltb_spec i (0 + bs)); try lia. cbn [andb]. rewrite Nat.sub_0_r. reflexivity.
Qed.
End FrameCode.
