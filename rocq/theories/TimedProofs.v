(** Proofs about timed changes from the handle to the samples. *)
From Verif Require Import Base TimeModel TimeSpec BlockModel PreciseModel PreciseSpec PreciseProofs SchedModel SchedSpec SchedProofs SchedFate SchedProps TimedModel TimedSpec.
From Coq Require Import Sorted.
Local Open Scope N_scope.

(** ** the keys of deliveries *)
Section Keys.
Variable V : Type.
Notation event := (SchedModel.event V).
Lemma apply_change_key bs sr clock act keys (e : event) r : apply_change bs sr clock act keys e = Some r ->
  match r with inl d => d_id d = e_id e /\ d_key d = e_key e | inr e' => e_id e' = e_id e /\ e_key e' = e_key e end.
Proof.
  unfold apply_change. destruct (e_time e) as [t|]; cbn [bind].
  - destruct (until_due bs sr clock t) as [x|]; cbn [bind]; [|discriminate].
    destruct (_ && _); intros [= <-]; cbn; auto.
  - destruct (_ && _); intros [= <-]; cbn; auto.
Qed.
(** [P id key] holds of what is queued and of what was delivered. *)
Variable P : nat -> nat -> Prop.
Lemma wait_pass_keys bs sr kp clock act keys l : forall ds k, wait_pass V bs sr kp clock act keys l = Some (ds, k) ->
  (forall x, In x l -> P (e_id (fst x)) (e_key (fst x))) ->
  (forall d, In d ds -> P (d_id d) (d_key d)) /\ (forall x, In x k -> P (e_id (fst x)) (e_key (fst x))).
Proof.
  induction l as [|[e w] l IH]; cbn [wait_pass]; intros ds k H Hl; [injection H as <- <-; split; intros ? []|].
  assert (Hl' : forall x, In x l -> P (e_id (fst x)) (e_key (fst x))) by (intros x Hx; apply Hl; right; exact Hx).
  assert (He : P (e_id e) (e_key e)) by (apply (Hl (e, w)); left; reflexivity).
  destruct (kp <? w); [apply (IH _ _ H Hl')|].
  destruct (apply_change bs sr clock act keys e) as [r|] eqn:E; cbn [bind] in H; [|discriminate].
  apply apply_change_key in E. destruct r as [d|e']; destruct E as [E1 E2].
  - destruct (wait_pass V bs sr kp clock act keys l) as [[ds' k']|]; cbn [bind fst snd] in H; [|discriminate]. injection H as <- <-.
    destruct (IH _ _ eq_refl Hl') as [A B]. split; [|exact B]. intros x [<-|Hx]; [rewrite E1, E2; exact He|auto].
  - destruct (add_w U32 w 1); cbn [bind] in H; [|discriminate].
    destruct (wait_pass V bs sr kp clock act keys l) as [[ds' k']|]; cbn [bind fst snd] in H; [|discriminate]. injection H as <- <-.
    destruct (IH _ _ eq_refl Hl') as [A B]. split; [exact A|]. intros x [<-|Hx]; [cbn [fst]; rewrite E1, E2; exact He|auto].
Qed.
Lemma new_loop_keys bs sr clock cap act keys ring : forall q ds q', new_loop bs sr clock cap act keys ring q = Some (ds, q') ->
  (forall e : event, In e ring -> P (e_id e) (e_key e)) -> (forall x, In x q -> P (e_id (fst x)) (e_key (fst x))) ->
  (forall d, In d ds -> P (d_id d) (d_key d)) /\ (forall x, In x q' -> P (e_id (fst x)) (e_key (fst x))).
Proof.
  induction ring as [|e ring IH]; cbn [new_loop]; intros q ds q' H Hr Hq; [injection H as <- <-; split; [intros ? []|exact Hq]|].
  assert (Hr' : forall x, In x ring -> P (e_id x) (e_key x)) by (intros x Hx; apply Hr; right; exact Hx).
  assert (He : P (e_id e) (e_key e)) by (apply Hr; left; reflexivity).
  destruct (apply_change bs sr clock act keys e) as [r|] eqn:E; cbn [bind] in H; [|discriminate].
  apply apply_change_key in E. destruct r as [d|e']; destruct E as [E1 E2].
  - destruct (new_loop bs sr clock cap act keys ring q) as [[ds' k']|] eqn:En; cbn [bind fst snd] in H; [|discriminate]. injection H as <- <-.
    destruct (IH _ _ _ En Hr' Hq) as [A B]. split; [|exact B]. intros x [<-|Hx]; [rewrite E1, E2; exact He|auto].
  - apply IH in H; [exact H|exact Hr'|]. destruct (Nat.ltb _ _); [|exact Hq].
    intros x Hx. apply in_app_or in Hx as [Hx|[<-|[]]]; [auto|]. cbn [fst]. rewrite E1, E2. exact He.
Qed.
Definition keyed (s : sched V) : Prop :=
  (forall d, In d (q_log s) -> P (d_id d) (d_key d)) /\ (forall x, In x (q_wait s) -> P (e_id (fst x)) (e_key (fst x))) /\
  (forall e, In e (q_ring s) -> P (e_id e) (e_key e)).
Lemma keyed_block c s keys act s' : keyed s -> sstep c s (Block keys act) = Some s' -> keyed s'.
Proof.
  intros (L & W & R) H. apply (block_shape V) in H as (d1 & k1 & d2 & k2 & E1 & E2 & _ & E4 & E5 & _ & E7 & _).
  apply wait_pass_keys in E1 as [A B]; [|exact W]. apply new_loop_keys in E2 as [C D]; [|exact R|exact B].
  unfold keyed. rewrite E4, E5, E7. split; [|split; [exact D|intros ? []]].
  intros d Hd. apply in_app_or in Hd as [Hd|Hd]; [auto|]. apply in_app_or in Hd as [Hd|Hd]; auto.
Qed.
End Keys.

(** ** lists sorted by serial number *)
Section Lists.
Variable V : Type.
Notation before := (fun a b : delivery V => (d_id a < d_id b)%nat).
Lemma sorted_ext : forall l l' : list (delivery V), StronglySorted before l -> StronglySorted before l' ->
  (forall x, In x l <-> In x l') -> l = l'.
Proof.
  induction l as [|a l IH]; intros l' Hl Hl' Hin.
  - destruct l' as [|b l']; [reflexivity|]. destruct (proj2 (Hin b) (or_introl eq_refl)).
  - destruct l' as [|b l']; [destruct (proj1 (Hin a) (or_introl eq_refl))|].
    inversion Hl as [|? ? S1 F1]; inversion Hl' as [|? ? S2 F2]; subst. rewrite Forall_forall in F1, F2.
    assert (a = b).
    { destruct (proj1 (Hin a) (or_introl eq_refl)) as [->|Ha]; [reflexivity|].
      destruct (proj2 (Hin b) (or_introl eq_refl)) as [->|Hb]; [reflexivity|]. specialize (F1 _ Hb). specialize (F2 _ Ha). lia. }
    subst b. f_equal. apply IH; try assumption. intros x. split; intros Hx.
    + destruct (proj1 (Hin x) (or_intror Hx)) as [<-|H]; [specialize (F1 _ Hx); lia|exact H].
    + destruct (proj2 (Hin x) (or_intror Hx)) as [<-|H]; [specialize (F2 _ Hx); lia|exact H].
Qed.
Lemma in_order_tail (d : delivery V) l : in_order V (d :: l) -> in_order V l.
Proof. intros H i j a b Hij Hi Hj. apply (H (S i) (S j) a b); [lia|exact Hi|exact Hj]. Qed.
Lemma filter_sorted C (p : delivery V -> bool) : (forall d, p d = true -> d_clock d = C) ->
  forall l, in_order V l -> StronglySorted before (filter p l).
Proof.
  intros Hp. induction l as [|d l IH]; intros Ho; cbn [filter]; [constructor|].
  pose proof (in_order_tail _ _ Ho) as Ht. destruct (p d) eqn:E; [|apply IH; exact Ht].
  constructor; [apply IH; exact Ht|]. apply Forall_forall. intros x Hx. apply filter_In in Hx as [Hx Px].
  apply In_nth_error in Hx as [j Hj]. apply (Ho 0%nat (S j) d x); [lia|reflexivity|exact Hj|].
  rewrite (Hp d E), (Hp x Px). reflexivity.
Qed.
End Lists.

Section Timed.
Context {F V St : Type}.
Variable zero : F.
Variable u : ugen F V St.
Variable c : config.
Variable k : nat.
Hypothesis Hc : config_ok c.
Notation top := (top F V).
Notation bs := (c_bs c).
Notation sr := (c_sr c).
Notation change := (N * nat * V)%type.

(** ** what was sent *)
Fixpoint keys_of (ops : list top) : list nat :=
  match ops with [] => [] | TSend key _ _ _ _ _ :: ops => key :: keys_of ops | TBlock _ _ _ :: ops => keys_of ops end.
Fixpoint clock_of (clock : N) (ops : list top) : N :=
  match ops with [] => clock | TSend _ _ _ _ _ _ :: ops => clock_of clock ops | TBlock _ _ _ :: ops => clock_of (clock + bs) ops end.
Lemma keys_of_app l m : keys_of (l ++ m) = keys_of l ++ keys_of m.
Proof. induction l as [|[] l IH]; cbn; [reflexivity|rewrite IH; reflexivity|exact IH]. Qed.
Lemma clock_of_app l m : forall clock, clock_of clock (l ++ m) = clock_of (clock_of clock l) m.
Proof. induction l as [|[] l IH]; intros clock; cbn; [reflexivity|apply IH|apply IH]. Qed.
(** [wanted] with serial numbers *)
Fixpoint plan (n : nat) (clock : N) (ops : list top) : list (nat * change) :=
  match ops with
  | [] => []
  | TSend key param (Some v) _ _ t :: ops =>
      if (key =? k)%nat then (n, (frame_of sr clock t, param, v)) :: plan (S n) clock ops else plan (S n) clock ops
  | TSend _ _ None _ _ _ :: ops => plan (S n) clock ops
  | TBlock _ _ _ :: ops => plan n (clock + bs) ops
  end.
Lemma plan_wanted : forall ops n clock, map snd (plan n clock ops) = wanted sr bs k clock ops.
Proof.
  induction ops as [|[key param [v|] sm tok t|] ops IH]; intros n clock; cbn [plan wanted]; try reflexivity; try apply IH.
  destruct (key =? k)%nat; cbn [map]; rewrite IH; reflexivity.
Qed.
Lemma plan_lower : forall ops n clock x, In x (plan n clock ops) -> (n <= fst x)%nat.
Proof.
  induction ops as [|[key param [v|] sm tok t|] ops IH]; intros n clock x H; cbn [plan] in H.
  - destruct H.
  - destruct (key =? k)%nat; [destruct H as [<-|H]; [cbn; lia|]|]; apply IH in H; lia.
  - apply IH in H. lia.
  - apply IH in H. exact H.
Qed.
Lemma plan_sorted : forall ops n clock, StronglySorted (fun a b => (fst a < fst b)%nat) (plan n clock ops).
Proof.
  induction ops as [|[key param [v|] sm tok t|] ops IH]; intros n clock; cbn [plan]; try apply IH; [constructor|].
  destruct (key =? k)%nat; [|apply IH]. constructor; [apply IH|]. apply Forall_forall. intros x Hx. apply plan_lower in Hx. cbn. lia.
Qed.
(** an entry of the plan is a send *)
Lemma plan_split : forall ops n clock m x, In (m, x) (plan n clock ops) ->
  exists pre param v sm tok t post, ops = pre ++ TSend k param (Some v) sm tok t :: post /\ m = (n + length (keys_of pre))%nat /\
    x = (frame_of sr (clock_of clock pre) t, param, v).
Proof.
  induction ops as [|[key param v sm tok t|keys act ib] ops IH]; intros n clock m x H; cbn [plan] in H; [destruct H| |].
  - assert (Rec : In (m, x) (plan (S n) clock ops) -> exists pre param0 v0 sm0 tok0 t0 post,
      TSend key param v sm tok t :: ops = pre ++ TSend k param0 (Some v0) sm0 tok0 t0 :: post /\ m = (n + length (keys_of pre))%nat /\
      x = (frame_of sr (clock_of clock pre) t0, param0, v0)).
    { intros Hr. apply IH in Hr as (pre & p0 & v0 & s0 & k0 & t0 & post & E1 & E2 & E3).
      exists (TSend key param v sm tok t :: pre), p0, v0, s0, k0, t0, post. cbn [keys_of clock_of length app]. rewrite E1.
      split; [reflexivity|]. split; [lia|exact E3]. }
    destruct v as [v|]; [|exact (Rec H)]. destruct (Nat.eqb_spec key k) as [->|]; [|exact (Rec H)].
    destruct H as [H|H]; [|exact (Rec H)]. injection H as <- <-.
    exists [], param, v, sm, tok, t, ops. cbn. repeat split; lia.
  - apply IH in H as (pre & p0 & v0 & s0 & k0 & t0 & post & E1 & E2 & E3).
    exists (TBlock keys act ib :: pre), p0, v0, s0, k0, t0, post. cbn [keys_of clock_of app]. rewrite E1. auto.
Qed.
(** and a plain send to the node is an entry *)
Lemma plan_has params : forall ops n clock m, plain c k params clock ops -> nth_error (keys_of ops) m = Some k ->
  exists x, In ((n + m)%nat, x) (plan n clock ops).
Proof.
  induction ops as [|[key param v sm tok t|keys act ib] ops IH]; intros n clock m Hp H; cbn [keys_of plan plain] in *.
  - destruct m; discriminate.
  - destruct Hp as [Hk Hp]. destruct m as [|m].
    + cbn in H. injection H as ->. destruct (Hk eq_refl) as [Hv _]. destruct v as [v|]; [|contradiction].
      rewrite Nat.eqb_refl. eexists. left. rewrite Nat.add_0_r. reflexivity.
    + cbn in H. destruct (IH (S n) clock m Hp H) as [x Hx]. exists x. replace (n + S m)%nat with (S n + m)%nat by lia.
      destruct v as [v|]; [|exact Hx]. destruct (key =? k)%nat; [right|]; exact Hx.
  - destruct Hp as [_ Hp]. apply IH; assumption.
Qed.
Lemma plain_at params : forall pre o post clock, plain c k params clock (pre ++ o :: post) -> plain c k params (clock_of clock pre) (o :: post).
Proof.
  induction pre as [|[key param v sm tok t|keys act ib] pre IH]; intros o post clock H; [exact H| |];
    cbn [app plain] in H; destruct H as [_ H]; cbn [clock_of]; apply IH; exact H.
Qed.

(** ** runs *)
Lemma srun_app : forall l m (s : sched V), srun c s (l ++ m) = (s1 <- srun c s l ;; srun c s1 m).
Proof. induction l as [|o l IH]; intros m s; cbn [app srun bind]; [reflexivity|]. destruct (sstep c s o); cbn [bind]; [apply IH|reflexivity]. Qed.
Lemma sstep_clock_log (s : sched V) o s' : sstep c s o = Some s' ->
  match o with
  | Send _ _ _ _ _ _ => q_clock s' = q_clock s /\ q_log s' = q_log s
  | Block _ _ => q_clock s' = q_clock s + bs /\ exists ds, q_log s' = q_log s ++ ds /\ forall d, In d ds -> d_clock d = q_clock s
  end.
Proof.
  intros H. destruct o as [key param v sm tok t|keys act].
  - cbn [sstep] in H. destruct (Nat.ltb _ _); injection H as <-; auto.
  - apply (block_shape V) in H as (d1 & k1 & d2 & k2 & _ & _ & E3 & _ & _ & _ & E7 & _ & E9).
    split; [exact E3|]. exists (d1 ++ d2). auto.
Qed.
Lemma srun_log : forall ops (s s' : sched V), srun c s ops = Some s' ->
  exists rest, q_log s' = q_log s ++ rest /\ forall d, In d rest -> q_clock s <= d_clock d.
Proof.
  induction ops as [|o ops IH]; intros s s' H; cbn [srun] in H.
  { injection H as <-. exists []. rewrite app_nil_r. split; [reflexivity|intros ? []]. }
  destruct (sstep c s o) as [s1|] eqn:E; cbn [bind] in H; [|discriminate].
  apply IH in H as (rest & E1 & E2). apply sstep_clock_log in E. destruct o.
  - destruct E as [Ea Eb]. exists rest. rewrite E1, Eb. split; [reflexivity|]. intros d Hd. specialize (E2 d Hd). lia.
  - destruct E as (Ea & ds & Eb & Ed). exists (ds ++ rest). rewrite E1, Eb, app_assoc. split; [reflexivity|].
    intros d Hd. apply in_app_or in Hd as [Hd|Hd]; [rewrite (Ed d Hd); lia|specialize (E2 d Hd); lia].
Qed.
Lemma srun_past : forall ops (s s' : sched V), srun c s ops = Some s' -> (forall d, In d (q_log s) -> d_clock d < q_clock s) ->
  forall d, In d (q_log s') -> d_clock d < q_clock s'.
Proof.
  destruct Hc as [Hb _].
  induction ops as [|o ops IH]; intros s s' H Hl; cbn [srun] in H; [injection H as <-; exact Hl|].
  destruct (sstep c s o) as [s1|] eqn:E; cbn [bind] in H; [|discriminate].
  apply (IH s1 s' H). apply sstep_clock_log in E. destruct o.
  - destruct E as [Ea Eb]. rewrite Ea, Eb. exact Hl.
  - destruct E as (Ea & ds & Eb & Ed). rewrite Ea, Eb. intros d Hd. apply in_app_or in Hd as [Hd|Hd]; [specialize (Hl d Hd); lia|rewrite (Ed d Hd); lia].
Qed.
Lemma blocks_at : forall (ops : list top) clock b, In b (blocks bs clock (map sop_of ops)) ->
  exists pre keys act ib post, ops = pre ++ TBlock keys act ib :: post /\ b = mk_block (clock_of clock pre) keys act.
Proof.
  induction ops as [|[key param v sm tok t|keys act ib] ops IH]; intros clock b H; cbn [map sop_of blocks] in H; [destruct H| |].
  - apply IH in H as (pre & ks & a & i & post & E1 & E2). exists (TSend key param v sm tok t :: pre), ks, a, i, post. rewrite E1. auto.
  - destruct H as [<-|H]; [exists [], keys, act, ib, ops; auto|].
    apply IH in H as (pre & ks & a & i & post & E1 & E2). exists (TBlock keys act ib :: pre), ks, a, i, post. rewrite E1. auto.
Qed.
Lemma blocks_in : forall (pre : list top) keys act ib post clock,
  In (mk_block (clock_of clock pre) keys act) (blocks bs clock (map sop_of (pre ++ TBlock keys act ib :: post))).
Proof.
  induction pre as [|[] pre IH]; intros; cbn [app map sop_of blocks clock_of]; [left; reflexivity|apply IH|right; apply IH].
Qed.

(** ** one run with room *)
Section Run.
Variable ops : list top.
Variable sf : sched V.
Variable params : nat.
Hypothesis Hroom : roomy c ops.
Hypothesis Hplain : plain c k params 0 ops.
Hypothesis Hrun : srun c sched_new (map sop_of ops) = Some sf.

Lemma prefix_state pre post : ops = pre ++ post ->
  exists s, srun c sched_new (map sop_of pre) = Some s /\ srun c s (map sop_of post) = Some sf.
Proof.
  intros E. pose proof Hrun as H. rewrite E, map_app, srun_app in H.
  destruct (srun c sched_new (map sop_of pre)) as [s|] eqn:Es; cbn [bind] in H; [|discriminate]. exists s. auto.
Qed.
(** after a prefix: clock and serial numbers count blocks and sends, and deliveries have the keys of their sends *)
Lemma prefix_counts : forall pre post s, ops = pre ++ post -> srun c sched_new (map sop_of pre) = Some s ->
  q_clock s = clock_of 0 pre /\ q_next s = length (keys_of pre) /\ keyed V (fun n key => nth_error (keys_of pre) n = Some key) s.
Proof.
  induction pre as [|o pre IH] using rev_ind; intros post s E H.
  { injection H as <-. cbn. repeat split; intros ? []. }
  rewrite map_app, srun_app in H. destruct (srun c sched_new (map sop_of pre)) as [s1|] eqn:Es; cbn [bind] in H; [|discriminate].
  cbn [map srun] in H. destruct (sstep c s1 (sop_of o)) as [s2|] eqn:Eo; cbn [bind] in H; [|discriminate]. injection H as ->.
  rewrite <- app_assoc in E. cbn [app] in E. destruct (IH _ _ E eq_refl) as (I1 & I2 & I3).
  pose proof (Hroom pre o post s1 s E Es Eo) as R. rewrite clock_of_app, keys_of_app.
  destruct o as [key param v sm tok t|keys act ib]; cbn [sop_of keys_of clock_of] in *.
  - cbn [sstep] in Eo. apply Nat.ltb_lt in R. rewrite R in Eo. injection Eo as <-. cbn [q_clock q_next]. rewrite app_length. cbn [length].
    split; [exact I1|]. split; [lia|]. destruct I3 as (A & B & C).
    assert (Ext : forall n key', nth_error (keys_of pre) n = Some key' -> nth_error (keys_of pre ++ [key]) n = Some key').
    { intros n key' Hn. rewrite nth_error_app1; [exact Hn|]. apply nth_error_Some. congruence. }
    unfold keyed. cbn [q_log q_wait q_ring]. split; [auto|]. split; [auto|].
    intros e He. apply in_app_or in He as [He|[<-|[]]]; [auto|]. cbn [e_id e_key]. rewrite I2, nth_error_app2 by lia.
    rewrite Nat.sub_diag. reflexivity.
  - rewrite app_nil_r. pose proof (sstep_clock_log _ _ _ Eo) as [Ec _].
    split; [lia|]. split; [|eapply keyed_block; eauto].
    apply (block_shape V) in Eo as (d1 & k1 & d2 & k2 & _ & _ & _ & _ & _ & E6 & _). lia.
Qed.
Lemma first_block_at : forall post pre s s1, ops = pre ++ post -> srun c sched_new (map sop_of pre) = Some s ->
  first_block V c s (map sop_of post) = Some s1 -> (length (q_wait s1) < c_cap c)%nat.
Proof.
  induction post as [|o post IH]; intros pre s s1 E H Hf; [discriminate|].
  destruct o as [key param v sm tok t|keys act ib]; cbn [map sop_of first_block] in Hf.
  - destruct (sstep c s _) as [s2|] eqn:Es; cbn [bind] in Hf; [|discriminate].
    apply (IH (pre ++ [TSend key param v sm tok t]) s2 s1); [rewrite <- app_assoc; exact E| |exact Hf].
    rewrite map_app, srun_app, H. cbn [bind map srun sop_of]. rewrite Es. reflexivity.
  - exact (Hroom pre (TBlock keys act ib) post s s1 E H Hf).
Qed.
Lemma keys_in : forall pre keys act ib post, ops = pre ++ TBlock keys act ib :: post -> In k keys.
Proof. intros pre keys act ib post E. rewrite E in Hplain. apply plain_at in Hplain. cbn [plain] in Hplain. apply Hplain. Qed.

(** what the node receives for an entry of the plan in the block at [C] *)
Definition handed (C : N) (x : nat * change) : delivery V :=
  mk_delivery (fst x) C k
    ((if C <? fst (fst (snd x)) then [SetDelay (snd (fst (snd x))) (fst (fst (snd x)) - C)] else []) ++ [Apply (snd (fst (snd x))) (snd (snd x))]).
Definition inside (C : N) (x : nat * change) : bool := (C <=? fst (fst (snd x))) && (fst (fst (snd x)) <? C + bs).

(** the fate of an entry of the plan *)
Lemma planned_fate m x : In (m, x) (plan 0 0 ops) ->
  (forall d, In d (deliveries m sf) -> inside (d_clock d) (m, x) = true /\ d = handed (d_clock d) (m, x)) /\
  (forall pre keys act ib post, ops = pre ++ TBlock keys act ib :: post -> inside (clock_of 0 pre) (m, x) = true ->
     In (handed (clock_of 0 pre) (m, x)) (deliveries m sf)).
Proof.
  intros Hin. apply plan_split in Hin as (pre & param & v & sm & tok & t & post & E & Em & Ex).
  destruct (prefix_state pre _ E) as (s & Hs & Hpost). destruct (prefix_counts pre _ s E Hs) as (Kc & Kn & _).
  assert (Hreach : reached V c s) by (exists (map sop_of pre); exact Hs).
  pose proof Hplain as Hp. rewrite E in Hp. apply plain_at in Hp. cbn [plain] in Hp. destruct Hp as [Hk Hp].
  destruct (Hk eq_refl) as (_ & Hsm & Htok & _ & Ht). subst sm tok. clear Hk Hp. rewrite <- Kc in Ex, Ht.
  assert (Hring : (length (q_ring s) < c_ring c)%nat).
  { cbn [map srun sop_of] in Hpost. destruct (sstep c s _) as [s2|] eqn:Es; cbn [bind] in Hpost; [|discriminate].
    exact (Hroom pre _ post s s2 E Hs Es). }
  assert (Htime : match t with Some t => time_ok sr t | None => True end).
  { destruct t; [|exact I]. destruct Ht as (A & B & _). split; assumption. }
  pose proof (C23_fate_partial V c s k param (Some v) None None t (map sop_of post) sf Hc Hreach Htime Hring Hpost
    (fun s1 H1 => first_block_at (TSend k param (Some v) None None t :: post) pre s s1 E Hs H1)) as Fate. cbv zeta in Fate.
  cbn [sent e_id] in Fate. rewrite <- Kn in Em. cbn [Nat.add] in Em. subst m.
  set (f0 := due_frame sr (q_clock s) t) in *.
  set (e := sent s k param (Some v) None None t) in *.
  assert (Hx : x = (N.max (q_clock s) f0, param, v)) by exact Ex. clear Ex. subst x.
  assert (Hsec : f0 <= q_clock s + sr).
  { unfold f0. destruct t; [apply Ht|]. cbn [due_frame]. lia. }
  assert (Htakes : forall b, In b (blocks bs (q_clock s) (map sop_of post)) -> takes bs f0 e b = (f0 <? b_clock b + bs)).
  { intros b Hb. apply blocks_at in Hb as (pre' & keys & act & ib & post' & E' & ->). unfold takes. cbn [e_token e_key e sent b_keys].
    assert (Hkeys : In k keys).
    { apply (keys_in (pre ++ TSend k param (Some v) None None t :: pre') keys act ib post').
      rewrite <- app_assoc. cbn [app]. rewrite <- E'. exact E. }
    assert (Hex : existsb (Nat.eqb k) keys = true) by (apply existsb_exists; exists k; split; [exact Hkeys|apply Nat.eqb_refl]).
    rewrite Hex, !andb_true_r. reflexivity. }
  assert (Hge : forall i b, nth_error (blocks bs (q_clock s) (map sop_of post)) i = Some b -> b_clock b = q_clock s + N.of_nat i * bs).
  { intros i b. apply (blocks_nth V). }
  assert (Hform : forall b, q_clock s <= b_clock b -> delivery_at f0 e b = handed (b_clock b) (q_next s, (N.max (q_clock s) f0, param, v))).
  { intros b Hb. unfold delivery_at, handed, calls_at. cbn [fst snd e e_id e_key e_param e_smooth e_value sent app].
    destruct (N.ltb_spec (b_clock b) f0); destruct (N.ltb_spec (b_clock b) (N.max (q_clock s) f0)); try lia; [|reflexivity].
    rewrite N.max_r by lia. reflexivity. }
  assert (Hbs : 0 < bs) by apply Hc.
  split.
  - intros d Hd. rewrite Fate in Hd. destruct (find _ _) as [b|] eqn:Ef; [|destruct Hd]. destruct Hd as [<-|[]].
    assert (Hnth : exists i, nth_error (blocks bs (q_clock s) (map sop_of post)) i = Some b /\ takes bs f0 e b = true /\
      forall j b', (j < i)%nat -> nth_error (blocks bs (q_clock s) (map sop_of post)) j = Some b' -> takes bs f0 e b' = false).
    { clear -Ef. revert Ef. generalize (N.to_nat (sr / bs) + 2)%nat (blocks bs (q_clock s) (map sop_of post)).
      intros n l. revert l. induction n as [|n IH]; intros l H; [discriminate|]. destruct l as [|a l]; [discriminate|].
      cbn [firstn find] in H. destruct (takes bs f0 e a) eqn:Ea.
      - injection H as ->. exists 0%nat. split; [reflexivity|]. split; [exact Ea|]. intros; lia.
      - destruct (IH l H) as (i & A & B & C). exists (S i). split; [exact A|]. split; [exact B|].
        intros [|j] b' Hj Hb'; [injection Hb' as <-; exact Ea|]. apply (C j); [lia|exact Hb']. }
    destruct Hnth as (i & Hi & Hti & Hfirst).
    rewrite Htakes in Hti by (eapply nth_error_In; exact Hi). apply N.ltb_lt in Hti.
    pose proof (Hge i b Hi) as Hcl.
    rewrite Hform by lia. cbn [handed d_clock]. split; [|reflexivity].
    unfold inside. cbn [fst snd]. rewrite andb_true_iff, N.leb_le, N.ltb_lt.
    destruct i as [|i]; [lia|].
    assert (Hlen : (i < length (blocks bs (q_clock s) (map sop_of post)))%nat).
    { assert (S i < length (blocks bs (q_clock s) (map sop_of post)))%nat by (apply nth_error_Some; congruence). lia. }
    apply nth_error_Some in Hlen. destruct (nth_error _ i) as [b'|] eqn:Eb'; [|contradiction]. clear Hlen.
    assert (Hno := Hfirst i b' ltac:(lia) Eb'). rewrite Htakes in Hno by (eapply nth_error_In; exact Eb').
    apply N.ltb_ge in Hno. pose proof (Hge i b' Eb'). lia.
  - intros pre' keys act ib post' E' Hins. unfold inside in Hins. cbn [fst snd] in Hins.
    rewrite andb_true_iff, N.leb_le, N.ltb_lt in Hins. destruct Hins as [Hlo Hhi].
    (* the block comes after the send *)
    assert (Hafter : exists q, pre' = pre ++ TSend k param (Some v) None None t :: q).
    { pose proof E' as E2. rewrite E in E2. clear -E2 Hhi Kc Hbs.
      assert (Hlt : ~ (clock_of 0 pre' + bs <= clock_of 0 pre)) by lia. clear Hhi Kc Hbs f0.
      revert Hlt. generalize 0 as z. revert pre' E2. induction pre as [|o pre IH]; intros pre' E2 z Hlt.
      - destruct pre' as [|o' pre']; cbn [app] in E2; [discriminate|]. injection E2 as <- _. exists pre'. reflexivity.
      - destruct pre' as [|o' pre']; cbn [app] in E2.
        + injection E2 as -> E2. exfalso. apply Hlt. cbn [clock_of].
          assert (Hm : forall l z, z <= clock_of z l).
          { clear. induction l as [|[] l IHl]; intros z; cbn [clock_of]; [lia|apply IHl|]. specialize (IHl (z + bs)). lia. }
          apply Hm.
        + injection E2 as <- E2. destruct o; cbn [clock_of] in Hlt; destruct (IH pre' E2 _ Hlt) as [q ->]; exists q; reflexivity. }
    destruct Hafter as [q ->]. rewrite E, <- app_assoc in E'. apply app_inv_head in E'. cbn [app] in E'. injection E' as E'.
    rewrite clock_of_app in *. cbn [clock_of] in *. rewrite <- Kc in *.
    pose proof (blocks_in q keys act ib post' (q_clock s)) as Hb. rewrite <- E' in Hb.
    set (b := mk_block (clock_of (q_clock s) q) keys act) in *.
    apply In_nth_error in Hb as [i Hi]. pose proof (Hge i b Hi) as Hcl. assert (Eb : b_clock b = clock_of (q_clock s) q) by reflexivity.
    rewrite <- Eb in *. rewrite Fate.
    rewrite (find_first _ _ i b); [rewrite Hform by lia; left; reflexivity|exact Hi| | |].
    + rewrite Htakes by (eapply nth_error_In; exact Hi). apply N.ltb_lt. lia.
    + assert (N.of_nat i <= sr / bs) by (apply N.div_le_lower_bound; [lia|]; nia). lia.
    + intros j y Hj Hy. rewrite Htakes by (eapply nth_error_In; exact Hy). apply N.ltb_ge.
      pose proof (Hge j y Hy). assert (N.of_nat j + 1 <= N.of_nat i) by lia. nia.
Qed.

(** the deliveries to the node in a block are the changes wanted in it, in order *)
Lemma block_deliveries pre keys act ib post : ops = pre ++ TBlock keys act ib :: post ->
  filter (fun d => (d_clock d =? clock_of 0 pre) && (d_key d =? k)%nat) (q_log sf) =
  map (handed (clock_of 0 pre)) (filter (inside (clock_of 0 pre)) (plan 0 0 ops)).
Proof.
  intros E. set (C := clock_of 0 pre).
  assert (Hreach : reached V c sf) by (exists (map sop_of ops); exact Hrun).
  destruct (prefix_counts ops [] sf ltac:(rewrite app_nil_r; reflexivity) Hrun) as (_ & _ & Kl & _).
  apply (sorted_ext V).
  - apply filter_sorted with (C := C).
    + intros d Hd. apply andb_prop in Hd as [Hd _]. apply N.eqb_eq in Hd. exact Hd.
    + intros i j a b. eapply C24_order; [apply Hc|exact Hreach].
  - pose proof (plan_sorted ops 0 0) as Hs. induction Hs as [|a l Hs IH Hf]; cbn [filter map]; [constructor|].
    destruct (inside C a); [|exact IH]. cbn [map]. constructor; [exact IH|]. rewrite Forall_forall in *. intros y Hy.
    apply in_map_iff in Hy as (z & <- & Hz). apply filter_In in Hz as [Hz _]. cbn. apply Hf. exact Hz.
  - intros d. rewrite filter_In, andb_true_iff, N.eqb_eq, Nat.eqb_eq. split.
    + intros (Hd & Hcl & Hk). pose proof (Kl d Hd) as Hn. rewrite Hk in Hn.
      destruct (plan_has params ops 0 0 (d_id d) Hplain Hn) as [x Hx]. cbn [Nat.add] in Hx.
      destruct (planned_fate _ _ Hx) as [A _]. destruct (A d) as [A1 A2].
      { apply filter_In. split; [exact Hd|apply Nat.eqb_refl]. }
      rewrite Hcl in A1, A2. apply in_map_iff. exists (d_id d, x). split; [symmetry; exact A2|]. apply filter_In. split; assumption.
    + intros Hd. apply in_map_iff in Hd as ([m x] & <- & Hx). apply filter_In in Hx as [Hx Hi].
      destruct (planned_fate _ _ Hx) as [_ B]. specialize (B pre keys act ib post E Hi).
      apply filter_In in B as [B _]. split; [exact B|]. split; reflexivity.
Qed.

(** ** the node *)
Lemma take_calls_app : forall l m (p : precise V St), take_calls u p (l ++ m) = (p1 <- take_calls u p l ;; take_calls u p1 m).
Proof. induction l as [|a l IH]; intros m p; cbn [app take_calls bind]; [reflexivity|]. destruct (take_call u p a); cbn [bind]; [apply IH|reflexivity]. Qed.
Lemma take_handed C : forall l (p : precise V St), (forall x, In x l -> inside C x = true) ->
  take_calls u p (flat_map d_calls (map (handed C) l)) = precise_events u p (map (fun x => (fst (fst (snd x)) - C, snd (fst (snd x)), snd (snd x))) l).
Proof.
  induction l as [|[m [[f i] v]] l IH]; intros p Hl; [reflexivity|]. cbn [map flat_map precise_events]. rewrite take_calls_app.
  assert (Hin := Hl _ (or_introl eq_refl)). unfold inside in Hin. cbn [fst snd] in Hin. apply andb_prop in Hin as [Hlo _]. apply N.leb_le in Hlo.
  unfold handed at 1, precise_event. cbn [d_calls fst snd].
  assert (Ez : (0 <? f - C) = (C <? f)) by (destruct (N.ltb_spec C f); [apply N.ltb_lt; lia|apply N.ltb_ge; lia]).
  rewrite Ez. destruct (C <? f); cbn [app take_calls take_call bind].
  - destruct (precise_set_delay p i (f - C)) as [p1|]; cbn [bind]; [|reflexivity].
    destruct (precise_apply u p1 i v) as [p2|]; cbn [bind]; [|reflexivity]. apply IH. intros x Hx. apply Hl. right. exact Hx.
  - destruct (precise_apply u p i v) as [p2|]; cbn [bind]; [|reflexivity]. apply IH. intros x Hx. apply Hl. right. exact Hx.
Qed.
Lemma inside_within C : forall l : list (nat * change),
  map (fun x => (fst (fst (snd x)) - C, snd (fst (snd x)), snd (snd x))) (filter (inside C) l) = within bs C (map snd l).
Proof.
  unfold within. induction l as [|x l IH]; [reflexivity|]. cbn [map filter]. unfold inside at 1.
  destruct (_ && _); cbn [map]; rewrite IH; reflexivity.
Qed.
Lemma new_of_block (s s1 : sched V) keys act rest : (forall d, In d (q_log s) -> d_clock d < q_clock s) ->
  sstep c s (Block keys act) = Some s1 -> q_log sf = q_log s1 ++ rest -> (forall d, In d rest -> q_clock s1 <= d_clock d) ->
  filter (fun d => (d_key d =? k)%nat) (skipn (length (q_log s)) (q_log s1)) =
  filter (fun d => (d_clock d =? q_clock s) && (d_key d =? k)%nat) (q_log sf).
Proof.
  intros Hpast Hs Hl Hr. apply sstep_clock_log in Hs as (E1 & ds & E2 & E3).
  assert (Hbs : 0 < bs) by apply Hc.
  assert (Hnone : forall l : list (delivery V), (forall d, In d l -> d_clock d <> q_clock s) ->
    filter (fun d => (d_clock d =? q_clock s) && (d_key d =? k)%nat) l = []).
  { clear. induction l as [|d l IH]; intros H; [reflexivity|]. cbn [filter].
    rewrite (proj2 (N.eqb_neq _ _) (H d (or_introl eq_refl))). cbn [andb]. apply IH. intros x Hx. apply H. right. exact Hx. }
  rewrite Hl, E2, skipn_app, skipn_all, Nat.sub_diag. cbn [skipn app]. rewrite !filter_app.
  rewrite (Hnone (q_log s)) by (intros d Hd; specialize (Hpast d Hd); lia).
  rewrite (Hnone rest) by (intros d Hd; specialize (Hr d Hd); lia). rewrite app_nil_r. cbn [app].
  clear -E3. induction ds as [|d ds IH]; [reflexivity|]. cbn [filter]. rewrite (E3 d (or_introl eq_refl)), N.eqb_refl. cbn [andb].
  rewrite IH by (intros x Hx; apply E3; right; exact Hx). reflexivity.
Qed.
Lemma trun_precise out : forall post pre s (p : precise V St), ops = pre ++ post -> srun c sched_new (map sop_of pre) = Some s ->
  option_map (fun r => (snd (fst r), snd r)) (trun zero u c k out (s, p) post) =
  precise_run zero u (N.to_nat bs) p (score bs (wanted sr bs k 0 ops) (clock_of 0 pre) post) out.
Proof.
  induction post as [|o post IH]; intros pre s p E Hs; [reflexivity|].
  destruct (prefix_state pre _ E) as (s' & Hs' & Hpost). rewrite Hs in Hs'. injection Hs' as <-.
  cbn [map srun] in Hpost. destruct (sstep c s (sop_of o)) as [s1|] eqn:Es; cbn [bind] in Hpost; [|discriminate].
  assert (E' : ops = (pre ++ [o]) ++ post) by (rewrite <- app_assoc; exact E).
  assert (Hs1 : srun c sched_new (map sop_of (pre ++ [o])) = Some s1).
  { rewrite map_app, srun_app, Hs. cbn [bind map srun]. rewrite Es. reflexivity. }
  destruct (prefix_counts pre _ s E Hs) as (Kc & _ & _).
  specialize (IH (pre ++ [o]) s1). cbn [trun]. unfold tstep. cbn [fst snd]. rewrite Es. cbn [bind]. rewrite clock_of_app in IH.
  destruct o as [key param v sm tok t|keys act ib]; cbn [score clock_of] in *.
  - cbn [bind fst snd]. rewrite <- (IH p E' Hs1). destruct (trun zero u c k out (s1, p) post) as [[[] ]|]; reflexivity.
  - apply srun_log in Hpost as (rest & Hl & Hr).
    rewrite (new_of_block s s1 keys act rest); try assumption.
    2:{ apply (srun_past _ _ _ Hs). intros ? []. }
    rewrite Kc, (block_deliveries pre keys act ib post E), take_handed by (intros x Hx; apply filter_In in Hx; apply Hx).
    rewrite inside_within, plan_wanted. cbn [precise_run].
    destruct (precise_events u p _) as [p1|]; cbn [bind]; [|reflexivity].
    assert (Hex : existsb (Nat.eqb k) keys = true) by (apply existsb_exists; exists k; split; [apply (keys_in _ _ _ _ _ E)|apply Nat.eqb_refl]).
    rewrite Hex. destruct (precise_block zero u _ p1 ib [] out []) as [[p2 ob]|]; cbn [bind fst snd]; [|reflexivity].
    rewrite <- (IH p2 E' Hs1). destruct (trun zero u c k out (s1, p2) post) as [[[] ]|]; reflexivity.
Qed.
End Run.
End Timed.
