From Verif Require Import Base WrapModel WrapSpec.
Open Scope nat_scope.
(** Lists have one entry per parameter below *)
Fixpoint wf (s : stk) : Prop :=
  match s with
  | SBase _ _ => True
  | SMul _ s | SDone _ s | SFwd s | SToInput s => wf s
  | SPrecise _ ds _ s => length ds = length (types s) /\ wf s
  | SAr bufs s => length bufs = length (types s) /\ wf s
  | SSmooth on _ s => length on = length (types s) /\ wf s
  end.
Lemma build_ok : forall t ls, wf (build t ls).
Proof.
  intros t ls. induction ls as [| l ls IH]; [exact Logic.I |]. change (build t (l :: ls)) with (put l (build t ls)).
  destruct l; cbn [put wf]; try exact IH; (split; [apply repeat_length | exact IH]).
Qed.
Lemma set_nth_some : forall A (l : list A) i x, i < length l -> exists l', set_nth l i x = Some l' /\ length l' = length l /\ nth_error l' i = Some x.
Proof.
  induction l as [| y l IH]; intros [| i] x H; cbn [length] in H; try lia.
  - exists (x :: l). cbn. auto.
  - destruct (IH i x ltac:(lia)) as (l' & E1 & E2 & E3). exists (y :: l'). cbn [set_nth]. rewrite E1. cbn. auto.
Qed.
Lemma nth_some : forall A (l : list A) i, i < length l -> exists x, nth_error l i = Some x.
Proof. intros A l i H. destruct (nth_error l i) as [x |] eqn:E; [exists x; reflexivity |]. apply nth_error_None in E. lia. Qed.

(** [param_apply]: never panics, keeps the shape, other parameters are left alone, the owner gets it if the way is direct *)
Definition applied (s : stk) (i : nat) (v : value) (s' : stk) : Prop :=
  types s' = types s /\ wf s' /\ (forall j, received s' j = received s j \/ (j = i /\ received s' j = received s j ++ [v])) /\
  (direct s i -> received s' i = received s i ++ [v]).
Lemma inner_type : forall (l : list ty) a i ty, nth_error (l ++ [a]) i = Some ty -> i <> length l -> nth_error l i = Some ty.
Proof.
  intros l a i ty H N. assert (i < length (l ++ [a])) by (apply nth_error_Some; congruence). rewrite app_length in H0. cbn [length] in H0. rewrite nth_error_app1 in H by lia. exact H.
Qed.
Lemma apply_ok : forall s i v ty, wf s -> nth_error (types s) i = Some ty -> accepts ty v = true -> (forall l, v <> VSmooth l) -> exists s', apply s i v = Some s' /\ applied s i v s'.
Proof.
  induction s as [t got | s IH | own s IH | own s IH | s IH | slots ds q s IH | bufs s IH | on tg s IH]; intros i v ty W T A NS; cbn [apply types] in *.
  - rewrite T, A. eexists. split; [reflexivity |]. unfold applied. cbn [types wf received]. split; [reflexivity |]. split; [exact Logic.I |].
    rewrite filter_app, map_app. cbn [filter fst]. split.
    + intros j. rewrite filter_app, map_app. cbn [filter fst]. destruct (Nat.eqb_spec i j) as [-> | N]; [right | left]; cbn [map snd]; [auto | apply app_nil_r].
    + intros _. rewrite Nat.eqb_refl. reflexivity.
  - destruct (IH i v ty W T A NS) as (s' & E & H). rewrite E. cbn. eexists. split; [reflexivity | exact H].
  - unfold params. destruct (Nat.eqb_spec i (length (types s))) as [E | N].
    + assert (ty = TFloat) as -> by (rewrite E, nth_error_app2, Nat.sub_diag in T by lia; cbn in T; congruence). rewrite A. eexists. split; [reflexivity |].
      unfold applied. cbn [types wf received]. split; [reflexivity |]. split; [exact W |]. rewrite E, Nat.eqb_refl. split; [| reflexivity].
      intros j. destruct (Nat.eqb_spec j (length (types s))); [right; auto | left; reflexivity].
    + destruct (IH i v ty W (inner_type _ _ _ _ T N) A NS) as (s' & E & H1 & H2 & H3 & H4). rewrite E. cbn. eexists. split; [reflexivity |].
      unfold applied. cbn [types wf received direct]. rewrite H1. split; [reflexivity |]. split; [exact H2 |]. split.
      * intros j. destruct (Nat.eqb_spec j (length (types s))); [left; reflexivity | apply H3].
      * destruct (Nat.eqb_spec i (length (types s))); [contradiction |]. intros [D | D]; [contradiction | apply H4; exact D].
  - unfold params. destruct (Nat.eqb_spec i (length (types s))) as [E | N].
    + assert (ty = TInt) as -> by (rewrite E, nth_error_app2, Nat.sub_diag in T by lia; cbn in T; congruence). rewrite A. eexists. split; [reflexivity |].
      unfold applied. cbn [types wf received]. split; [reflexivity |]. split; [exact W |]. rewrite E, Nat.eqb_refl. split; [| reflexivity].
      intros j. destruct (Nat.eqb_spec j (length (types s))); [right; auto | left; reflexivity].
    + destruct (IH i v ty W (inner_type _ _ _ _ T N) A NS) as (s' & E & H1 & H2 & H3 & H4). rewrite E. cbn. eexists. split; [reflexivity |].
      unfold applied. cbn [types wf received direct]. rewrite H1. split; [reflexivity |]. split; [exact H2 |]. split.
      * intros j. destruct (Nat.eqb_spec j (length (types s))); [left; reflexivity | apply H3].
      * destruct (Nat.eqb_spec i (length (types s))); [contradiction |]. intros [D | D]; [contradiction | apply H4; exact D].
  - destruct (IH i v ty W T A NS) as (s' & E & H). rewrite E. cbn. eexists. split; [reflexivity | exact H].
  - destruct W as [L W]. assert (Hi : i < length (types s)) by (apply nth_error_Some; congruence).
    destruct (nth_some _ ds i ltac:(lia)) as [d Hd]. rewrite Hd. cbn [bind]. destruct (N.eqb_spec d 0) as [-> | N].
    + destruct (IH i v ty W T A NS) as (s' & E & H1 & H2 & H3 & H4). rewrite E. cbn. eexists. split; [reflexivity |].
      unfold applied. cbn [types wf received direct]. rewrite H1. split; [reflexivity |]. split; [auto |]. split; [exact H3 | intros [_ D]; apply H4; exact D].
    + assert (ND : ~ (nth_error ds i = Some 0%N /\ direct s i)) by (rewrite Hd; intros [D _]; congruence).
      destruct (length q <? slots); eexists; (split; [reflexivity |]); unfold applied; cbn [types wf received direct]; (split; [reflexivity |]); (split; [auto |]); (split; [left; reflexivity | intros D; contradiction]).
  - destruct W as [L W]. assert (Hi : i < length (types s)) by (apply nth_error_Some; congruence).
    destruct (nth_some _ bufs i ltac:(lia)) as [b Hb]. rewrite Hb. cbn [bind]. destruct b as [p |].
    + eexists. split; [reflexivity |]. unfold applied. cbn [types wf received direct]. split; [reflexivity |]. split; [auto |]. split; [left; reflexivity |]. rewrite Hb. intros [D _]. discriminate D.
    + destruct (IH i v ty W T A NS) as (s' & E & H1 & H2 & H3 & H4). rewrite E. cbn. eexists. split; [reflexivity |].
      unfold applied. cbn [types wf received direct]. rewrite H1. split; [reflexivity |]. split; [auto |]. split; [exact H3 | intros [_ D]; apply H4; exact D].
  - destruct W as [L W]. assert (Hi : i < length (types s)) by (apply nth_error_Some; congruence). unfold params. replace (length (types s) <=? i) with false by (symmetry; apply Nat.leb_gt; exact Hi).
    destruct (nth_some _ on i ltac:(lia)) as [o Ho]. destruct (IH i v ty W T A NS) as (s' & E & H1 & H2 & H3 & H4).
    assert (G : exists s'0, (s' <- apply s i v;; Some (SSmooth on tg s')) = Some s'0 /\ applied (SSmooth on tg s) i v s'0).
    { rewrite E. cbn. eexists. split; [reflexivity |]. unfold applied. cbn [types wf received direct]. rewrite H1. split; [reflexivity |]. split; [auto |]. split; [exact H3 | intros [_ D]; apply H4; exact D]. }
    destruct v as [x | x | b | | l]; try exact G; [| exfalso; apply (NS l); reflexivity]. rewrite Ho. cbn [bind]. destruct o; [| exact G].
    eexists. split; [reflexivity |]. unfold applied. cbn [types wf received direct]. split; [reflexivity |]. split; [auto |]. split; [left; reflexivity |]. rewrite Ho. intros [D _]. discriminate D.
Qed.

Lemma delay_ok : forall s i d, wf s -> delay_path s i -> exists s', delay s i d = Some (s', true) /\ wf s' /\ types s' = types s /\ delay_of s' i = Some d /\ forall j, received s' j = received s j.
Proof.
  induction s as [t got | s IH | own s IH | own s IH | s IH | slots ds q s IH | bufs s IH | on tg s IH]; intros i d W H; cbn [delay_path] in H; try contradiction; cbn [delay wf] in *.
  - destruct (IH i d W H) as (s' & A & B & C & D & E). rewrite A. cbn. eexists. split; [reflexivity |]. cbn [wf types delay_of received]. auto.
  - destruct (IH i d W H) as (s' & A & B & C & D & E). rewrite A. cbn. eexists. split; [reflexivity |]. cbn [wf types delay_of received]. rewrite C. split; [exact B |]. split; [reflexivity |]. split; [exact D |].
    intros j. rewrite E. reflexivity.
  - destruct W as [L W]. destruct (set_nth_some _ ds i d ltac:(lia)) as (ds' & A & B & C). rewrite A. cbn. eexists. split; [reflexivity |]. cbn [wf types delay_of received]. rewrite B. auto.
Qed.
Lemma link_ok : forall s i p, wf s -> link_path s i -> exists s', link s i p = Some (s', true) /\ wf s' /\ types s' = types s /\ buffer_of s' i = Some p /\ forall j, received s' j = received s j.
Proof.
  induction s as [t got | s IH | own s IH | own s IH | s IH | slots ds q s IH | bufs s IH | on tg s IH]; intros i p W H; cbn [link_path] in H; try contradiction; cbn [link wf] in *.
  - destruct (IH i p W H) as (s' & A & B & C & D & E). rewrite A. cbn. eexists. split; [reflexivity |]. cbn [wf types buffer_of received]. auto.
  - destruct (IH i p W H) as (s' & A & B & C & D & E). rewrite A. cbn. eexists. split; [reflexivity |]. cbn [wf types buffer_of received]. rewrite C. split; [exact B |]. split; [reflexivity |]. split; [exact D |].
    intros j. rewrite E. reflexivity.
  - destruct W as [L W]. destruct (IH i p W H) as (s' & A & B & C & D & E). rewrite A. cbn. eexists. split; [reflexivity |]. cbn [wf types buffer_of received]. rewrite C. auto.
  - destruct W as [L W]. destruct (set_nth_some _ bufs i (Some p) ltac:(lia)) as (bufs' & A & B & C). rewrite A. cbn. eexists. split; [reflexivity |]. cbn [wf types buffer_of received]. rewrite B, C. auto.
Qed.
(** Without [WrMul] in the way nothing panics *)
Lemma delay_safe : forall s i d, wf s -> no_mul s -> i < length (types s) -> exists r, delay s i d = Some r /\ wf (fst r) /\ types (fst r) = types s /\ (no_mul (fst r)) /\ forall j, received (fst r) j = received s j.
Proof.
  induction s as [t got | s IH | own s IH | own s IH | s IH | slots ds q s IH | bufs s IH | on tg s IH]; intros i d W H Hi; cbn [delay no_mul wf types] in *; try contradiction;
    try (eexists; split; [reflexivity |]; cbn [fst wf types no_mul received]; auto; fail).
  - destruct (IH i d W H Hi) as (r & A & B & C & D & E). rewrite A. cbn. eexists. split; [reflexivity |]. cbn [fst wf types no_mul received]. auto.
  - destruct W as [L W]. destruct (set_nth_some _ ds i d ltac:(lia)) as (ds' & A & B & C). rewrite A. cbn. eexists. split; [reflexivity |]. cbn [fst wf types no_mul received]. rewrite B. auto.
Qed.
Lemma link_safe : forall s i p, wf s -> no_mul s -> i < length (types s) -> exists r, link s i p = Some r /\ wf (fst r) /\ types (fst r) = types s /\ (no_mul (fst r)) /\ forall j, received (fst r) j = received s j.
Proof.
  induction s as [t got | s IH | own s IH | own s IH | s IH | slots ds q s IH | bufs s IH | on tg s IH]; intros i p W H Hi; cbn [link no_mul wf types] in *; try contradiction;
    try (eexists; split; [reflexivity |]; cbn [fst wf types no_mul received]; auto; fail).
  - destruct (IH i p W H Hi) as (r & A & B & C & D & E). rewrite A. cbn. eexists. split; [reflexivity |]. cbn [fst wf types no_mul received]. auto.
  - destruct W as [L W]. destruct (IH i p W H Hi) as (r & A & B & C & D & E). rewrite A. cbn. eexists. split; [reflexivity |]. cbn [fst wf types no_mul received]. rewrite C. auto.
  - destruct W as [L W]. destruct (set_nth_some _ bufs i (Some p) ltac:(lia)) as (bufs' & A & B & C). rewrite A. cbn. eexists. split; [reflexivity |]. cbn [fst wf types no_mul received]. rewrite B. auto.
Qed.
Lemma apply_no_mul : forall s i v s', no_mul s -> apply s i v = Some s' -> no_mul s'.
Proof.
  assert (G : forall s i v (k : stk -> stk) s', (forall s'', apply s i v = Some s'' -> no_mul (k s'')) -> (x <- apply s i v;; Some (k x)) = Some s' -> no_mul s').
  { intros s i v k s' Hk E. destruct (apply s i v) as [s'' |] eqn:A; [| discriminate E]. cbn in E. injection E as <-. apply Hk. reflexivity. }
  induction s as [t got | s IH | own s IH | own s IH | s IH | slots ds q s IH | bufs s IH | on tg s IH]; intros i v s' H E; cbn [apply no_mul] in *; try contradiction.
  - destruct (nth_error t i); [destruct (accepts t0 v); [| discriminate E] |]; injection E as <-; exact Logic.I.
  - eapply (G s i v SFwd s'); [| exact E]. intros s'' A. cbn [no_mul]. eapply IH; eassumption.
  - destruct (i =? params s); [destruct (accepts TInt v); [injection E as <-; exact Logic.I | discriminate E] |]. eapply (G s i v (SDone own) s'); [| exact E]. intros; exact Logic.I.
  - eapply (G s i v SToInput s'); [| exact E]. intros; exact Logic.I.
  - destruct (nth_error ds i) as [d |]; [| discriminate E]. cbn [bind] in E. destruct (d =? 0)%N.
    + eapply (G s i v (SPrecise slots ds q) s'); [| exact E]. intros s'' A. cbn [no_mul]. eapply IH; eassumption.
    + destruct (length q <? slots); injection E as <-; exact H.
  - destruct (nth_error bufs i) as [[p |] |]; cbn [bind] in E; [injection E as <-; exact Logic.I | | discriminate E]. eapply (G s i v (SAr bufs) s'); [| exact E]. intros; exact Logic.I.
  - destruct (params s <=? i); [injection E as <-; exact Logic.I |]. destruct v as [x | x | b | | l]; try (eapply (G s i _ (SSmooth on tg) s'); [| exact E]; intros; exact Logic.I).
    + destruct (nth_error on i) as [[|] |]; cbn [bind] in E; [injection E as <-; exact Logic.I | | discriminate E]. eapply (G s i _ (SSmooth on tg) s'); [| exact E]. intros; exact Logic.I.
    + destruct (set_nth on i l); cbn [bind] in E; [injection E as <-; exact Logic.I | discriminate E].
Qed.
Definition no_smooth_call (c : call) : Prop := match c with CApply _ (VSmooth _) => False | _ => True end.
Lemma steps_safe : forall cs s, wf s -> no_mul s -> Forall (call_ok (types s)) cs -> Forall no_smooth_call cs -> exists s', steps s cs = Some s' /\ types s' = types s.
Proof.
  induction cs as [| c cs IH]; intros s W M H N; cbn [steps]; [exists s; auto |]. inversion H as [| ? ? Hc Hcs]; subst. inversion N as [| ? ? Nc Ncs]; subst. destruct c as [i v | i d | i p]; cbn [step call_ok] in *.
  - destruct Hc as (ty & T & A). destruct (apply_ok s i v ty W T A) as (s' & E & H1 & H2 & _); [intros l ->; exact Nc |]. rewrite E. cbn [bind].
    destruct (IH s' H2 (apply_no_mul _ _ _ _ M E)) as (s'' & X & Y); [rewrite H1; assumption | assumption |]. exists s''. split; [exact X | congruence].
  - destruct (delay_safe s i d W M Hc) as (r & E & A & B & C & _). rewrite E. cbn [bind]. destruct (IH (fst r) A C) as (s'' & X & Y); [rewrite B; assumption | assumption |]. exists s''. split; [exact X | congruence].
  - destruct (link_safe s i p W M Hc) as (r & E & A & B & C & _). rewrite E. cbn [bind]. destruct (IH (fst r) A C) as (s'' & X & Y); [rewrite B; assumption | assumption |]. exists s''. split; [exact X | congruence].
Qed.
(** A delay followed by a value: the value is queued with that delay *)
Lemma path_types : forall s i, delay_path s i -> i < length (types s).
Proof. induction s as [t got | s IH | own s IH | own s IH | s IH | slots ds q s IH | bufs s IH | on tg s IH]; intros i H; cbn [delay_path types] in *; try contradiction; auto. rewrite app_length. specialize (IH i H). lia. Qed.
Lemma delay_then_apply : forall s i d v, wf s -> delay_path s i -> d <> 0%N -> length (queue_of s) < slots_of s ->
  exists s1 s2, delay s i d = Some (s1, true) /\ apply s1 i v = Some s2 /\ types s2 = types s /\ queue_of s2 = queue_of s ++ [(d, i, v)] /\ forall j, received s2 j = received s j.
Proof.
  induction s as [t got | s IH | own s IH | own s IH | s IH | slots ds q s IH | bufs s IH | on tg s IH]; intros i d v W H D Q; cbn [delay_path] in H; try contradiction; cbn [delay wf queue_of slots_of] in *.
  - destruct (IH i d v W H D Q) as (s1 & s2 & A & B & T & C & E). rewrite A. cbn [bind fst snd]. exists (SFwd s1), (SFwd s2). cbn [apply]. rewrite B. cbn. auto.
  - destruct (IH i d v W H D Q) as (s1 & s2 & A & B & T2 & C & E). destruct (delay_ok s i d W H) as (s1' & A' & _ & T & _). rewrite A' in A. injection A as <-.
    rewrite A'. cbn [bind fst snd]. exists (SMul own s1'), (SMul own s2). split; [reflexivity |]. cbn [apply]. unfold params. rewrite T. pose proof (path_types s i H).
    destruct (Nat.eqb_spec i (length (types s))); [lia |]. rewrite B. cbn [bind types]. rewrite T2. split; [reflexivity |]. split; [reflexivity |]. split; [exact C |].
    intros j. cbn [received]. rewrite E, T2. reflexivity.
  - destruct W as [L W]. destruct (set_nth_some _ ds i d ltac:(lia)) as (ds' & A & B & C). rewrite A. cbn [bind]. exists (SPrecise slots ds' q s), (SPrecise slots ds' (q ++ [(d, i, v)]) s).
    split; [reflexivity |]. cbn [apply]. rewrite C. cbn [bind]. destruct (N.eqb_spec d 0); [contradiction |]. replace (length q <? slots) with true by (symmetry; apply Nat.ltb_lt; exact Q). auto.
Qed.
(** Shapes are kept by every call, whatever its arguments *)
Lemma set_nth_len : forall A (l l' : list A) i x, set_nth l i x = Some l' -> length l' = length l.
Proof.
  intros A l l' i x H. destruct (Nat.ltb_spec i (length l)) as [Hi | Hi].
  - destruct (set_nth_some A l i x Hi) as (l2 & E & L & _). congruence.
  - exfalso. revert i Hi l' H. induction l as [| y l IH]; intros [| i] Hi l' H; cbn [length set_nth] in *; try discriminate; try lia.
    destruct (set_nth l i x) eqn:E; [| discriminate]. apply (IH i ltac:(lia) _ E).
Qed.
Ltac bnd H := match type of H with (_ <- ?e;; _) = Some _ => let E := fresh "E" in destruct e eqn:E; [cbn [bind] in H | discriminate H] end.
Lemma apply_shape : forall s i v s', apply s i v = Some s' -> types s' = types s /\ (wf s -> wf s').
Proof.
  induction s as [t got | s IH | own s IH | own s IH | s IH | slots ds q s IH | bufs s IH | on tg s IH]; intros i v s' H; cbn [apply] in H.
  - destruct (nth_error t i); [destruct (accepts t0 v); [| discriminate H] |]; injection H as <-; cbn; auto.
  - bnd H. injection H as <-. cbn [types wf]. exact (IH _ _ _ E).
  - destruct (i =? params s); [destruct (accepts TFloat v); [| discriminate H]; injection H as <-; cbn; auto |]. bnd H. injection H as <-. destruct (IH _ _ _ E) as [A B]. cbn [types wf]. rewrite A. auto.
  - destruct (i =? params s); [destruct (accepts TInt v); [| discriminate H]; injection H as <-; cbn; auto |]. bnd H. injection H as <-. destruct (IH _ _ _ E) as [A B]. cbn [types wf]. rewrite A. auto.
  - bnd H. injection H as <-. cbn [types wf]. exact (IH _ _ _ E).
  - bnd H. destruct (n =? 0)%N; [bnd H; injection H as <-; destruct (IH _ _ _ E0) as [A B]; cbn [types wf]; rewrite A; tauto |]. destruct (length q <? slots); injection H as <-; cbn; auto.
  - bnd H. destruct o; [injection H as <-; cbn; auto |]. bnd H. injection H as <-. destruct (IH _ _ _ E0) as [A B]. cbn [types wf]. rewrite A. tauto.
  - destruct (params s <=? i); [injection H as <-; cbn; auto |]. destruct v as [x | x | b | | l]; bnd H;
      try (injection H as <-; destruct (IH _ _ _ E) as [A B]; cbn [types wf]; rewrite A; tauto).
    + destruct b; [injection H as <-; cbn; auto |]. bnd H. injection H as <-. destruct (IH _ _ _ E0) as [A B]. cbn [types wf]. rewrite A. tauto.
    + injection H as <-. cbn [types wf]. rewrite (set_nth_len _ _ _ _ _ E). auto.
Qed.
Lemma delay_shape : forall s i d r, delay s i d = Some r -> types (fst r) = types s /\ (wf s -> wf (fst r)).
Proof.
  induction s as [t got | s IH | own s IH | own s IH | s IH | slots ds q s IH | bufs s IH | on tg s IH]; intros i d r H; cbn [delay] in H; try (injection H as <-; cbn; auto; fail); bnd H; injection H as <-; cbn [fst types wf].
  - exact (IH _ _ _ E).
  - destruct (IH _ _ _ E) as [A B]. rewrite A. auto.
  - rewrite (set_nth_len _ _ _ _ _ E). auto.
Qed.
Lemma link_shape : forall s i p r, link s i p = Some r -> types (fst r) = types s /\ (wf s -> wf (fst r)).
Proof.
  induction s as [t got | s IH | own s IH | own s IH | s IH | slots ds q s IH | bufs s IH | on tg s IH]; intros i p r H; cbn [link] in H; try (injection H as <-; cbn; auto; fail); bnd H; injection H as <-; cbn [fst types wf].
  - exact (IH _ _ _ E).
  - destruct (IH _ _ _ E) as [A B]. rewrite A. auto.
  - destruct (IH _ _ _ E) as [A B]. rewrite A. tauto.
  - rewrite (set_nth_len _ _ _ _ _ E). auto.
Qed.
Lemma step_shape : forall s c s', step s c = Some s' -> types s' = types s /\ (wf s -> wf s').
Proof.
  intros s [i v | i d | i p] s' H; cbn [step] in H; [exact (apply_shape _ _ _ _ H) | |]; bnd H; injection H as <-; [exact (delay_shape _ _ _ _ E) | exact (link_shape _ _ _ _ E)].
Qed.
Lemma step_wf : forall s c s', wf s -> step s c = Some s' -> wf s'.
Proof. intros s c s' W H. exact (proj2 (step_shape _ _ _ H) W). Qed.
Lemma step_types : forall s c s', step s c = Some s' -> types s' = types s.
Proof. intros s c s' H. exact (proj1 (step_shape _ _ _ H)). Qed.
Lemma steps_wf : forall cs s s', wf s -> steps s cs = Some s' -> wf s'.
Proof.
  induction cs as [| c cs IH]; intros s s' W H; cbn [steps] in H; [injection H as <-; exact W |]. bnd H. exact (IH _ _ (step_wf _ _ _ W E) H).
Qed.
