(** Proofs about scheduled changes. *)
From Verif Require Import Base TimeModel TimeSpec TimeProofs SchedModel SchedSpec.
From Coq Require Import Sorted.
Local Open Scope N_scope.

Lemma frames_val s sr : sec_normal s -> sr < U32 -> sec_to_samples s sr = Some (sec_ticks s * sr / TS).
Proof.
  intros [H1 H2] Hr. rewrite sec_to_samples_val by assumption. f_equal. unfold sec_ticks.
  replace ((s_whole s * TS + s_sub s) * sr) with (s_sub s * sr + s_whole s * sr * TS) by lia.
  rewrite N.div_add by (rewrite TS_val; lia). lia.
Qed.
Lemma block_ticks bs sr : 0 < sr < U32 -> bs < U32 * sr -> (sr | TS) ->
  exists b, sec_from_samples bs sr = Some b /\ sec_normal b /\ sec_ticks b * sr = bs * TS.
Proof.
  intros H1 H2 [k Hk]. eexists. split; [apply sec_from_samples_val; assumption|]. split.
  - eapply sec_from_samples_normal; [exact H1|exact H2|]. apply sec_from_samples_val; assumption.
  - unfold sec_ticks. cbn [s_whole s_sub].
    assert (E : bs mod sr * TS / sr = bs mod sr * k) by (rewrite Hk, N.mul_assoc; apply N.div_mul; lia).
    rewrite E, Hk. pose proof (N.div_mod bs sr). nia.
Qed.

Lemma div_sub_mul a b T : 0 < T -> (a - b * T) / T = a / T - b.
Proof.
  intros HT. destruct (N.le_gt_cases (b * T) a) as [Hle|Hgt].
  - assert (E : a / T = (a - b * T) / T + b) by (rewrite <- N.div_add by lia; rewrite N.sub_add by exact Hle; reflexivity). rewrite E. symmetry. apply N.add_sub.
  - replace (a - b * T) with 0 by lia. rewrite N.div_0_l by lia.
    assert (a / T < b) by (apply N.div_lt_upper_bound; lia). lia.
Qed.

Section Sched.
Variable V : Type.
Implicit Types (e : event V) (s : sched V).

Section Fixed.
Variables bs sr : N.
Hypothesis Hbs : 0 < bs <= U16.
Hypothesis Hsr : 0 < sr < U32.

Lemma bs_small : bs < U32 * sr.
Proof. unfold U16, U32 in *. lia. Qed.

Definition time_ok (t : time) : Prop := sec_normal (t_secs t) /\ (t_abs t = true \/ (sr | TS)).

Lemma until_due_val clock t : time_ok t ->
  exists t', until_due bs sr clock t = Some (due_frame sr clock (Some t) - clock, t') /\ time_ok t' /\
    due_frame sr (clock + bs) (Some t') - (clock + bs) = due_frame sr clock (Some t) - (clock + bs).
Proof.
  intros [Hn Hd]. unfold until_due, due_frame. destruct (t_abs t) eqn:Ea.
  - rewrite frames_val by (exact Hn || apply Hsr). cbn [bind]. exists t. rewrite Ea.
    split; [f_equal|]. split; [split; auto|reflexivity].
  - destruct Hd as [Hd|Hd]; [discriminate|].
    destruct (sec_eqb (t_secs t) sec_zero) eqn:Ez.
    + exists t. assert (Z : sec_ticks (t_secs t) = 0).
      { unfold sec_eqb in Ez. apply andb_prop in Ez as [E1 E2]. apply N.eqb_eq in E1, E2. unfold sec_ticks. rewrite E1, E2. reflexivity. }
      rewrite Ea, Z. replace (0 * sr / TS) with 0 by (rewrite N.mul_0_l, N.div_0_l; [reflexivity|rewrite TS_val; lia]).
      rewrite !N.add_0_r. split; [f_equal; f_equal; lia|]. split; [split; auto|]. lia.
    + rewrite frames_val by (exact Hn || apply Hsr). cbn [bind].
      destruct (block_ticks bs sr Hsr bs_small Hd) as (b & -> & Hb & Eb). cbn [bind].
      destruct (sec_saturating_sub_exact (t_secs t) b Hn Hb) as (x & -> & Hx & Ex). cbn [bind].
      exists (mk_time x false). cbn [t_abs t_secs].
      split; [rewrite (N.add_comm clock), N.add_sub; reflexivity|]. split; [split; auto|].
      rewrite Ex. rewrite N.mul_sub_distr_r, Eb.
      set (a := sec_ticks (t_secs t) * sr).
      rewrite (div_sub_mul a bs TS) by (rewrite TS_val; lia). generalize (a / TS). clear. intros n. lia.
Qed.

(** [e'] is what has become of [e], which is due at frame [f], at the start of the block at [clock]. *)
Definition tracks (clock f : N) (e e' : event V) : Prop :=
  e' = with_time e (e_time e') /\
  match e_time e' with
  | None => f = 0
  | Some t => time_ok t /\ due_frame sr clock (Some t) - clock = f - clock
  end.

Lemma tracks_self clock e : match e_time e with Some t => time_ok t | None => True end ->
  tracks clock (due_frame sr clock (e_time e)) e e.
Proof.
  intros H. split; [destruct e; reflexivity|]. destruct (e_time e) as [t|]; [split; [exact H|reflexivity]|reflexivity].
Qed.

Lemma apply_tracks clock f e e' act keys : tracks clock f e e' ->
  if takes bs f e (mk_block clock keys act)
  then apply_change bs sr clock act keys e' = Some (inl (delivery_at f e (mk_block clock keys act)))
  else exists e'', apply_change bs sr clock act keys e' = Some (inr e'') /\ tracks (clock + bs) f e e''.
Proof.
  intros [He Ht]. unfold apply_change, takes. cbn [b_clock b_keys b_act].
  assert (E : e_id e' = e_id e /\ e_key e' = e_key e /\ e_param e' = e_param e /\ e_value e' = e_value e /\
    e_smooth e' = e_smooth e /\ e_token e' = e_token e) by (rewrite He; cbn; repeat split).
  destruct E as (E1 & E2 & E3 & E4 & E5 & E6). rewrite E6, E1. 
  set (tok := match e_token e with Some tok => act (e_id e) tok | None => true end).
  destruct (e_time e') as [t|] eqn:Et.
  - destruct Ht as [Hok Hd]. destruct (until_due_val clock t Hok) as (t' & -> & Hok' & Hd'). cbn [bind fst snd with_time e_key e_id e_param e_smooth e_value].
    rewrite Hd, E2, E3, E4, E5, E1.
    assert (Hlt : (f - clock <? bs) = (f <? clock + bs)) by (apply eq_true_iff_eq; rewrite !N.ltb_lt; lia). rewrite Hlt.
    destruct (f <? clock + bs) eqn:Ef; cbn [andb].
    + rewrite (andb_comm _ tok). destruct tok; cbn [andb].
      * destruct (existsb _ keys); cbn [andb].
        -- unfold delivery_at, calls_at. cbn [b_clock]. do 3 f_equal.
           assert (H0 : (0 <? f - clock) = (clock <? f)) by (apply eq_true_iff_eq; rewrite !N.ltb_lt; lia). rewrite H0.
           apply N.ltb_lt in Ef. f_equal.
           ++ destruct (clock <? f); [|reflexivity]. unfold as_u16. rewrite N.mod_small by lia. reflexivity.
           ++ destruct (e_smooth e), (e_value e); reflexivity.
        -- eexists. split; [reflexivity|]. split.
           ++ rewrite He. reflexivity.
           ++ cbn [with_time e_time]. split; [exact Hok'|]. rewrite Hd'. lia.
      * eexists. split; [reflexivity|]. split.
           ++ rewrite He. reflexivity.
           ++ cbn [with_time e_time]. split; [exact Hok'|]. rewrite Hd'. lia.
    + rewrite andb_false_r. cbn [andb]. eexists. split; [reflexivity|]. split.
      ++ rewrite He. reflexivity.
      ++ cbn [with_time e_time]. split; [exact Hok'|]. rewrite Hd'. lia.
  - subst f. cbn [bind]. rewrite E1, E2, E3, E4, E5.
    assert (Hlt : (0 <? clock + bs) = true) by (apply N.ltb_lt; lia). rewrite Hlt. cbn [andb].
    rewrite (andb_comm _ tok). destruct (tok && existsb _ keys) eqn:Eq.
    + unfold delivery_at, calls_at. cbn [b_clock]. do 3 f_equal.
      assert (H0 : (clock <? 0) = false) by (apply N.ltb_ge; lia). rewrite H0. cbn [N.ltb N.compare app].
      destruct (e_smooth e), (e_value e); reflexivity.
    + eexists. split; [reflexivity|]. split; [rewrite Et; exact He|]. rewrite Et. reflexivity.
Qed.
End Fixed.

(** ** serial numbers *)
Lemma apply_change_id bs sr clock act keys e r : apply_change bs sr clock act keys e = Some r ->
  match r with inl d => d_id d = e_id e /\ d_clock d = clock | inr e' => e_id e' = e_id e end.
Proof.
  unfold apply_change. destruct (e_time e) as [t|]; cbn [bind].
  - destruct (until_due bs sr clock t) as [x|]; cbn [bind]; [|discriminate].
    destruct (_ && _); intros [= <-]; cbn; auto.
  - destruct (_ && _); intros [= <-]; cbn; auto.
Qed.

(** Where the events handled in a block go: delivered, kept or dropped. *)
Inductive sorted_out : list nat -> list nat -> list nat -> Prop :=
| so_nil : sorted_out [] [] []
| so_deliver n l d k : sorted_out l d k -> sorted_out (n :: l) (n :: d) k
| so_keep n l d k : sorted_out l d k -> sorted_out (n :: l) d (n :: k)
| so_drop n l d k : sorted_out l d k -> sorted_out (n :: l) d k.

Lemma so_app l1 d1 k1 l2 d2 k2 : sorted_out l1 d1 k1 -> sorted_out l2 d2 k2 -> sorted_out (l1 ++ l2) (d1 ++ d2) (k1 ++ k2).
Proof. intros H1 H2. induction H1; cbn; [exact H2|constructor; assumption..]. Qed.
Lemma so_In l d k : sorted_out l d k -> forall n, In n d \/ In n k -> In n l.
Proof. intros H. induction H; cbn; intros x; [tauto|specialize (IHsorted_out x); tauto..]. Qed.
Lemma so_sorted l d k : sorted_out l d k -> StronglySorted lt l -> StronglySorted lt d /\ StronglySorted lt k.
Proof.
  intros H. induction H; intros Hs; [split; constructor|inversion Hs; subst; destruct (IHsorted_out H2)..].
  - split; [|assumption]. constructor; [assumption|]. rewrite Forall_forall in *. intros x Hx. apply H3. eapply so_In; [exact H|tauto].
  - split; [assumption|]. constructor; [assumption|]. rewrite Forall_forall in *. intros x Hx. apply H3. eapply so_In; [exact H|tauto].
  - tauto.
Qed.
Lemma sorted_NoDup l : StronglySorted lt l -> NoDup l.
Proof.
  induction 1 as [|a l H IH Hf]; constructor; [|exact IH]. intros Hin. rewrite Forall_forall in Hf. specialize (Hf a Hin). lia.
Qed.
Lemma so_disjoint l d k : sorted_out l d k -> NoDup l -> forall n, In n d -> ~ In n k.
Proof.
  intros H. induction H; intros Hn x; inversion Hn; subst; cbn.
  - tauto.
  - intros [->|Hd]; [|apply IHsorted_out; assumption]. intros Hk. apply H2. eapply so_In; [exact H|tauto].
  - intros Hd [->|Hk]; [|revert Hd Hk; apply IHsorted_out; assumption]. apply H2. eapply so_In; [exact H|tauto].
  - apply IHsorted_out. assumption.
Qed.

Definition wid (x : event V * N) : nat := e_id (fst x).

(** the rotation of the queue as one pass over it *)
Fixpoint wait_pass (bs sr keep clock : N) act keys (l : list (event V * N)) : option (list (delivery V) * list (event V * N)) :=
  match l with
  | [] => Some ([], [])
  | (e, w) :: l' =>
      if keep <? w then wait_pass bs sr keep clock act keys l'
      else
        r <- apply_change bs sr clock act keys e ;;
        match r with
        | inl d => x <- wait_pass bs sr keep clock act keys l' ;; Some (d :: fst x, snd x)
        | inr e' => w' <- add_w U32 w 1 ;; x <- wait_pass bs sr keep clock act keys l' ;; Some (fst x, (e', w') :: snd x)
        end
  end.
Lemma wait_loop_pass bs sr kp clock act keys l : forall acc,
  wait_loop bs sr kp clock act keys (length l) (l ++ acc) =
  match wait_pass bs sr kp clock act keys l with Some (d, k) => Some (d, acc ++ k) | None => None end.
Proof.
  induction l as [|[e w] l IH]; intros acc; [cbn; rewrite app_nil_r; reflexivity|].
  cbn [length wait_loop wait_pass app]. destruct (kp <? w); [apply IH|].
  destruct (apply_change bs sr clock act keys e) as [[d|e']|]; cbn [bind]; [| |reflexivity].
  - rewrite IH. destruct (wait_pass bs sr kp clock act keys l) as [[ds k]|]; reflexivity.
  - destruct (add_w U32 w 1) as [w'|]; cbn [bind]; [|reflexivity]. rewrite <- app_assoc, IH.
    destruct (wait_pass bs sr kp clock act keys l) as [[ds k]|]; cbn [bind fst snd]; [|reflexivity].
    rewrite <- app_assoc. reflexivity.
Qed.
Lemma wait_loop_eq bs sr kp clock act keys l :
  wait_loop bs sr kp clock act keys (length l) l = wait_pass bs sr kp clock act keys l.
Proof.
  rewrite <- (app_nil_r l) at 2. rewrite wait_loop_pass. destruct (wait_pass bs sr kp clock act keys l) as [[d k]|]; reflexivity.
Qed.
Lemma wait_pass_so bs sr kp clock act keys l : forall ds k, wait_pass bs sr kp clock act keys l = Some (ds, k) ->
  sorted_out (map wid l) (map d_id ds) (map wid k) /\ forall d, In d ds -> d_clock d = clock.
Proof.
  induction l as [|[e w] l IH]; cbn [wait_pass map]; intros ds k H; [injection H as <- <-; split; [constructor|intros d []]|].
  destruct (kp <? w); [destruct (IH _ _ H); split; [constructor; assumption|assumption]|].
  destruct (apply_change bs sr clock act keys e) as [r|] eqn:E; cbn [bind] in H; [|discriminate].
  apply apply_change_id in E. destruct r as [d|e'].
  - destruct (wait_pass bs sr kp clock act keys l) as [[ds' k']|]; cbn [bind fst snd] in H; [|discriminate]. injection H as <- <-.
    destruct (IH _ _ eq_refl) as [A B]. destruct E as [E1 E2]. split.
    + cbn [map]. rewrite E1. unfold wid at 1; cbn [fst]. constructor. exact A.
    + intros x [<-|Hx]; auto.
  - destruct (add_w U32 w 1); cbn [bind] in H; [|discriminate].
    destruct (wait_pass bs sr kp clock act keys l) as [[ds' k']|]; cbn [bind fst snd] in H; [|discriminate]. injection H as <- <-.
    destruct (IH _ _ eq_refl) as [A B]. split; [|exact B].
    cbn [map]. unfold wid at 1 3; cbn [fst]. rewrite E. constructor. exact A.
Qed.
Lemma new_loop_so bs sr clock cap act keys ring : forall q ds q', new_loop bs sr clock cap act keys ring q = Some (ds, q') ->
  (exists k, q' = q ++ k /\ sorted_out (map e_id ring) (map d_id ds) (map wid k)) /\ forall d, In d ds -> d_clock d = clock.
Proof.
  induction ring as [|e ring IH]; cbn [new_loop map]; intros q ds q' H.
  { injection H as <- <-. split; [exists []; rewrite app_nil_r; split; [reflexivity|constructor]|intros d []]. }
  destruct (apply_change bs sr clock act keys e) as [r|] eqn:E; cbn [bind] in H; [|discriminate].
  apply apply_change_id in E. destruct r as [d|e'].
  - destruct (new_loop bs sr clock cap act keys ring q) as [[ds' k']|] eqn:En; cbn [bind fst snd] in H; [|discriminate]. injection H as <- <-.
    destruct (IH _ _ _ En) as [(k & -> & A) B]. destruct E as [E1 E2]. split.
    + exists k. split; [reflexivity|]. cbn [map]. rewrite E1. constructor. exact A.
    + intros x [<-|Hx]; auto.
  - apply IH in H as [(k & -> & A) B]. split; [|exact B]. destruct (Nat.ltb (length q) cap).
    + exists ((e', 0) :: k). rewrite <- app_assoc. split; [reflexivity|]. cbn [map]. unfold wid at 1; cbn [fst]. rewrite E. constructor. exact A.
    + exists k. split; [reflexivity|]. constructor. exact A.
Qed.

(** The state of a run: serial numbers are handed out in order, the queue and the channel hold them in order, and
    nothing delivered is still queued. *)
Record serial s : Prop := {
  sl_sorted : StronglySorted lt (map wid (q_wait s) ++ map e_id (q_ring s));
  sl_next : forall n, In n (map wid (q_wait s) ++ map e_id (q_ring s)) \/ In n (map d_id (q_log s)) -> (n < q_next s)%nat;
  sl_log : NoDup (map d_id (q_log s));
  sl_once : forall n, In n (map d_id (q_log s)) -> ~ In n (map wid (q_wait s) ++ map e_id (q_ring s)) }.

Lemma serial_new : serial sched_new.
Proof. constructor; cbn; [constructor|intros n [[]|[]]|constructor|intros n []]. Qed.

Lemma sorted_snoc l n : StronglySorted lt l -> (forall x, In x l -> (x < n)%nat) -> StronglySorted lt (l ++ [n]).
Proof.
  induction 1 as [|a l H IH Hf]; intros Hn; cbn; [constructor; constructor|].
  constructor; [apply IH; intros x Hx; apply Hn; right; exact Hx|].
  apply Forall_app. split; [exact Hf|]. constructor; [apply Hn; left; reflexivity|constructor].
Qed.
Lemma NoDup_app_i {A} (l m : list A) : NoDup l -> NoDup m -> (forall x, In x l -> ~ In x m) -> NoDup (l ++ m).
Proof.
  induction 1 as [|a l Ha Hl IH]; intros Hm Hd; cbn; [exact Hm|].
  constructor; [|apply IH; [exact Hm|intros x Hx; apply Hd; right; exact Hx]].
  rewrite in_app_iff. intros [H|H]; [exact (Ha H)|exact (Hd a (or_introl eq_refl) H)].
Qed.

(** What a block does. *)
Lemma block_shape c s keys act s' : sstep c s (Block keys act) = Some s' ->
  exists d1 k1 d2 k2, wait_pass (c_bs c) (c_sr c) (keep c) (q_clock s) act keys (q_wait s) = Some (d1, k1) /\
    new_loop (c_bs c) (c_sr c) (q_clock s) (c_cap c) act keys (q_ring s) k1 = Some (d2, k1 ++ k2) /\
    q_clock s' = q_clock s + c_bs c /\ q_ring s' = [] /\ q_wait s' = k1 ++ k2 /\ q_next s' = q_next s /\
    q_log s' = q_log s ++ d1 ++ d2 /\
    sorted_out (map wid (q_wait s) ++ map e_id (q_ring s)) (map d_id (d1 ++ d2)) (map wid (k1 ++ k2)) /\
    forall d, In d (d1 ++ d2) -> d_clock d = q_clock s.
Proof.
  cbn [sstep]. rewrite wait_loop_eq. intros H.
  destruct (wait_pass _ _ _ _ _ _ _) as [[d1 k1]|] eqn:E1; cbn [bind fst snd] in H; [|discriminate].
  destruct (new_loop _ _ _ _ _ _ _ _) as [[d2 q']|] eqn:E2; cbn [bind fst snd] in H; [|discriminate].
  unfold add_w in H. destruct (_ <? U64); cbn [bind] in H; [|discriminate]. injection H as <-.
  apply wait_pass_so in E1 as E1'. destruct E1' as [A B]. apply new_loop_so in E2 as E2'. destruct E2' as [(k2 & -> & C) D].
  exists d1, k1, d2, k2. cbn [q_clock q_ring q_wait q_next q_log]. repeat (split; [assumption || reflexivity|]).
  split; [rewrite !map_app; apply so_app; assumption|]. intros d Hd. apply in_app_or in Hd as [Hd|Hd]; auto.
Qed.

Lemma serial_step c s o s' : serial s -> sstep c s o = Some s' -> serial s'.
Proof.
  intros [H1 H2 H3 H4] H. destruct o as [key param v sm tok t|keys act].
  - cbn [sstep] in H. destruct (Nat.ltb _ _); injection H as <-; [|constructor; assumption].
    constructor; cbn [q_wait q_ring q_log q_next].
    + rewrite map_app, app_assoc. cbn [map e_id]. apply sorted_snoc; [exact H1|]. intros x Hx. apply H2. auto.
    + intros n. rewrite map_app, app_assoc. cbn [map e_id]. rewrite in_app_iff. cbn [In].
      intros [[Hn|[<-|[]]]|Hn]; [| |].
      * specialize (H2 n (or_introl Hn)). lia.
      * lia.
      * specialize (H2 n (or_intror Hn)). lia.
    + exact H3.
    + intros n Hn. rewrite map_app, app_assoc. cbn [map e_id]. rewrite in_app_iff. cbn [In].
      intros [Hx|[<-|[]]]; [exact (H4 n Hn Hx)|]. specialize (H2 _ (or_intror Hn)). lia.
  - apply block_shape in H as (d1 & k1 & d2 & k2 & _ & _ & _ & E2 & E3 & E4 & E5 & Hso & _).
    destruct (so_sorted _ _ _ Hso H1) as [Hd Hk]. constructor; rewrite ?E2, ?E3, ?E4, ?E5; cbn [map].
    + rewrite app_nil_r. exact Hk.
    + intros n. rewrite app_nil_r, (map_app d_id (q_log s)), in_app_iff. intros [Hn|[Hn|Hn]]; apply H2; [left|right; exact Hn|left].
      * eapply so_In; [exact Hso|auto].
      * eapply so_In; [exact Hso|auto].
    + rewrite (map_app d_id (q_log s)). apply NoDup_app_i; [exact H3|apply sorted_NoDup; exact Hd|].
      intros n Hn Hx. apply (H4 n Hn). eapply so_In; [exact Hso|auto].
    + intros n. rewrite app_nil_r, (map_app d_id (q_log s)), in_app_iff. intros [Hn|Hn] Hx.
      * apply (H4 n Hn). eapply so_In; [exact Hso|auto].
      * revert Hn Hx. eapply so_disjoint; [exact Hso|]. apply sorted_NoDup. exact H1.
Qed.
Lemma serial_run c ops : forall s s', serial s -> srun c s ops = Some s' -> serial s'.
Proof.
  induction ops as [|o ops IH]; cbn [srun]; intros s s' Hs H; [injection H as <-; exact Hs|].
  destruct (sstep c s o) as [s1|] eqn:E; cbn [bind] in H; [|discriminate]. eapply IH; [eapply serial_step; eauto|exact H].
Qed.
End Sched.
