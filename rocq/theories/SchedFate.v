(** The fate of one change, for all runs. *)
From Verif Require Import Base TimeModel TimeSpec TimeProofs SchedModel SchedSpec SchedProofs.
From Coq Require Import Sorted.
Local Open Scope N_scope.

Section Fate.
Variable V : Type.
Implicit Types (e : event V) (s : sched V).
Notation byid n := (filter (fun d : delivery V => Nat.eqb (d_id d) n)).

Lemma byid_none n (ds : list (delivery V)) : ~ In n (map d_id ds) -> byid n ds = [].
Proof.
  induction ds as [|d ds IH]; cbn; intros H; [reflexivity|]. destruct (Nat.eqb_spec (d_id d) n); [tauto|]. apply IH. tauto.
Qed.
Lemma byid_app n a b : byid n (a ++ b) = byid n a ++ byid n b.
Proof. apply filter_app. Qed.

Lemma wait_pass_one bs sr kp clock act keys l : forall ds k e w,
  wait_pass V bs sr kp clock act keys l = Some (ds, k) -> NoDup (map (wid V) l) -> In (e, w) l ->
  if kp <? w then byid (e_id e) ds = [] /\ ~ In (e_id e) (map (wid V) k)
  else exists r, apply_change bs sr clock act keys e = Some r /\
    match r with
    | inl d => byid (e_id e) ds = [d] /\ ~ In (e_id e) (map (wid V) k)
    | inr e' => byid (e_id e) ds = [] /\ In (e', w + 1) k
    end.
Proof.
  induction l as [|[e0 w0] l IH]; intros ds k e w H Hn Hin; [destruct Hin|].
  cbn [wait_pass] in H. cbn [map] in Hn. inversion Hn as [|? ? Hni Hn']; subst.
  destruct Hin as [Heq|Hin].
  - injection Heq as -> ->. unfold wid at 1 in Hni; cbn [fst] in Hni.
    destruct (kp <? w) eqn:Ek.
    + apply wait_pass_so in H as [H _]. split; [apply byid_none|]; intros Hx; apply Hni; eapply so_In; eauto.
    + destruct (apply_change bs sr clock act keys e) as [r|] eqn:Ea; cbn [bind] in H; [|discriminate].
      exists r. split; [reflexivity|]. apply apply_change_id in Ea. destruct r as [d|e'].
      * destruct (wait_pass V bs sr kp clock act keys l) as [[ds' k']|] eqn:Ep; cbn [bind fst snd] in H; [|discriminate]. injection H as <- <-.
        apply wait_pass_so in Ep as [Hs _]. destruct Ea as [Ea _]. cbn [filter]. rewrite Ea, Nat.eqb_refl. split.
        -- f_equal. apply byid_none. intros Hx. apply Hni. eapply so_In; eauto.
        -- intros Hx. apply Hni. eapply so_In; eauto.
      * unfold add_w in H. destruct (w + 1 <? U32); cbn [bind] in H; [|discriminate].
        destruct (wait_pass V bs sr kp clock act keys l) as [[ds' k']|] eqn:Ep; cbn [bind fst snd] in H; [|discriminate]. injection H as <- <-.
        apply wait_pass_so in Ep as [Hs _]. split; [|left; reflexivity]. apply byid_none. intros Hx. apply Hni. eapply so_In; eauto.
  - assert (Hne : e_id e0 <> e_id e).
    { intros E. apply Hni. unfold wid at 1; cbn [fst]. rewrite E. apply (in_map (wid V) l (e, w)). exact Hin. }
    destruct (kp <? w0) eqn:Ek0; [eapply IH; eauto|].
    destruct (apply_change bs sr clock act keys e0) as [r0|] eqn:Ea; cbn [bind] in H; [|discriminate].
    apply apply_change_id in Ea. destruct r0 as [d0|e0'].
    + destruct (wait_pass V bs sr kp clock act keys l) as [[ds' k']|] eqn:Ep; cbn [bind fst snd] in H; [|discriminate]. injection H as <- <-.
      destruct Ea as [Ea _]. cbn [filter]. rewrite Ea. destruct (Nat.eqb_spec (e_id e0) (e_id e)); [contradiction|].
      eapply IH; eauto.
    + destruct (add_w U32 w0 1); cbn [bind] in H; [|discriminate].
      destruct (wait_pass V bs sr kp clock act keys l) as [[ds' k']|] eqn:Ep; cbn [bind fst snd] in H; [|discriminate]. injection H as <- <-.
      specialize (IH _ _ e w eq_refl Hn' Hin). destruct (kp <? w).
      * destruct IH as [A B]. split; [exact A|]. cbn [map]. unfold wid at 1; cbn [fst]. intros [E|E]; [congruence|exact (B E)].
      * destruct IH as (r & E & Hr). exists r. split; [exact E|]. destruct r.
        -- destruct Hr as [A B]. split; [exact A|]. cbn [map]. unfold wid at 1; cbn [fst]. intros [E'|E']; [congruence|exact (B E')].
        -- destruct Hr as [A B]. split; [exact A|]. right. exact B.
Qed.

Lemma new_loop_len bs sr clock cap act keys (ring : list (event V)) : forall q ds q',
  new_loop bs sr clock cap act keys ring q = Some (ds, q') -> (length q <= length q')%nat.
Proof.
  intros q ds q' H. apply new_loop_so in H as [(k & -> & _) _]. rewrite app_length. lia.
Qed.
Lemma new_loop_one bs sr clock cap act keys ring : forall q ds q' e,
  new_loop bs sr clock cap act keys ring q = Some (ds, q') -> (length q' < cap)%nat -> NoDup (map e_id ring) -> In e ring ->
  ~ In (e_id e) (map (wid V) q) ->
  exists r, apply_change bs sr clock act keys e = Some r /\
    match r with
    | inl d => byid (e_id e) ds = [d] /\ ~ In (e_id e) (map (wid V) q')
    | inr e' => byid (e_id e) ds = [] /\ In (e', 0) q'
    end.
Proof.
  induction ring as [|e0 ring IH]; intros q ds q' e H Hlen Hn Hin Hq; [destruct Hin|].
  cbn [new_loop] in H. cbn [map] in Hn. inversion Hn as [|? ? Hni Hn']; subst.
  destruct (apply_change bs sr clock act keys e0) as [r0|] eqn:Ea; cbn [bind] in H; [|discriminate].
  pose proof (apply_change_id _ _ _ _ _ _ _ _ Ea) as Hid.
  destruct Hin as [->|Hin].
  - exists r0. split; [exact Ea|]. destruct r0 as [d|e'].
    + destruct (new_loop bs sr clock cap act keys ring q) as [[ds' q1]|] eqn:En; cbn [bind fst snd] in H; [|discriminate]. injection H as <- <-.
      apply new_loop_so in En as [(k & -> & Hs) _]. destruct Hid as [Hid _]. cbn [filter]. rewrite Hid, Nat.eqb_refl. split.
      * f_equal. apply byid_none. intros Hx. apply Hni. eapply so_In; eauto.
      * rewrite map_app, in_app_iff. intros [Hx|Hx]; [exact (Hq Hx)|]. apply Hni. eapply so_In; eauto.
    + pose proof (new_loop_len _ _ _ _ _ _ _ _ _ _ H) as Hl.
      assert (Hc : Nat.ltb (length q) cap = true).
      { apply Nat.ltb_lt. destruct (Nat.ltb (length q) cap); [rewrite app_length in Hl|]; lia. }
      rewrite Hc in H. apply new_loop_so in H as [(k & -> & Hs) _]. split.
      * apply byid_none. intros Hx. apply Hni. eapply so_In; eauto.
      * apply in_or_app. left. apply in_or_app. right. left. reflexivity.
  - assert (Hne : e_id e0 <> e_id e).
    { intros E. apply Hni. rewrite E. apply in_map. exact Hin. }
    destruct r0 as [d0|e0'].
    + destruct (new_loop bs sr clock cap act keys ring q) as [[ds' q1]|] eqn:En; cbn [bind fst snd] in H; [|discriminate]. injection H as <- <-.
      destruct Hid as [Hid _]. cbn [filter]. rewrite Hid. destruct (Nat.eqb_spec (e_id e0) (e_id e)); [contradiction|].
      eapply IH; eauto.
    + eapply IH; [exact H|exact Hlen|exact Hn'|exact Hin|].
      destruct (Nat.ltb (length q) cap); [|exact Hq]. rewrite map_app, in_app_iff. cbn [map In]. unfold wid at 2; cbn [fst].
      intros [Hx|[Hx|[]]]; [exact (Hq Hx)|congruence].
Qed.

(** ** gone: neither queued nor to be sent *)
Lemma gone_step c s o s' n : sstep c s o = Some s' -> (n < q_next s)%nat ->
  ~ In n (map (wid V) (q_wait s) ++ map e_id (q_ring s)) ->
  deliveries n s' = deliveries n s /\ (n < q_next s')%nat /\ ~ In n (map (wid V) (q_wait s') ++ map e_id (q_ring s')).
Proof.
  intros H Hn Hq. destruct o as [key param v sm tok t|keys act].
  - cbn [sstep] in H. destruct (Nat.ltb _ _); injection H as <-; [|auto]. unfold deliveries. cbn [q_log q_next q_wait q_ring].
    split; [reflexivity|]. split; [lia|]. rewrite map_app, app_assoc, in_app_iff. cbn [map e_id In].
    intros [Hx|[Hx|[]]]; [exact (Hq Hx)|lia].
  - apply block_shape in H as (d1 & k1 & d2 & k2 & _ & _ & _ & E2 & E3 & E4 & E5 & Hso & _).
    unfold deliveries. rewrite E2, E3, E4, E5. cbn [map]. rewrite app_nil_r, byid_app. split; [|split; [exact Hn|]].
    + rewrite (byid_none n (d1 ++ d2)), app_nil_r; [reflexivity|]. intros Hx. apply Hq. eapply so_In; eauto.
    + intros Hx. apply Hq. eapply so_In; eauto.
Qed.
Lemma gone_run c n ops : forall s s', srun c s ops = Some s' -> (n < q_next s)%nat ->
  ~ In n (map (wid V) (q_wait s) ++ map e_id (q_ring s)) -> deliveries n s' = deliveries n s.
Proof.
  induction ops as [|o ops IH]; cbn [srun]; intros s s' H Hn Hq; [injection H as <-; reflexivity|].
  destruct (sstep c s o) as [s1|] eqn:E; cbn [bind] in H; [|discriminate].
  destruct (gone_step c s o s1 n E Hn Hq) as (A & B & C). rewrite (IH _ _ H B C). exact A.
Qed.

Section Config.
Variable c : config.
Hypothesis Hbs : 0 < c_bs c <= U16.
Hypothesis Hsr : 0 < c_sr c < U32.

Definition outcome (f : N) (e : event V) (tries : nat) (bl : list sblock) : list (delivery V) :=
  match find (takes (c_bs c) f e) (firstn tries bl) with Some b => [delivery_at f e b] | None => [] end.

Lemma fate_wait ops : forall s s' e e' w f, serial V s -> In (e', w) (q_wait s) ->
  tracks V (c_sr c) (q_clock s) f e e' -> srun c s ops = Some s' ->
  deliveries (e_id e) s' = outcome f e (N.to_nat (keep c) + 1 - N.to_nat w) (blocks (c_bs c) (q_clock s) ops).
Proof.
  induction ops as [|o ops IH]; cbn [srun]; intros s s' e e' w f Hs Hin Ht H.
  { injection H as <-. unfold outcome. cbn [blocks]. rewrite firstn_nil. cbn [find].
    apply byid_none. intros Hx. apply (sl_once V s Hs _ Hx). apply in_or_app. left.
    destruct Ht as [Ht _]. replace (e_id e) with (wid V (e', w)) by (unfold wid; cbn [fst]; rewrite Ht; reflexivity).
    apply in_map. exact Hin. }
  destruct (sstep c s o) as [s1|] eqn:E; cbn [bind] in H; [|discriminate].
  pose proof (serial_step V c s o s1 Hs E) as Hs1.
  destruct o as [key param v sm tok t|keys act].
  - cbn [blocks]. pose proof E as E'. cbn [sstep] in E'. destruct (Nat.ltb _ _).
    + assert (Ew : q_wait s1 = q_wait s) by (injection E' as <-; reflexivity).
      assert (Ec : q_clock s1 = q_clock s) by (injection E' as <-; reflexivity).
      rewrite <- Ec. eapply IH; [exact Hs1|rewrite Ew; exact Hin|rewrite Ec; exact Ht|exact H].
    + injection E' as <-. eapply IH; eauto.
  - cbn [blocks].
    assert (Hid : e_id e' = e_id e) by (destruct Ht as [Ht _]; rewrite Ht; reflexivity).
    assert (Hlog : byid (e_id e) (q_log s) = []).
    { apply byid_none. intros Hx. apply (sl_once V s Hs _ Hx). apply in_or_app. left.
      rewrite <- Hid. apply (in_map (wid V) (q_wait s) (e', w)). exact Hin. }
    assert (Hlt : (e_id e < q_next s)%nat).
    { apply (sl_next V s Hs). left. apply in_or_app. left. rewrite <- Hid. apply (in_map (wid V) (q_wait s) (e', w)). exact Hin. }
    assert (Hnd : NoDup (map (wid V) (q_wait s) ++ map e_id (q_ring s))) by (apply sorted_NoDup; apply Hs).
    assert (Hring : ~ In (e_id e) (map e_id (q_ring s))).
    { intros Hx. pose proof (sl_sorted V s Hs) as Hso.
      rewrite <- Hid in Hx. assert (Hw : In (e_id e') (map (wid V) (q_wait s))) by (apply (in_map (wid V) (q_wait s) (e', w)); exact Hin).
      clear -Hnd Hx Hw. induction (map (wid V) (q_wait s)) as [|a l IHl]; [destruct Hw|]. cbn in Hnd. inversion Hnd; subst.
      destruct Hw as [->|Hw]; [|auto]. apply H1. apply in_or_app. auto. }
    destruct (block_shape V c s keys act s1 E) as (d1 & k1 & d2 & k2 & P1 & P2 & E1 & E2 & E3 & E4 & E5 & Hso & _).
    assert (Hndw : NoDup (map (wid V) (q_wait s))).
    { clear -Hnd. induction (map (wid V) (q_wait s)) as [|a l IHl]; [constructor|]. cbn in Hnd. inversion Hnd; subst.
      constructor; [|auto]. intros Hx. apply H1. apply in_or_app. auto. }
    pose proof (wait_pass_one _ _ _ _ _ _ _ _ _ _ _ P1 Hndw Hin) as Hone. rewrite Hid in Hone.
    apply new_loop_so in P2 as P2'. destruct P2' as [(k2' & Ek & Hso2) _]. apply app_inv_head in Ek. subst k2'.
    assert (Hd2 : byid (e_id e) d2 = []).
    { apply byid_none. intros Hx. apply Hring. eapply so_In; [exact Hso2|auto]. }
    assert (Hk2 : ~ In (e_id e) (map (wid V) k2)).
    { intros Hx. apply Hring. eapply so_In; [exact Hso2|auto]. }
    assert (Hdel : deliveries (e_id e) s1 = byid (e_id e) d1).
    { unfold deliveries. rewrite E5, !byid_app, Hlog, Hd2, app_nil_r. reflexivity. }
    destruct (keep c <? w) eqn:Ekw.
    + destruct Hone as [A B]. rewrite (gone_run c (e_id e) ops s1 s' H).
      * rewrite Hdel, A. unfold outcome. apply N.ltb_lt in Ekw.
        replace (N.to_nat (keep c) + 1 - N.to_nat w)%nat with 0%nat by lia. reflexivity.
      * rewrite E4. exact Hlt.
      * rewrite E3, E2. cbn [map]. rewrite app_nil_r, map_app, in_app_iff. tauto.
    + apply N.ltb_ge in Ekw. destruct Hone as (r & Er & Hr).
      pose proof (apply_tracks V (c_bs c) (c_sr c) Hbs Hsr (q_clock s) f e e' act keys Ht) as Ha.
      replace (N.to_nat (keep c) + 1 - N.to_nat w)%nat with (S (N.to_nat (keep c) + 1 - N.to_nat (w + 1)))%nat by lia.
      unfold outcome. cbn [firstn find].
      destruct (takes (c_bs c) f e (mk_block (q_clock s) keys act)).
      * rewrite Ha in Er. injection Er as <-. destruct Hr as [A B].
        rewrite (gone_run c (e_id e) ops s1 s' H).
        -- rewrite Hdel, A. reflexivity.
        -- rewrite E4. exact Hlt.
        -- rewrite E3, E2. cbn [map]. rewrite app_nil_r, map_app, in_app_iff. tauto.
      * destruct Ha as (e'' & Ha & Ht''). rewrite Ha in Er. injection Er as <-. destruct Hr as [A B].
        rewrite <- E1. eapply IH; [exact Hs1|rewrite E3; apply in_or_app; left; exact B|rewrite E1; exact Ht''|exact H].
Qed.

(** The state at the end of the first block of a run. *)
Fixpoint first_block s (ops : list (sop V)) : option (sched V) :=
  match ops with
  | [] => None
  | Block keys act :: _ => sstep c s (Block keys act)
  | o :: rest => s' <- sstep c s o ;; first_block s' rest
  end.

Lemma fate_ring ops : forall s s' e, serial V s -> In e (q_ring s) ->
  match e_time e with Some t => time_ok (c_sr c) t | None => True end ->
  srun c s ops = Some s' -> (forall s1, first_block s ops = Some s1 -> (length (q_wait s1) < c_cap c)%nat) ->
  deliveries (e_id e) s' = outcome (due_frame (c_sr c) (q_clock s) (e_time e)) e (N.to_nat (keep c) + 2) (blocks (c_bs c) (q_clock s) ops).
Proof.
  induction ops as [|o ops IH]; cbn [srun]; intros s s' e Hs Hin Ht H Hroom.
  { injection H as <-. unfold outcome. cbn [blocks]. rewrite firstn_nil. cbn [find].
    apply byid_none. intros Hx. apply (sl_once V s Hs _ Hx). apply in_or_app. right. apply in_map. exact Hin. }
  destruct (sstep c s o) as [s1|] eqn:E; cbn [bind] in H; [|discriminate].
  pose proof (serial_step V c s o s1 Hs E) as Hs1.
  destruct o as [key param v sm tok t|keys act].
  - cbn [blocks]. cbn [first_block] in Hroom. rewrite E in Hroom. cbn [bind] in Hroom.
    cbn [sstep] in E. destruct (Nat.ltb _ _).
    + assert (Ew : In e (q_ring s1)) by (injection E as <-; cbn [q_ring]; apply in_or_app; auto).
      assert (Ec : q_clock s1 = q_clock s) by (injection E as <-; reflexivity).
      rewrite <- Ec. apply IH; assumption.
    + injection E as <-. apply IH; assumption.
  - cbn [blocks]. cbn [first_block] in Hroom. specialize (Hroom s1 E).
    assert (Hlog : byid (e_id e) (q_log s) = []).
    { apply byid_none. intros Hx. apply (sl_once V s Hs _ Hx). apply in_or_app. right. apply in_map. exact Hin. }
    assert (Hlt : (e_id e < q_next s)%nat).
    { apply (sl_next V s Hs). left. apply in_or_app. right. apply in_map. exact Hin. }
    assert (Hnd : NoDup (map (wid V) (q_wait s) ++ map e_id (q_ring s))) by (apply sorted_NoDup; apply Hs).
    assert (Hw : ~ In (e_id e) (map (wid V) (q_wait s))).
    { intros Hw. assert (Hx : In (e_id e) (map e_id (q_ring s))) by (apply in_map; exact Hin).
      clear -Hnd Hx Hw. induction (map (wid V) (q_wait s)) as [|a l IHl]; [destruct Hw|]. cbn in Hnd. inversion Hnd; subst.
      destruct Hw as [->|Hw]; [|auto]. apply H1. apply in_or_app. auto. }
    assert (Hndr : NoDup (map e_id (q_ring s))).
    { clear -Hnd. induction (map (wid V) (q_wait s)) as [|a l IHl]; [exact Hnd|]. cbn in Hnd. inversion Hnd; subst. auto. }
    destruct (block_shape V c s keys act s1 E) as (d1 & k1 & d2 & k2 & P1 & P2 & E1 & E2 & E3 & E4 & E5 & Hso & _).
    apply wait_pass_so in P1 as [Hso1 _].
    assert (Hd1 : byid (e_id e) d1 = []).
    { apply byid_none. intros Hx. apply Hw. eapply so_In; [exact Hso1|auto]. }
    assert (Hk1 : ~ In (e_id e) (map (wid V) k1)).
    { intros Hx. apply Hw. eapply so_In; [exact Hso1|auto]. }
    rewrite E3 in Hroom.
    destruct (new_loop_one _ _ _ _ _ _ _ _ _ _ e P2 Hroom Hndr Hin Hk1) as (r & Er & Hr).
    assert (Hdel : deliveries (e_id e) s1 = byid (e_id e) d2).
    { unfold deliveries. rewrite E5, !byid_app, Hlog, Hd1. reflexivity. }
    pose proof (apply_tracks V (c_bs c) (c_sr c) Hbs Hsr (q_clock s) _ e e act keys (tracks_self V (c_sr c) (q_clock s) e Ht)) as Ha.
    replace (N.to_nat (keep c) + 2)%nat with (S (N.to_nat (keep c) + 1 - N.to_nat 0))%nat by lia.
    unfold outcome. cbn [firstn find].
    destruct (takes (c_bs c) _ e (mk_block (q_clock s) keys act)).
    + rewrite Ha in Er. injection Er as <-. destruct Hr as [A B]. rewrite (gone_run c (e_id e) ops s1 s' H).
      * rewrite Hdel, A. reflexivity.
      * rewrite E4. exact Hlt.
      * rewrite E3, E2. cbn [map]. rewrite app_nil_r. exact B.
    + destruct Ha as (e'' & Ha & Ht''). rewrite Ha in Er. injection Er as <-. destruct Hr as [A B].
      rewrite <- E1. eapply fate_wait; [exact Hs1|rewrite E3; exact B|rewrite E1; exact Ht''|exact H].
Qed.
End Config.
End Fate.
