(** The fate of a change with a relative time, at every sample rate. *)
From Verif Require Import Base TimeModel TimeSpec TimeProofs SchedModel SchedSpec SchedProofs SchedFate.
From Coq Require Import Sorted.
Local Open Scope N_scope.

Section Rel.
Variable V : Type.
Implicit Types (e : event V) (s : sched V).
Notation byid n := (filter (fun d : delivery V => Nat.eqb (d_id d) n)).
Variable c : config.
Hypothesis Hbs : 0 < c_bs c <= U16.
Hypothesis Hsr : 0 < c_sr c < U32.
Notation bs := (c_bs c).
Notation sr := (c_sr c).

Lemma block_floor : exists b, sec_from_samples bs sr = Some b /\ sec_normal b /\ sec_ticks b = bs * TS / sr.
Proof.
  assert (Hs : bs < U32 * sr).
  { destruct Hbs, Hsr. apply N.le_lt_trans with (1 := H0). unfold U16, U32 in *. nia. }
  eexists. split; [apply sec_from_samples_val; assumption|].
  assert (Hm : bs mod sr < sr) by (apply N.mod_lt; lia). split.
  - eapply sec_from_samples_normal; [exact Hsr|exact Hs|]. apply sec_from_samples_val; assumption.
  - unfold sec_ticks. cbn [s_whole s_sub].
    pose proof (N.div_mod bs sr ltac:(lia)) as Hd.
    replace (bs * TS) with (bs mod sr * TS + bs / sr * TS * sr) by (rewrite Hd at 3; ring).
    rewrite N.div_add by lia. apply N.add_comm.
Qed.

Definition tracks_rel (T : N) (n : nat) e e' : Prop :=
  e' = with_time e (e_time e') /\
  exists t, e_time e' = Some t /\ t_abs t = false /\ sec_normal (t_secs t) /\ sec_ticks (t_secs t) = left_after bs sr T n.

Lemma tracks_rel_self T e : (exists t, e_time e = Some t /\ t_abs t = false /\ sec_normal (t_secs t) /\ sec_ticks (t_secs t) = T) -> tracks_rel T 0 e e.
Proof.
  intros (t & A & B & C & D). split; [destruct e; reflexivity|]. exists t. repeat split; try assumption; try apply C.
  unfold left_after. cbn [N.of_nat]. rewrite N.mul_0_l, N.sub_0_r. exact D.
Qed.

Lemma left_S T n : left_after bs sr T (S n) = left_after bs sr T n - bs * TS / sr.
Proof. unfold left_after. rewrite Nat2N.inj_succ, N.mul_succ_l. rewrite N.sub_add_distr. reflexivity. Qed.

Lemma apply_tracks_rel T n clock e e' act keys : tracks_rel T n e e' ->
  if takes bs (clock + left_after bs sr T n * sr / TS) e (mk_block clock keys act)
  then apply_change bs sr clock act keys e' = Some (inl (delivery_at (clock + left_after bs sr T n * sr / TS) e (mk_block clock keys act)))
  else exists e'', apply_change bs sr clock act keys e' = Some (inr e'') /\ tracks_rel T (S n) e e''.
Proof.
  intros (He & t & Et & Ea & Hn & Hv). unfold apply_change, takes. cbn [b_clock b_keys b_act].
  assert (E : e_id e' = e_id e /\ e_key e' = e_key e /\ e_param e' = e_param e /\ e_value e' = e_value e /\
    e_smooth e' = e_smooth e /\ e_token e' = e_token e) by (rewrite He; cbn; repeat split).
  destruct E as (E1 & E2 & E3 & E4 & E5 & E6). rewrite E6, E1.
  set (tok := match e_token e with Some tok => act (e_id e) tok | None => true end).
  rewrite Et.
  assert (HU : exists t', until_due bs sr clock t = Some (left_after bs sr T n * sr / TS, t') /\ t_abs t' = false /\
    sec_normal (t_secs t') /\ sec_ticks (t_secs t') = left_after bs sr T (S n)).
  { unfold until_due. rewrite Ea. destruct (sec_eqb (t_secs t) sec_zero) eqn:Ez.
    - assert (Z : sec_ticks (t_secs t) = 0).
      { unfold sec_eqb in Ez. apply andb_prop in Ez as [X1 X2]. apply N.eqb_eq in X1, X2. unfold sec_ticks. rewrite X1, X2. reflexivity. }
      exists t. rewrite left_S, <- Hv, Z.
      replace (0 * sr / TS) with 0 by (rewrite N.mul_0_l, N.div_0_l; [reflexivity|rewrite TS_val; lia]).
      split; [reflexivity|]. split; [exact Ea|]. split; [exact Hn|reflexivity].
    - rewrite frames_val by (exact Hn || apply Hsr). cbn [bind].
      destruct block_floor as (b & -> & Hb & Eb). cbn [bind].
      destruct (sec_saturating_sub_exact (t_secs t) b Hn Hb) as (x & -> & Hx & Ex). cbn [bind].
      exists (mk_time x false). cbn [t_abs t_secs]. rewrite Hv. split; [reflexivity|]. split; [reflexivity|]. split; [exact Hx|].
      rewrite left_S, Ex, Eb, Hv. reflexivity. }
  destruct HU as (t' & -> & Ha' & Hn' & Hv'). cbn [bind fst snd with_time e_key e_id e_param e_smooth e_value].
  set (d := left_after bs sr T n * sr / TS).
  rewrite E2, E3, E4, E5, E1.
  assert (Hlt : (d <? bs) = (clock + d <? clock + bs)) by (apply eq_true_iff_eq; rewrite !N.ltb_lt; lia). rewrite Hlt.
  destruct (clock + d <? clock + bs) eqn:Ef; cbn [andb].
  - rewrite (andb_comm _ tok). destruct tok; cbn [andb].
    + destruct (existsb _ keys); cbn [andb].
      * unfold delivery_at, calls_at. cbn [b_clock]. do 3 f_equal.
        assert (H0 : (0 <? d) = (clock <? clock + d)) by (apply eq_true_iff_eq; rewrite !N.ltb_lt; lia). rewrite H0.
        apply N.ltb_lt in Ef. f_equal.
        -- destruct (clock <? clock + d); [|reflexivity]. unfold as_u16. rewrite N.mod_small by lia. do 2 f_equal. lia.
        -- destruct (e_smooth e), (e_value e); reflexivity.
      * eexists. split; [reflexivity|]. split; [rewrite He; reflexivity|]. exists t'. auto.
    + eexists. split; [reflexivity|]. split; [rewrite He; reflexivity|]. exists t'. auto.
  - destruct tok; (eexists; split; [reflexivity|]; split; [rewrite He; reflexivity|]; exists t'; auto).
Qed.

Definition outcome_rel (T : N) e (tries n : nat) (bl : list sblock) : list (delivery V) :=
  match find_from (fun n b => takes bs (due_in bs sr T n b) e b) n (firstn tries bl) with
  | Some (n, b) => [delivery_at (due_in bs sr T n b) e b] | None => [] end.

Lemma fate_wait_rel ops : forall s s' e e' w n T, serial V s -> In (e', w) (q_wait s) ->
  tracks_rel T n e e' -> srun c s ops = Some s' ->
  deliveries (e_id e) s' = outcome_rel T e (N.to_nat (keep c) + 1 - N.to_nat w) n (blocks (c_bs c) (q_clock s) ops).
Proof.
  induction ops as [|o ops IH]; cbn [srun]; intros s s' e e' w n T Hs Hin Ht H.
  { injection H as <-. unfold outcome_rel, due_in. cbn [blocks]. rewrite firstn_nil. cbn [find_from].
    apply byid_none. intros Hx. apply (sl_once V s Hs _ Hx). apply in_or_app. left.
    destruct Ht as [Ht _]. replace (e_id e) with (wid V (e', w)) by (unfold wid; cbn [fst]; rewrite Ht; reflexivity).
    apply in_map. exact Hin. }
  destruct (sstep c s o) as [s1|] eqn:E; cbn [bind] in H; [|discriminate].
  pose proof (serial_step V c s o s1 Hs E) as Hs1.
  destruct o as [key param v sm tok t|keys act].
  - cbn [blocks]. pose proof E as E'. cbn [sstep] in E'. destruct (Nat.ltb _ _).
    + assert (Ew : q_wait s1 = q_wait s) by (injection E' as <-; reflexivity).
      assert (Ec : q_clock s1 = q_clock s) by (injection E' as <-; reflexivity).
      rewrite <- Ec. eapply IH; [exact Hs1|rewrite Ew; exact Hin|exact Ht|exact H].
    + injection E' as <-. eapply IH; eauto.
  - cbn [blocks].
    assert (Hid : e_id e' = e_id e) by (destruct Ht as [Ht _]; rewrite Ht; reflexivity).
    assert (Hlog : byid (e_id e) (q_log s) = []).
    { apply byid_none. intros Hx. apply (sl_once V s Hs _ Hx). apply in_or_app. left.
      rewrite <- Hid. apply (in_map (wid V) (q_wait s) (e', w)). exact Hin. }
    assert (Hlt : (e_id e < q_next s)%nat).
    { apply (sl_next V s Hs). left. apply in_or_app. left. rewrite <- Hid. apply (in_map (wid V) (q_wait s) (e', w)). exact Hin. }
    assert (Hnd : NoDup (map (wid V) (q_wait s) ++ map e_id (q_ring s))) by (apply sorted_NoDup; apply Hs).
    assert (Hring : ~ In (e_id e) (map e_id (q_ring s))).
    { intros Hx. pose proof (sl_sorted V s Hs) as Hso.
      rewrite <- Hid in Hx. assert (Hw : In (e_id e') (map (wid V) (q_wait s))) by (apply (in_map (wid V) (q_wait s) (e', w)); exact Hin).
      clear -Hnd Hx Hw. induction (map (wid V) (q_wait s)) as [|a l IHl]; [destruct Hw|]. cbn in Hnd. inversion Hnd; subst.
      destruct Hw as [->|Hw]; [|auto]. apply H1. apply in_or_app. auto. }
    destruct (block_shape V c s keys act s1 E) as (d1 & k1 & d2 & k2 & P1 & P2 & E1 & E2 & E3 & E4 & E5 & Hso & _).
    assert (Hndw : NoDup (map (wid V) (q_wait s))).
    { clear -Hnd. induction (map (wid V) (q_wait s)) as [|a l IHl]; [constructor|]. cbn in Hnd. inversion Hnd; subst.
      constructor; [|auto]. intros Hx. apply H1. apply in_or_app. auto. }
    pose proof (wait_pass_one V _ _ _ _ _ _ _ _ _ _ _ P1 Hndw Hin) as Hone. rewrite Hid in Hone.
    apply new_loop_so in P2 as P2'. destruct P2' as [(k2' & Ek & Hso2) _]. apply app_inv_head in Ek. subst k2'.
    assert (Hd2 : byid (e_id e) d2 = []).
    { apply byid_none. intros Hx. apply Hring. eapply so_In; [exact Hso2|auto]. }
    assert (Hk2 : ~ In (e_id e) (map (wid V) k2)).
    { intros Hx. apply Hring. eapply so_In; [exact Hso2|auto]. }
    assert (Hdel : deliveries (e_id e) s1 = byid (e_id e) d1).
    { unfold deliveries. rewrite E5, !byid_app, Hlog, Hd2, app_nil_r. reflexivity. }
    destruct (keep c <? w) eqn:Ekw.
    + destruct Hone as [A B]. rewrite (gone_run V c (e_id e) ops s1 s' H).
      * rewrite Hdel, A. unfold outcome_rel, due_in. apply N.ltb_lt in Ekw.
        replace (N.to_nat (keep c) + 1 - N.to_nat w)%nat with 0%nat by lia. reflexivity.
      * rewrite E4. exact Hlt.
      * rewrite E3, E2. cbn [map]. rewrite app_nil_r, map_app, in_app_iff. tauto.
    + apply N.ltb_ge in Ekw. destruct Hone as (r & Er & Hr).
      pose proof (apply_tracks_rel T n (q_clock s) e e' act keys Ht) as Ha.
      replace (N.to_nat (keep c) + 1 - N.to_nat w)%nat with (S (N.to_nat (keep c) + 1 - N.to_nat (w + 1)))%nat by lia.
      unfold outcome_rel, due_in. cbn [firstn find_from].
      cbn [b_clock]. destruct (takes (c_bs c) _ e (mk_block (q_clock s) keys act)).
      * rewrite Ha in Er. injection Er as <-. destruct Hr as [A B].
        rewrite (gone_run V c (e_id e) ops s1 s' H).
        -- rewrite Hdel, A. reflexivity.
        -- rewrite E4. exact Hlt.
        -- rewrite E3, E2. cbn [map]. rewrite app_nil_r, map_app, in_app_iff. tauto.
      * destruct Ha as (e'' & Ha & Ht''). rewrite Ha in Er. injection Er as <-. destruct Hr as [A B].
        rewrite <- E1. eapply IH; [exact Hs1|rewrite E3; apply in_or_app; left; exact B|exact Ht''|exact H].
Qed.

Lemma fate_ring_rel ops : forall s s' e T, serial V s -> In e (q_ring s) ->
  (exists t, e_time e = Some t /\ t_abs t = false /\ sec_normal (t_secs t) /\ sec_ticks (t_secs t) = T) ->
  srun c s ops = Some s' -> (forall s1, first_block V c s ops = Some s1 -> (length (q_wait s1) < c_cap c)%nat) ->
  deliveries (e_id e) s' = outcome_rel T e (N.to_nat (keep c) + 2) 0 (blocks (c_bs c) (q_clock s) ops).
Proof.
  induction ops as [|o ops IH]; cbn [srun]; intros s s' e T Hs Hin Ht H Hroom.
  { injection H as <-. unfold outcome_rel, due_in. cbn [blocks]. rewrite firstn_nil. cbn [find_from].
    apply byid_none. intros Hx. apply (sl_once V s Hs _ Hx). apply in_or_app. right. apply in_map. exact Hin. }
  destruct (sstep c s o) as [s1|] eqn:E; cbn [bind] in H; [|discriminate].
  pose proof (serial_step V c s o s1 Hs E) as Hs1.
  destruct o as [key param v sm tok t|keys act].
  - cbn [blocks]. cbn [first_block] in Hroom. rewrite E in Hroom. cbn [bind] in Hroom.
    cbn [sstep] in E. destruct (Nat.ltb _ _).
    + assert (Ew : In e (q_ring s1)) by (injection E as <-; cbn [q_ring]; apply in_or_app; auto).
      assert (Ec : q_clock s1 = q_clock s) by (injection E as <-; reflexivity).
      rewrite <- Ec. apply IH; assumption.
    + injection E as <-. apply IH; assumption.
  - cbn [blocks]. cbn [first_block] in Hroom. specialize (Hroom s1 E).
    assert (Hlog : byid (e_id e) (q_log s) = []).
    { apply byid_none. intros Hx. apply (sl_once V s Hs _ Hx). apply in_or_app. right. apply in_map. exact Hin. }
    assert (Hlt : (e_id e < q_next s)%nat).
    { apply (sl_next V s Hs). left. apply in_or_app. right. apply in_map. exact Hin. }
    assert (Hnd : NoDup (map (wid V) (q_wait s) ++ map e_id (q_ring s))) by (apply sorted_NoDup; apply Hs).
    assert (Hw : ~ In (e_id e) (map (wid V) (q_wait s))).
    { intros Hw. assert (Hx : In (e_id e) (map e_id (q_ring s))) by (apply in_map; exact Hin).
      clear -Hnd Hx Hw. induction (map (wid V) (q_wait s)) as [|a l IHl]; [destruct Hw|]. cbn in Hnd. inversion Hnd; subst.
      destruct Hw as [->|Hw]; [|auto]. apply H1. apply in_or_app. auto. }
    assert (Hndr : NoDup (map e_id (q_ring s))).
    { clear -Hnd. induction (map (wid V) (q_wait s)) as [|a l IHl]; [exact Hnd|]. cbn in Hnd. inversion Hnd; subst. auto. }
    destruct (block_shape V c s keys act s1 E) as (d1 & k1 & d2 & k2 & P1 & P2 & E1 & E2 & E3 & E4 & E5 & Hso & _).
    apply wait_pass_so in P1 as [Hso1 _].
    assert (Hd1 : byid (e_id e) d1 = []).
    { apply byid_none. intros Hx. apply Hw. eapply so_In; [exact Hso1|auto]. }
    assert (Hk1 : ~ In (e_id e) (map (wid V) k1)).
    { intros Hx. apply Hw. eapply so_In; [exact Hso1|auto]. }
    rewrite E3 in Hroom.
    destruct (new_loop_one V _ _ _ _ _ _ _ _ _ _ e P2 Hroom Hndr Hin Hk1) as (r & Er & Hr).
    assert (Hdel : deliveries (e_id e) s1 = byid (e_id e) d2).
    { unfold deliveries. rewrite E5, !byid_app, Hlog, Hd1. reflexivity. }
    pose proof (apply_tracks_rel T 0 (q_clock s) e e act keys (tracks_rel_self T e Ht)) as Ha.
    replace (N.to_nat (keep c) + 2)%nat with (S (N.to_nat (keep c) + 1 - N.to_nat 0))%nat by lia.
    unfold outcome_rel, due_in. cbn [firstn find_from b_clock].
    destruct (takes (c_bs c) _ e (mk_block (q_clock s) keys act)).
    + rewrite Ha in Er. injection Er as <-. destruct Hr as [A B]. rewrite (gone_run V c (e_id e) ops s1 s' H).
      * rewrite Hdel, A. reflexivity.
      * rewrite E4. exact Hlt.
      * rewrite E3, E2. cbn [map]. rewrite app_nil_r. exact B.
    + destruct Ha as (e'' & Ha & Ht''). rewrite Ha in Er. injection Er as <-. destruct Hr as [A B].
      rewrite <- E1. eapply fate_wait_rel; [exact Hs1|rewrite E3; exact B|exact Ht''|exact H].
Qed.
End Rel.
