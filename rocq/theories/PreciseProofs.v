From Verif Require Import Base BlockModel PreciseModel PreciseSpec.
Local Open Scope nat_scope.

Section Proofs.
Context {F V St : Type}.
Variable zero : F.
Variable u : ugen F V St.
Notation change := (N * nat * V)%type.
Notation frames := (frames zero u).
Notation timed := (timed zero u).

(** * Splitting *)
Lemma read_frame_window : forall n b s l v f, read_frame zero b ((s, l) :: v) f n = read_frame zero b v (f + s) n.
Proof. induction n as [| n IH]; intros; cbn [read_frame]; [reflexivity | rewrite IH; reflexivity]. Qed.
Lemma write_frame_window : forall n b s l v f (y : nat -> F), write_frame b ((s, l) :: v) f n y = write_frame b v (f + s) n y.
Proof. induction n as [| n IH]; intros; cbn [write_frame]; [reflexivity | rewrite IH; reflexivity]. Qed.
Lemma frames_window : forall n f st ib iv ob ov s l l',
  frames n f st ib ((s, l) :: iv) ob ((s, l') :: ov) = frames n (f + s) st ib iv ob ov.
Proof.
  induction n as [| n IH]; intros; cbn [PreciseModel.frames]; [reflexivity |].
  rewrite read_frame_window. destruct (read_frame zero ib iv (f + s) (u_ins u)); [| reflexivity]. cbn [bind].
  rewrite write_frame_window. destruct (write_frame ob ov (f + s) (u_outs u) _); [| reflexivity]. cbn [bind].
  rewrite IH. f_equal. lia.
Qed.
Lemma frames_app : forall n m f st ib iv ob ov,
  frames (n + m) f st ib iv ob ov = r <- frames n f st ib iv ob ov ;; frames m (f + n) (fst r) ib iv (snd r) ov.
Proof.
  induction n as [| n IH]; intros; cbn [PreciseModel.frames Nat.add].
  - cbn [bind fst snd]. f_equal. lia.
  - destruct (read_frame zero ib iv f (u_ins u)); [| reflexivity]. cbn [bind].
    destruct (write_frame ob ov f (u_outs u) _); [| reflexivity]. cbn [bind].
    rewrite IH. replace (f + S n) with (f + 1 + n) by lia. reflexivity.
Qed.
Lemma parts_whole : forall parts start st ib iv ob ov,
  in_parts zero u parts start st ib iv ob ov = frames (list_sum parts) start st ib iv ob ov.
Proof.
  induction parts as [| n parts IH]; intros; [reflexivity |].
  cbn [in_parts]. unfold ugen_block. cbn [m_frames make_partial]. rewrite frames_window.
  change (list_sum (n :: parts)) with (n + list_sum parts). rewrite frames_app. cbn [Nat.add].
  destruct (frames n start st ib iv ob ov) as [[st1 ob1] |]; [| reflexivity]. cbn [bind fst snd]. apply IH.
Qed.

(** * Frame by frame with changes *)
Definition tm (c : change) : nat := N.to_nat (fst (fst c)).
Lemma due_none : forall t l, (forall c, In c l -> tm c <> t) -> due t l = [].
Proof.
  induction l as [| c l IH]; intros H; [reflexivity |]. unfold due in *. cbn [filter].
  destruct (N.to_nat (fst (fst c)) =? t) eqn:E.
  - apply Nat.eqb_eq in E. exfalso. apply (H c); [left; reflexivity | exact E].
  - apply IH. intros c' Hc. apply H. right; exact Hc.
Qed.
Lemma due_all : forall t l, (forall c, In c l -> tm c = t) -> due t l = l.
Proof.
  induction l as [| c l IH]; intros H; [reflexivity |]. unfold due in *. cbn [filter].
  replace (N.to_nat (fst (fst c)) =? t) with true.
  - f_equal. apply IH. intros c' Hc. apply H. right; exact Hc.
  - symmetry. apply Nat.eqb_eq. apply (H c). left; reflexivity.
Qed.
Lemma due_app : forall t l1 l2, due t (l1 ++ l2 : list change) = due t l1 ++ due t l2.
Proof. intros. unfold due. apply filter_app. Qed.
Lemma apply_all_app : forall l1 l2 st, apply_all u (l1 ++ l2) st = apply_all u l2 (apply_all u l1 st).
Proof. intros. unfold apply_all. apply fold_left_app. Qed.
Lemma timed_ext : forall n t l l' st ib iv ob ov, (forall t', t <= t' -> due t' l = due t' l') ->
  timed n t l st ib iv ob ov = timed n t l' st ib iv ob ov.
Proof.
  induction n as [| n IH]; intros t l l' st ib iv ob ov H; cbn [PreciseSpec.timed]; [reflexivity |].
  rewrite (H t) by lia.
  destruct (read_frame zero ib iv t (u_ins u)); [| reflexivity]. cbn [bind].
  destruct (write_frame ob ov t (u_outs u) _); [| reflexivity]. cbn [bind].
  apply IH. intros t' Ht. apply H. lia.
Qed.
Lemma timed_no_changes : forall k n t l st ib iv ob ov, (forall c, In c l -> t + k <= tm c) ->
  timed (k + n) t l st ib iv ob ov = r <- frames k t st ib iv ob ov ;; timed n (t + k) l (fst r) ib iv (snd r) ov.
Proof.
  induction k as [| k IH]; intros n t l st ib iv ob ov H; cbn [PreciseModel.frames Nat.add].
  - cbn [bind fst snd]. f_equal. lia.
  - cbn [PreciseSpec.timed]. rewrite due_none by (intros c Hc; specialize (H c Hc); lia).
    cbn [apply_all fold_left].
    destruct (read_frame zero ib iv t (u_ins u)); [| reflexivity]. cbn [bind]. unfold apply_all. cbn [fold_left].
    destruct (write_frame ob ov t (u_outs u) _); [| reflexivity]. cbn [bind].
    rewrite IH by (intros c Hc; specialize (H c Hc); lia).
    replace (t + S k) with (t + 1 + k) by lia. reflexivity.
Qed.
Lemma timed_first : forall n t l1 l2 st ib iv ob ov, (forall c, In c l1 -> tm c = t) -> (forall c, In c l2 -> t < tm c) ->
  0 < n ->
  timed n t (l1 ++ l2) st ib iv ob ov = timed n t l2 (apply_all u l1 st) ib iv ob ov.
Proof.
  intros n t l1 l2 st ib iv ob ov H1 H2 Hn. destruct n as [| n]; [lia |]. cbn [PreciseSpec.timed].
  rewrite due_app, (due_all t l1 H1), (due_none t l2) by (intros c Hc; specialize (H2 c Hc); lia).
  rewrite app_nil_r. unfold apply_all at 2 4. cbn [fold_left].
  destruct (read_frame zero ib iv t (u_ins u)); [| reflexivity]. cbn [bind].
  destruct (write_frame ob ov t (u_outs u) _); [| reflexivity]. cbn [bind].
  apply timed_ext. intros t' Ht. rewrite due_app.
  rewrite (due_none t' l1) by (intros c Hc; specialize (H1 c Hc); lia). reflexivity.
Qed.

Lemma nth_error_skipn_add {A} : forall k (l : list A) i, nth_error (skipn k l) i = nth_error l (k + i).
Proof. induction k as [| k IH]; intros l i; [reflexivity |]. destruct l as [| x l]; [destruct i; reflexivity | apply IH]. Qed.
Lemma nth_error_firstn_lt {A} : forall k (l : list A) i, i < k -> nth_error (firstn k l) i = nth_error l i.
Proof.
  induction k as [| k IH]; intros l i H; [lia |]. destruct l as [| x l]; [reflexivity |].
  destruct i as [| i]; [reflexivity |]. exact (IH l i ltac:(lia)).
Qed.
(** * The loop of the wrapper *)
Definition holds (w : list (option change)) (ci n : nat) (rest : list change) : Prop :=
  firstn (n - ci) (skipn ci w) = map Some rest /\ length rest = n - ci.
Lemma holds_cons : forall w ci n c rest, holds w ci n (c :: rest) ->
  nth_error w ci = Some (Some c) /\ exists w', set_nth w ci None = Some w' /\ length w' = length w /\ holds w' (ci + 1) n rest.
Proof.
  intros w ci n c rest [H1 H2]. cbn [length] in H2.
  assert (E : nth_error w ci = Some (Some c)).
  { replace ci with (ci + 0) by lia.
    rewrite <- (firstn_skipn ci w) at 1.
    assert (L : ci < length w).
    { destruct (Nat.lt_ge_cases ci (length w)) as [L | L]; [exact L |].
      rewrite skipn_all2 in H1 by lia. rewrite firstn_nil in H1. discriminate H1. }
    rewrite nth_error_app2 by (rewrite firstn_length; lia).
    rewrite firstn_length. replace (ci + 0 - Nat.min ci (length w)) with 0 by lia.
    destruct (skipn ci w) as [| x l]; destruct (n - ci); try discriminate; cbn in H1.
    injection H1 as Hx _. cbn. rewrite Hx. reflexivity. }
  split; [exact E |].
  assert (L : ci < length w) by (apply nth_error_Some; rewrite E; discriminate).
  destruct (set_nth_some w ci None L) as [w' S']. rewrite S'.
  exists w'. split; [reflexivity |]. split; [eapply set_nth_length; exact S' |].
  split; [| lia].
  assert (K : skipn (ci + 1) w' = skipn (ci + 1) w).
  { apply nth_error_ext. intros i. rewrite !nth_error_skipn_add.
    apply (set_nth_other _ _ _ _ _ S'). lia. }
  rewrite K.
  assert (Q : skipn ci w = Some c :: skipn (ci + 1) w).
  { clear - E. revert ci E. induction w as [| x w IH]; intros [| ci] E; cbn in *; try discriminate.
    - injection E as ->. reflexivity.
    - apply IH. exact E. }
  rewrite Q in H1. replace (n - ci) with (S (n - (ci + 1))) in H1 by lia. cbn [firstn map] in H1.
  injection H1. auto.
Qed.

Fixpoint sorted (l : list change) : Prop :=
  match l with [] => True | c :: l' => (forall c', In c' l' -> tm c <= tm c') /\ sorted l' end.
Lemma in_time_order_sorted : forall l, in_time_order l -> sorted l.
Proof.
  induction l as [| c l IH]; intros H; [exact I |]. destruct H as [H1 H2]. specialize (IH H2).
  split; [| exact IH].
  destruct l as [| c1 l]; [intros c' [] |].
  intros c' [<- | Hc].
  - unfold tm. lia.
  - destruct IH as [K _]. specialize (K c' Hc). unfold tm in *. lia.
Qed.

Lemma changes_loop_spec : forall k fr bi ci n rest st w loc,
  k = n - ci -> holds w ci n rest -> sorted rest ->
  exists l1 l2 w' ci' loc',
    changes_loop u k (mk_meta 0 fr) bi ci st w loc = Some (apply_all u l1 st, w', ci', loc') /\
    rest = l1 ++ l2 /\ (forall c, In c l1 -> tm c <= bi) /\ (forall c, In c l2 -> bi < tm c) /\ sorted l2 /\
    holds w' ci' n l2 /\ length w' = length w /\
    loc' = match l2 with [] => loc | c :: _ => Nat.min loc (tm c - bi) end.
Proof.
  induction k as [| k IH]; intros fr bi ci n rest st w loc Hk Hw Hs.
  - destruct rest as [| c rest]; [| destruct Hw as [_ Hl]; cbn [length] in Hl; lia].
    exists [], [], w, ci, loc. cbn. repeat split; try tauto; try exact I; try (destruct Hw; assumption).
  - destruct rest as [| c rest]; [destruct Hw as [_ Hl]; cbn [length] in Hl; lia |].
    destruct (holds_cons _ _ _ _ _ Hw) as [E (w' & S' & L' & H')].
    cbn [changes_loop]. rewrite E. cbn [bind]. destruct c as [[d i] v] eqn:Ec. cbn [m_offset].
    destruct (N.to_nat d <=? bi + 0) eqn:D.
    + apply Nat.leb_le in D. rewrite S'. cbn [bind].
      destruct (IH fr bi (ci + 1) n rest (u_apply u i v st) w' loc ltac:(lia) H' (proj2 Hs))
        as (l1 & l2 & w2 & ci2 & loc2 & R1 & R2 & R3 & R4 & R5 & R6 & R7 & R8).
      exists ((d, i, v) :: l1), l2, w2, ci2, loc2.
      split; [exact R1 |]. split; [rewrite R2; reflexivity |].
      split; [intros c' [<- | Hc]; [unfold tm; cbn; lia | apply R3; exact Hc] |].
      repeat split; try assumption; try (destruct R6; assumption). rewrite R7. exact L'.
    + apply Nat.leb_gt in D.
      exists [], ((d, i, v) :: rest), w, ci, (Nat.min loc (N.to_nat d - 0 - bi)).
      split; [reflexivity |]. split; [reflexivity |]. split; [intros c' [] |].
      split.
      { intros c' [<- | Hc]; [unfold tm; cbn; lia |]. pose proof (proj1 Hs c' Hc) as Q. unfold tm in Q at 1. cbn in Q. lia. }
      split; [exact Hs |]. split; [exact Hw |]. split; [reflexivity |]. unfold tm. cbn. f_equal. lia.
Qed.

Lemma precise_loop_spec : forall fuel bs n bi ci rest st w ib iv ob ov,
  bs - bi + 1 < fuel -> bi <= bs -> holds w ci n rest -> sorted rest ->
  (forall c, In c rest -> bi <= tm c < bs) ->
  exists w', length w' = length w /\
    precise_loop zero u fuel (mk_meta 0 bs) n bi ci st w ib iv ob ov =
    option_map (fun r => (fst r, w', snd r)) (timed (bs - bi) bi rest st ib iv ob ov).
Proof.
  induction fuel as [| fuel IH]; intros bs n bi ci rest st w ib iv ob ov Hf Hb Hw Hs Hr; [lia |].
  cbn [precise_loop]. cbn [m_frames].
  destruct (changes_loop_spec _ bs bi ci n rest st w (bs - bi) eq_refl Hw Hs)
    as (l1 & l2 & w1 & ci1 & loc & R1 & R2 & R3 & R4 & R5 & R6 & R7 & R8).
  rewrite R1. cbn [bind].
  destruct (bs <=? bi) eqn:B.
  - apply Nat.leb_le in B. exists w1. split; [exact R7 |].
    replace (bs - bi) with 0 by lia. cbn [PreciseSpec.timed option_map fst snd].
    assert (Z : rest = []). { destruct rest as [| c rest]; [reflexivity |]. specialize (Hr c (or_introl eq_refl)). lia. }
    subst rest. symmetry in Z. destruct l1; [reflexivity | discriminate Z].
  - apply Nat.leb_gt in B.
    assert (Hloc : 0 < loc <= bs - bi /\ forall c, In c l2 -> bi + loc <= tm c).
    { destruct l2 as [| c l2]; [subst loc; split; [lia | intros c []] |].
      specialize (R4 c (or_introl eq_refl)) as R4c.
      assert (Hc : bi <= tm c < bs) by (apply Hr; rewrite R2; apply in_or_app; right; left; reflexivity).
      split; [lia |]. intros c' [<- | Hc']; [lia |]. pose proof (proj1 R5 c' Hc'). lia. }
    destruct Hloc as [Hl1 Hl2].
    assert (X : (if loc =? bs then ugen_block zero u (mk_meta 0 bs) (apply_all u l1 st) ib iv ob ov
                 else ugen_block zero u (make_partial (mk_meta 0 bs) bi loc) (apply_all u l1 st) ib ((bi, loc) :: iv) ob ((bi, loc) :: ov))
                = frames loc bi (apply_all u l1 st) ib iv ob ov).
    { destruct (loc =? bs) eqn:Q.
      - apply Nat.eqb_eq in Q. unfold ugen_block. cbn [m_frames]. f_equal; lia.
      - unfold ugen_block. cbn [m_frames make_partial]. rewrite frames_window. reflexivity. }
    rewrite X. rewrite R2.
    rewrite timed_first; [| intros c Hc; pose proof (R3 c Hc); pose proof (Hr c); rewrite R2 in *; specialize (H0 (in_or_app _ _ _ (or_introl Hc))); lia | exact R4 | lia].
    assert (Q : bs - bi = loc + (bs - (bi + loc))) by lia. rewrite Q. clear Q.
    rewrite timed_no_changes by exact Hl2.
    destruct (frames loc bi (apply_all u l1 st) ib iv ob ov) as [[st2 ob2] |].
    + cbn [bind fst snd].
      destruct (IH bs n (bi + loc) ci1 l2 st2 w1 ib iv ob2 ov) as (w' & L & E); try assumption; try lia.
      { intros c Hc. split; [apply Hl2; exact Hc |]. apply Hr. rewrite R2. apply in_or_app. right. exact Hc. }
      exists w'. split; [lia |]. exact E.
    + exists w1. split; [exact R7 | reflexivity].
Qed.

(** * The changes before a block *)
Definition fresh (timed_params : nat -> bool) (slots : nat) (p : precise V St) : Prop :=
  length (p_wait p) = slots /\ length (p_delay p) = u_params u /\
  forall i, timed_params i = false -> i < u_params u -> nth_error (p_delay p) i = Some 0%N.
Definition instant (es : list change) : list change := filter (fun e => negb (0 <? fst (fst e))%N) es.

Lemma precise_events_spec : forall tp slots es p done_,
  fresh tp slots p -> firstn (p_n p) (p_wait p) = map Some done_ -> length done_ = p_n p ->
  p_n p + length (delayed es) <= slots -> offsets_stated tp es -> (forall d i v, In (d, i, v) es -> i < u_params u) ->
  exists p', precise_events u p es = Some p' /\ fresh tp slots p' /\ p_st p' = apply_all u (instant es) (p_st p) /\
    p_n p' = length (done_ ++ delayed es) /\ firstn (p_n p') (p_wait p') = map Some (done_ ++ delayed es).
Proof.
  intros tp slots es. induction es as [| [[d i] v] es IH]; intros p dn (F1 & F2 & F3) Hd Hn Hc Ho Hi.
  - exists p. cbn. rewrite app_nil_r. repeat split; auto.
  - cbn [precise_events]. unfold precise_event.
    assert (Hiu : i < u_params u) by (apply (Hi d i v); left; reflexivity).
    assert (Htp : (0 <? d)%N = tp i) by (apply (Ho d i v); left; reflexivity).
    assert (Ho' : offsets_stated tp es) by (intros d' i' v' H; apply (Ho d' i' v'); right; exact H).
    assert (Hi' : forall d i v, In (d, i, v) es -> i < u_params u) by (intros d' i' v' H; apply (Hi d' i' v'); right; exact H).
    unfold delayed, instant in *. cbn [filter fst] in Hc |- *.
    destruct (0 <? d)%N eqn:D; cbn [negb] in Hc |- *.
    + apply N.ltb_lt in D. unfold precise_set_delay.
      destruct (set_nth_some (p_delay p) i d ltac:(lia)) as [dl Sd]. rewrite Sd. cbn [bind].
      unfold precise_apply. cbn [p_delay p_n p_wait p_st]. rewrite (set_nth_same _ _ _ _ Sd). cbn [bind].
      replace (d =? 0)%N with false by (symmetry; apply N.eqb_neq; lia).
      cbn [length] in Hc. replace (p_n p <? length (p_wait p)) with true by (symmetry; apply Nat.ltb_lt; lia).
      destruct (set_nth_some (p_wait p) (p_n p) (Some (d, i, v)) ltac:(lia)) as [w Sw]. rewrite Sw. cbn [bind].
      destruct (IH (mk_precise (p_st p) w dl (p_n p + 1)) (dn ++ [(d, i, v)])) as (p' & E & Q1 & Q2 & Q3 & Q4).
      * split; [| split]; cbn [p_wait p_delay].
        -- rewrite (set_nth_length _ _ _ _ Sw). exact F1.
        -- rewrite (set_nth_length _ _ _ _ Sd). exact F2.
        -- intros j Hj Hju. rewrite (set_nth_other _ _ _ _ _ Sd); [apply F3; assumption |]. intros ->. congruence.
      * cbn [p_n p_wait]. rewrite map_app. cbn [map].
        rewrite <- Hd.
        assert (K : nth_error w (p_n p) = Some (Some (d, i, v))) by (apply (set_nth_same _ _ _ _ Sw)).
        apply nth_error_ext. intros j.
        destruct (Nat.lt_ge_cases j (p_n p + 1)) as [Lj | Lj].
        2:{ rewrite !(proj2 (nth_error_None _ _)); [reflexivity | |].
            - rewrite app_length, firstn_length. cbn [length]. lia.
            - rewrite firstn_length. lia. }
        rewrite nth_error_firstn_lt by lia.
        destruct (Nat.eq_dec j (p_n p)) as [-> | Nj].
        -- rewrite nth_error_app2 by (rewrite firstn_length; lia). rewrite firstn_length.
           replace (p_n p - Nat.min (p_n p) (length (p_wait p))) with 0 by lia. exact K.
        -- rewrite nth_error_app1 by (rewrite firstn_length; lia).
           rewrite nth_error_firstn_lt by lia. apply (set_nth_other _ _ _ _ _ Sw). lia.
      * cbn [p_n]. rewrite app_length. cbn [length]. lia.
      * cbn [p_n]. lia.
      * exact Ho'.
      * exact Hi'.
      * exists p'. split; [exact E |]. split; [exact Q1 |]. split; [exact Q2 |].
        rewrite <- app_assoc in Q3, Q4. split; [exact Q3 | exact Q4].
    + cbn [bind]. unfold precise_apply. rewrite (F3 i (eq_sym Htp) Hiu). cbn [bind].
      change ((0 =? 0)%N) with true. cbv iota. cbn [bind].
      destruct (IH (mk_precise (u_apply u i v (p_st p)) (p_wait p) (p_delay p) (p_n p)) dn) as (p' & E & Q1 & Q2 & Q3 & Q4); try assumption.
      { split; [| split]; assumption. }
      exists p'. split; [exact E |]. split; [exact Q1 |]. split; [| split; assumption].
      rewrite Q2. reflexivity.
Qed.

Lemma due0_instant : forall es, due 0 (es : list change) = instant es.
Proof.
  intros es. unfold due, instant. apply filter_ext. intros [[d i] v]. cbn.
  destruct (Nat.eqb_spec (N.to_nat d) 0); destruct (N.ltb_spec 0 d); cbn; try reflexivity; lia.
Qed.
Lemma due_delayed : forall t es, 0 < t -> due t (delayed es : list change) = due t es.
Proof.
  intros t es Ht. unfold due, delayed. induction es as [| [[d i] v] es IH]; [reflexivity |].
  cbn [filter fst]. destruct (0 <? d)%N eqn:D; cbn [filter fst].
  - rewrite IH. reflexivity.
  - apply N.ltb_ge in D. replace (N.to_nat d =? t) with false by (symmetry; apply Nat.eqb_neq; lia). exact IH.
Qed.
Lemma timed_instant : forall bs es st ib iv ob ov, 0 < bs ->
  timed bs 0 es st ib iv ob ov = timed bs 0 (delayed es) (apply_all u (instant es) st) ib iv ob ov.
Proof.
  intros bs es st ib iv ob ov Hb. destruct bs as [| bs]; [lia |]. cbn [PreciseSpec.timed].
  rewrite due0_instant, (due_none 0 (delayed es)).
  2:{ intros c Hc. unfold delayed in Hc. apply filter_In in Hc as [_ Hc]. apply N.ltb_lt in Hc. unfold tm. lia. }
  unfold apply_all at 2 4. cbn [fold_left].
  destruct (read_frame zero ib iv 0 (u_ins u)); [| reflexivity]. cbn [bind].
  destruct (write_frame ob ov 0 (u_outs u) _); [| reflexivity]. cbn [bind].
  apply timed_ext. intros t' Ht. symmetry. apply due_delayed. lia.
Qed.

Lemma block_spec : forall tp slots bs es p ib ob,
  0 < bs -> fresh tp slots p -> p_n p = 0 -> block_ok u bs slots es -> offsets_stated tp es ->
  exists p1, precise_events u p es = Some p1 /\
    match timed bs 0 es (p_st p) ib [] ob [] with
    | None => precise_block zero u (mk_meta 0 bs) p1 ib [] ob [] = None
    | Some (st, ob') => exists p2, precise_block zero u (mk_meta 0 bs) p1 ib [] ob [] = Some (p2, ob') /\
        p_st p2 = st /\ fresh tp slots p2 /\ p_n p2 = 0
    end.
Proof.
  intros tp slots bs es p ib ob Hbs Hf Hn (B1 & B2 & B3) Ho.
  destruct (precise_events_spec tp slots es p []) as (p1 & E & Q1 & Q2 & Q3 & Q4); try assumption.
  { rewrite Hn. reflexivity. } { rewrite Hn. reflexivity. } { rewrite Hn. exact B1. }
  { intros d i v Hin. apply (B3 d i v Hin). }
  exists p1. split; [exact E |].
  rewrite timed_instant by exact Hbs. rewrite <- Q2.
  unfold precise_block. cbn [app] in Q3, Q4. cbn [m_frames].
  destruct (precise_loop_spec (bs + 2) bs (p_n p1) 0 0 (delayed es) (p_st p1) (p_wait p1) ib [] ob []) as (w' & L & R); try lia.
  { split; [| lia]. cbn [skipn]. rewrite Nat.sub_0_r. exact Q4. }
  { apply in_time_order_sorted. exact B2. }
  { intros [[d i] v] Hc. unfold delayed in Hc. apply filter_In in Hc as [Hc _]. specialize (B3 d i v Hc). unfold tm. cbn. lia. }
  rewrite R. rewrite Nat.sub_0_r. destruct (timed bs 0 (delayed es) (p_st p1) ib [] ob []) as [[st ob'] |]; [| reflexivity].
  cbn [option_map bind fst snd].
  exists (mk_precise st w' (p_delay p1) 0). split; [reflexivity |]. split; [reflexivity |]. split; [| reflexivity].
  destruct Q1 as (G1 & G2 & G3). split; [cbn [p_wait]; lia |]. split; [exact G2 | exact G3].
Qed.

Lemma run_spec : forall tp slots bs l p ob,
  0 < bs -> fresh tp slots p -> p_n p = 0 ->
  (forall es ib, In (es, ib) l -> block_ok u bs slots es /\ offsets_stated tp es) ->
  option_map (fun r => (p_st (fst r), snd r)) (precise_run zero u bs p l ob) = ideal_run zero u bs (p_st p) l ob.
Proof.
  intros tp slots bs l. induction l as [| [es ib] l IH]; intros p ob Hbs Hf Hn Hl; [reflexivity |].
  cbn [precise_run ideal_run].
  destruct (Hl es ib (or_introl eq_refl)) as [B O].
  destruct (block_spec tp slots bs es p ib ob Hbs Hf Hn B O) as (p1 & E & R). rewrite E. cbn [bind].
  destruct (timed bs 0 es (p_st p) ib [] ob []) as [[st ob'] |].
  - destruct R as (p2 & R & S1 & S2 & S3). rewrite R. cbn [bind fst snd].
    specialize (IH p2 ob Hbs S2 S3 (fun es ib H => Hl es ib (or_intror H))). rewrite S1 in IH. rewrite <- IH.
    destruct (precise_run zero u bs p2 l ob) as [[p3 obs] |]; reflexivity.
  - rewrite R. reflexivity.
Qed.
End Proofs.
