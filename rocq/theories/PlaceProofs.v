(** Placing the outputs of the nodes: what is still to be read is never overwritten. *)
From Verif Require Import Base GraphModel OrderModel AllocModel AllocProofs.
Local Open Scope nat_scope.

Definition cnt (l : list key) (s : key) : nat := count_occ Nat.eq_dec l s.
Lemma cnt_In l s : 0 < cnt l s <-> In s l.
Proof. unfold cnt. rewrite (count_occ_In Nat.eq_dec). lia. Qed.
Lemma cnt_cons l t s : cnt (t :: l) s = (if t =? s then 1 else 0) + cnt l s.
Proof. unfold cnt. cbn. destruct (Nat.eq_dec t s), (Nat.eqb_spec t s); lia. Qed.
Lemma cnt_app l1 l2 s : cnt (l1 ++ l2) s = cnt l1 s + cnt l2 s.
Proof. apply count_occ_app. Qed.

Section Place.
Variable g : graph.
Variable bs : nat.
Hypothesis Hbs : 0 < bs.
(** Whoever is read has an output. *)
Hypothesis Hout : forall s n, 0 < dependents g s -> lookup g s = Some n -> 0 < n_outputs n.

Record pinv (a : alloc) (outs : key -> nout) (done rem : list key) (ix : key -> nat) : Prop := {
  p_lay : lay a;
  p_zero : exists b, nth_error (a_blocks a) 0 = Some b /\ b_start b = 0 /\ b_len b = bs /\
    (N.of_nat (List.length rem) < b_borrows b)%N;
  p_done : forall s, In s done -> exists n b, lookup g s = Some n /\ nth_error (a_blocks a) (ix s) = Some b /\
    outs s = Off (b_start b) /\ n_outputs n * bs <= b_len b /\ ix s <> 0 /\ (N.of_nat (cnt rem s) <= b_borrows b)%N;
  p_undone : forall s, ~ In s done -> outs s = Ptr \/ outs s = Off 0;
  p_live : forall l1 s l2 y, done = l1 ++ s :: l2 -> In y l2 -> 0 < cnt rem s -> ix y <> ix s;
  p_final : forall l1 s l2, done = l1 ++ s :: l2 -> dependents g s = 0 ->
    ~ In (ix s) (a_ret a) /\ forall y, In y l2 -> ix y <> ix s;
  p_cnt : forall s, cnt rem s <= dependents g s;
  p_empty : forall i b, nth_error (a_blocks a) i = Some b -> b_len b = 0 -> b_borrows b = 0%N /\ ~ In i (a_ret a) }.

Lemma last_split {A} (done : list A) k l1 s l2 : done ++ [k] = l1 ++ s :: l2 ->
  (l1 = done /\ s = k /\ l2 = []) \/ exists l2', l2 = l2' ++ [k] /\ done = l1 ++ s :: l2'.
Proof.
  intros E. destruct (exists_last (l := s :: l2)) as (l & x & El); [discriminate|].
  rewrite El, app_assoc in E. apply app_inj_tail in E as [E ->]. destruct l as [|y l]; cbn in El.
  - injection El as -> ->. left. rewrite app_nil_r in E. auto.
  - injection El as <- ->. right. exists l. auto.
Qed.

Definition ixup (ix : key -> nat) (k : key) (i : nat) : key -> nat := fun k' => if k' =? k then i else ix k'.

(** Granting a block to the next node. *)
Lemma get_step a outs done rem ix k n a' off : pinv a outs done rem ix -> ~ In k done -> lookup g k = Some n ->
  get_block a (n_outputs n) bs (N.of_nat (dependents g k)) = Some (a', off) ->
  exists i, pinv a' (upd outs k (Off off)) (done ++ [k]) rem (ixup ix k i).
Proof.
  intros Hp Hk El H. destruct (get_spec a (n_outputs n) bs (N.of_nat (dependents g k)) (p_lay _ _ _ _ _ Hp))
    as (a2 & off2 & E & Hl & Hsz & Hnx & Hv & i & len & Hi & Hlen & Ho & Hcase).
  rewrite H in E. injection E as <- <-. exists i.
  assert (Hne : forall s, In s done -> 0 < cnt rem s -> ix s <> i).
  { intros s Hs Hc E. destruct (p_done _ _ _ _ _ Hp s Hs) as (m & b & _ & Hb & _ & _ & _ & Hbo).
    destruct Hcase as [(-> & _ & _)|(_ & (b' & Hb' & _ & _ & Hz) & _)].
    - rewrite E in Hb. assert (Hlt : List.length (a_blocks a) < List.length (a_blocks a)) by (apply nth_error_Some; congruence). lia.
    - rewrite E, Hb' in Hb. injection Hb as <-. lia. }
  assert (Hi0 : i <> 0).
  { intros ->. destruct (p_zero _ _ _ _ _ Hp) as (b & Hb & _ & _ & Hbo).
    destruct Hcase as [(E & _ & _)|(_ & (b' & Hb' & _ & _ & Hz) & _)].
    - assert (Hlt : 0 < List.length (a_blocks a)) by (apply nth_error_Some; congruence). lia.
    - rewrite Hb' in Hb. injection Hb as <-. lia. }
  assert (Hfin : forall s, In s done -> ~ In (ix s) (a_ret a) -> ix s <> i).
  { intros s Hs Hr E. destruct (p_done _ _ _ _ _ Hp s Hs) as (m & b & _ & Hb & _).
    destruct Hcase as [(-> & _ & _)|(Hin & _ & _)]; [|congruence].
    rewrite E in Hb. assert (Hlt : List.length (a_blocks a) < List.length (a_blocks a)) by (apply nth_error_Some; congruence). lia. }
  assert (Hretsub : forall x, In x (a_ret a') -> In x (a_ret a) /\ x <> i).
  { intros x Hx. destruct Hcase as [(-> & _ & Hr)|(_ & _ & Hr)]; [|apply Hr; exact Hx].
    rewrite Hr in Hx. split; [exact Hx|]. intros ->. destruct (la_ret a (p_lay _ _ _ _ _ Hp) _ Hx) as (b & Hb & _).
    assert (Hlt : List.length (a_blocks a) < List.length (a_blocks a)) by (apply nth_error_Some; congruence). lia. }
  assert (Hupk : ixup ix k i k = i) by (unfold ixup; rewrite Nat.eqb_refl; reflexivity).
  assert (Hupo : forall s, In s done -> ixup ix k i s = ix s /\ upd outs k (Off off) s = outs s).
  { intros s Hs. unfold ixup, upd. destruct (Nat.eqb_spec s k) as [->|_]; [contradiction|auto]. }
  constructor.
  - exact Hl.
  - rewrite Ho by congruence. exact (p_zero _ _ _ _ _ Hp).
  - intros s Hs. apply in_app_or in Hs as [Hs|[<-|[]]].
    + destruct (Hupo s Hs) as [-> ->]. destruct (p_done _ _ _ _ _ Hp s Hs) as (m & b & A1 & A2 & A3 & A4 & A5 & A6).
      destruct (Nat.eq_dec (ix s) i) as [E|E].
      * assert (Hc : cnt rem s = 0). { destruct (Nat.eq_dec (cnt rem s) 0) as [|Hc]; [assumption|]. exfalso. apply (Hne s Hs); [lia|exact E]. }
        destruct Hcase as [(-> & _ & _)|(_ & (b' & Hb' & Hs' & Hl' & _) & _)].
        { rewrite E in A2. assert (Hlt : List.length (a_blocks a) < List.length (a_blocks a)) by (apply nth_error_Some; congruence). lia. }
        rewrite E in *. rewrite Hb' in A2. injection A2 as <-.
        exists m, (mk_blk off len (N.of_nat (dependents g k))). cbn. rewrite Hc.
        split; [exact A1|]. split; [exact Hi|]. split; [congruence|]. split; [congruence|]. split; [exact A5|]. lia.
      * exists m, b. rewrite Ho by exact E. repeat (split; [assumption|]). assumption.
    + rewrite Hupk. exists n, (mk_blk off len (N.of_nat (dependents g k))). cbn. split; [exact El|]. split; [exact Hi|].
      split; [unfold upd; rewrite Nat.eqb_refl; reflexivity|]. split; [exact Hlen|]. split; [exact Hi0|].
      pose proof (p_cnt _ _ _ _ _ Hp k). lia.
  - intros s Hs. rewrite in_app_iff in Hs. unfold upd. destruct (Nat.eqb_spec s k) as [->|_].
    + exfalso. apply Hs. right. left. reflexivity.
    + apply (p_undone _ _ _ _ _ Hp). tauto.
  - intros l1 s l2 y E Hy Hc. apply last_split in E as [(-> & -> & ->)|(l2' & -> & E)]; [destruct Hy|].
    assert (Hs : In s done) by (rewrite E; apply in_or_app; right; left; reflexivity).
    destruct (Hupo s Hs) as [-> _]. apply in_app_or in Hy as [Hy|[<-|[]]].
    + assert (Hyd : In y done) by (rewrite E; apply in_or_app; right; right; exact Hy).
      destruct (Hupo y Hyd) as [-> _]. eapply (p_live _ _ _ _ _ Hp); eauto.
    + rewrite Hupk. intros E'. apply (Hne s Hs Hc). congruence.
  - intros l1 s l2 E Hd. apply last_split in E as [(-> & -> & ->)|(l2' & -> & E)].
    + rewrite Hupk. split; [|intros y []]. intros Hx. apply Hretsub in Hx as [_ Hx]. congruence.
    + assert (Hs : In s done) by (rewrite E; apply in_or_app; right; left; reflexivity).
      destruct (Hupo s Hs) as [-> _]. destruct (p_final _ _ _ _ _ Hp _ _ _ E Hd) as [F1 F2].
      split; [intros Hx; apply Hretsub in Hx as [Hx _]; contradiction|].
      intros y Hy. apply in_app_or in Hy as [Hy|[<-|[]]].
      * assert (Hyd : In y done) by (rewrite E; apply in_or_app; right; right; exact Hy).
        destruct (Hupo y Hyd) as [-> _]. auto.
      * rewrite Hupk. intros E'. apply (Hfin s Hs F1). congruence.
  - exact (p_cnt _ _ _ _ _ Hp).
  - intros j b Hb Hz. destruct (Nat.eq_dec j i) as [->|Hji].
    + rewrite Hi in Hb. injection Hb as <-. cbn in *. subst len. split.
      * assert (n_outputs n = 0) by nia.
        destruct (Nat.eq_dec (dependents g k) 0) as [Ed|Ed]; [rewrite Ed; reflexivity|]. pose proof (Hout k n). lia.
      * intros Hx. apply Hretsub in Hx as [_ Hx]. congruence.
    + rewrite Ho in Hb by exact Hji. destruct (p_empty _ _ _ _ _ Hp j b Hb Hz) as [Z1 Z2].
      split; [exact Z1|]. intros Hx. apply Hretsub in Hx as [Hx _]. contradiction.
Qed.

Lemma split_two (done : list key) s t : In s done -> In t done -> s <> t ->
  (exists l1 l2, done = l1 ++ s :: l2 /\ In t l2) \/ (exists l1 l2, done = l1 ++ t :: l2 /\ In s l2).
Proof.
  intros Hs Ht Hne. apply in_split in Hs as (l1 & l2 & ->). apply in_app_or in Ht as [Ht|[Ht|Ht]].
  - right. apply in_split in Ht as (m1 & m2 & ->). exists m1, (m2 ++ s :: l2). rewrite <- app_assoc. split; [reflexivity|].
    apply in_or_app. right. left. reflexivity.
  - congruence.
  - left. eauto.
Qed.

(** Returning one borrow. *)
Lemma return_step a outs done s rem ix : pinv a outs done (s :: rem) ix ->
  let r := match outs s with Off o => return_block a o | Ptr => Some a end in
  (forall a', r = Some a' -> pinv a' outs done rem ix /\
     (forall i b, nth_error (a_blocks a') i = Some b -> exists c, nth_error (a_blocks a) i = Some c /\ b_len c = b_len b)) /\
  ((forall i b, nth_error (a_blocks a) i = Some b -> 0 < b_len b) -> exists a', r = Some a').
Proof.
  intros Hp r.
  assert (Hdep : 0 < dependents g s).
  { pose proof (p_cnt _ _ _ _ _ Hp s) as H. rewrite cnt_cons, Nat.eqb_refl in H. lia. }
  assert (Hcnt' : forall t, cnt rem t <= dependents g t).
  { intros t. pose proof (p_cnt _ _ _ _ _ Hp t) as H. rewrite cnt_cons in H. lia. }
  destruct (p_zero _ _ _ _ _ Hp) as (b0 & Z1 & Z2 & Z3 & Z4).
  assert (Hsame : pinv a outs done rem ix).
  { constructor; try apply Hp.
    - exists b0. cbn [List.length] in Z4. repeat (split; [assumption|]). lia.
    - intros t Ht. destruct (p_done _ _ _ _ _ Hp t Ht) as (n & b & A1 & A2 & A3 & A4 & A5 & A6).
      exists n, b. rewrite cnt_cons in A6. repeat (split; [assumption|]). lia.
    - intros l1 t l2 y E Hy Hc. apply (p_live _ _ _ _ _ Hp l1 t l2 y E Hy). rewrite cnt_cons. lia.
    - exact Hcnt'. }
  destruct (in_dec Nat.eq_dec s done) as [Hs|Hs].
  - destruct (p_done _ _ _ _ _ Hp s Hs) as (n & b & A1 & A2 & A3 & A4 & A5 & A6).
    assert (Hlen : 0 < b_len b) by (pose proof (Hout s n Hdep A1); nia).
    assert (Hbo : (0 < b_borrows b)%N) by (rewrite cnt_cons, Nat.eqb_refl in A6; lia).
    subst r. rewrite A3. split.
    + intros a' Hr. destruct (return_cases _ _ _ Hr) as [[_ Hno]|(i & c & Hc & Hcs & Hcb & Hfirst & Ht & Hret)].
      { exfalso. exact (Hno _ _ A2 eq_refl). }
      assert (i = ix s).
      { destruct (start_inj a _ i b c (p_lay _ _ _ _ _ Hp) A2 Hc Hlen Hcs) as [E|[_ Hz]]; [exact E|].
        destruct (p_empty _ _ _ _ _ Hp i c Hc Hz) as [Z _]. lia. }
      subst i. rewrite A2 in Hc. injection Hc as <-.
      split; [|intros j d Hd; destruct (touched_back _ _ _ _ Ht j d Hd) as (e & E1 & _ & E3 & _); eauto].
      assert (Hshare : forall t, In t done -> ix t = ix s -> t <> s -> cnt rem t = 0).
      { intros t Htd E Hne. destruct (split_two done s t Hs Htd (not_eq_sym Hne)) as [(l1 & l2 & El & Hin)|(l1 & l2 & El & Hin)].
        - exfalso. apply (p_live _ _ _ _ _ Hp l1 s l2 t El Hin); [rewrite cnt_cons, Nat.eqb_refl; lia|exact E].
        - destruct (Nat.eq_dec (cnt rem t) 0) as [|Hc]; [assumption|]. exfalso.
          apply (p_live _ _ _ _ _ Hp l1 t l2 s El Hin); [rewrite cnt_cons; lia|congruence]. }
      assert (Hl' : lay a') by (eapply return_lay; [exact (p_lay _ _ _ _ _ Hp)|exact Hr]).
      assert (Hretin : forall x, In x (a_ret a') -> x = ix s \/ In x (a_ret a)).
      { intros x Hx. rewrite Hret in Hx. destruct (b_borrows b - 1 =? 0)%N; [destruct Hx as [<-|Hx]; auto|auto]. }
      pose proof Ht as Ht0. destruct Ht as (T1 & T2 & T3 & (b' & B1 & B2) & T5). rewrite A2 in B1. injection B1 as <-.
      constructor; [exact Hl'| | |exact (p_undone _ _ _ _ _ Hp)| | |exact Hcnt'|].
      * exists b0. rewrite T5 by congruence. cbn [List.length] in Z4. repeat (split; [assumption|]). lia.
      * intros t Htd. destruct (p_done _ _ _ _ _ Hsame t Htd) as (m & d & D1 & D2 & D3 & D4 & D5 & D6).
        destruct (Nat.eq_dec (ix t) (ix s)) as [E|E].
        -- rewrite E, A2 in D2. injection D2 as <-.
           exists m, (mk_blk (b_start b) (b_len b) (b_borrows b - 1)). cbn. rewrite E.
           repeat (split; [assumption|]).
           destruct (Nat.eq_dec t s) as [->|Hne].
           ++ rewrite cnt_cons, Nat.eqb_refl in A6. lia.
           ++ rewrite (Hshare t Htd E Hne). lia.
        -- exists m, d. rewrite T5 by exact E. repeat (split; [assumption|]). assumption.
      * exact (p_live _ _ _ _ _ Hsame).
      * intros l1 t l2 E Hd. destruct (p_final _ _ _ _ _ Hp l1 t l2 E Hd) as [F1 F2]. split; [|exact F2].
        intros Hx. apply Hretin in Hx as [Hx|Hx]; [|contradiction].
        assert (Htd : In t done) by (rewrite E; apply in_or_app; right; left; reflexivity).
        assert (Hne : t <> s) by (intros ->; lia).
        destruct (split_two done s t Hs Htd (not_eq_sym Hne)) as [(m1 & m2 & El & Hin)|(m1 & m2 & El & Hin)].
        -- apply (p_live _ _ _ _ _ Hp m1 s m2 t El Hin); [rewrite cnt_cons, Nat.eqb_refl; lia|exact Hx].
        -- destruct (p_final _ _ _ _ _ Hp m1 t m2 El Hd) as [_ F3]. exact (F3 s Hin (eq_sym Hx)).
      * intros j d Hd Hz. destruct (touched_back _ _ _ _ Ht0 j d Hd) as (e & E1 & _ & E3 & E4).
        assert (Hji : j <> ix s). { intros ->. rewrite A2 in E1. injection E1 as <-. lia. }
        rewrite <- (E4 Hji) in *. destruct (p_empty _ _ _ _ _ Hp j e E1 Hz) as [Q1 Q2]. split; [exact Q1|].
        intros Hx. apply Hretin in Hx as [Hx|Hx]; contradiction.
    + intros Hpos. eapply return_total; [exact A2|reflexivity|exact Hbo|]. intros j c Hj Hc E.
      destruct (start_inj a _ j b c (p_lay _ _ _ _ _ Hp) A2 Hc Hlen E) as [->|[_ Hz]]; [lia|].
      specialize (Hpos j c Hc). lia.
  - subst r. destruct (p_undone _ _ _ _ _ Hp s Hs) as [E|E]; rewrite E.
    { split; [intros a' H; injection H as <-; split; [exact Hsame|eauto]|eauto]. }
    split.
    + intros a' Hr. destruct (return_cases _ _ _ Hr) as [[-> _]|(i & c & Hc & Hcs & Hcb & Hfirst & Ht & Hret)].
      { split; [exact Hsame|eauto]. }
      assert (i = 0). { destruct i as [|i]; [reflexivity|]. exfalso. eapply (Hfirst 0); [lia|exact Z1|exact Z2]. }
      subst i. rewrite Z1 in Hc. injection Hc as <-.
      split; [|intros j d Hd; destruct (touched_back _ _ _ _ Ht j d Hd) as (e & E1 & _ & E3 & _); eauto].
      assert (Hl' : lay a') by (eapply return_lay; [exact (p_lay _ _ _ _ _ Hp)|exact Hr]).
      cbn [List.length] in Z4.
      assert (Hret' : a_ret a' = a_ret a). { rewrite Hret. destruct (N.eqb_spec (b_borrows b0 - 1) 0); [lia|reflexivity]. }
      pose proof Ht as Ht0. destruct Ht as (T1 & T2 & T3 & (b' & B1 & B2) & T5). rewrite Z1 in B1. injection B1 as <-.
      constructor; [exact Hl'| | |exact (p_undone _ _ _ _ _ Hp)|exact (p_live _ _ _ _ _ Hsame)| |exact Hcnt'|].
      * eexists. split; [exact B2|]. cbn. split; [exact Z2|]. split; [exact Z3|]. lia.
      * intros t Htd. destruct (p_done _ _ _ _ _ Hsame t Htd) as (m & d & D1 & D2 & D3 & D4 & D5 & D6).
        exists m, d. rewrite T5 by exact D5. repeat (split; [assumption|]). assumption.
      * rewrite Hret'. exact (p_final _ _ _ _ _ Hp).
      * intros j d Hd Hz. rewrite Hret'. destruct (touched_back _ _ _ _ Ht0 j d Hd) as (e & E1 & _ & E3 & E4).
        assert (Hji : j <> 0). { intros ->. rewrite Z1 in E1. injection E1 as <-. lia. }
        rewrite <- (E4 Hji) in *. exact (p_empty _ _ _ _ _ Hp j e E1 Hz).
    + intros _. eapply return_total; [exact Z1|exact Z2|cbn [List.length] in Z4; lia|]. intros j c Hj. lia.
Qed.

Definition all_pos (a : alloc) : Prop := forall i b, nth_error (a_blocks a) i = Some b -> 0 < b_len b.
Lemma return_all_step outs done ix : forall srcs a rem, pinv a outs done (srcs ++ rem) ix ->
  (forall a', return_all a outs srcs = Some a' -> pinv a' outs done rem ix /\ (all_pos a -> all_pos a')) /\
  (all_pos a -> exists a', return_all a outs srcs = Some a').
Proof.
  induction srcs as [|s srcs IH]; intros a rem Hp; cbn [return_all app] in *.
  { split; [intros a' H; injection H as <-; auto|eauto]. }
  destruct (return_step _ _ _ _ _ _ Hp) as [H1 H2].
  split.
  - intros a' H. destruct (match outs s with Ptr => Some a | Off o => return_block a o end) as [a1|] eqn:E;
      cbn [bind] in H; [|discriminate]. destruct (H1 a1 eq_refl) as [Hp1 Hl1].
    destruct (IH a1 rem Hp1) as [H3 _]. destruct (H3 a' H) as [Hp2 Hpos]. split; [exact Hp2|].
    intros Ha. apply Hpos. intros i b Hb. destruct (Hl1 i b Hb) as (c & Hc & <-). eapply Ha; eauto.
  - intros Ha. destruct (H2 Ha) as [a1 E]. rewrite E. cbn [bind]. destruct (H1 a1 E) as [Hp1 Hl1].
    apply (IH a1 rem Hp1). intros i b Hb. destruct (Hl1 i b Hb) as (c & Hc & <-). eapply Ha; eauto.
Qed.

(** Placement of the nodes of [done ++ order]: blocks of what is read are not granted again. *)
Lemma loop_step : forall order a outs done ix, pinv a outs done (flat_map (sources g) order) ix ->
  NoDup (done ++ order) ->
  forall a' outs', alloc_loop g bs a outs order = Some (a', outs') ->
  exists ix', pinv a' outs' (done ++ order) [] ix' /\ (forall s, In s done -> ix' s = ix s) /\
    forall m1 k m2, order = m1 ++ k :: m2 -> forall s, In s (sources g k) ->
      forall l1 l2, done ++ m1 ++ [k] = l1 ++ s :: l2 -> forall y, In y l2 -> ix' y <> ix' s.
Proof.
  induction order as [|k order IH]; intros a outs done ix Hp Hnd a' outs' H; cbn [alloc_loop] in H.
  { injection H as <- <-. exists ix. rewrite app_nil_r. cbn in Hp. split; [exact Hp|]. split; [auto|].
    intros m1 k m2 E. destruct m1; discriminate. }
  destruct (lookup g k) as [n|] eqn:El; cbn [bind] in H; [|discriminate].
  destruct (get_block a _ bs _) as [[a1 off]|] eqn:Eg; cbn [bind fst snd] in H; [|discriminate].
  destruct (edges_of g k); cbn [bind] in H; [|discriminate].
  destruct (pedges_of g k); cbn [bind] in H; [|discriminate].
  destruct (return_all a1 _ (sources g k)) as [a2|] eqn:Er; cbn [bind] in H; [|discriminate].
  assert (Hk : ~ In k done). { apply NoDup_remove_2 in Hnd. rewrite in_app_iff in Hnd. tauto. }
  destruct (get_step _ _ _ _ _ _ _ _ _ Hp Hk El Eg) as [i Hp1].
  cbn [flat_map] in Hp1. destruct (return_all_step _ _ _ _ _ _ Hp1) as [H1 _]. destruct (H1 _ Er) as [Hp2 _].
  replace (done ++ k :: order) with ((done ++ [k]) ++ order) in Hnd by (rewrite <- app_assoc; reflexivity).
  destruct (IH _ _ _ _ Hp2 Hnd _ _ H) as (ix' & Hp3 & Hix & Hh). exists ix'.
  replace (done ++ k :: order) with ((done ++ [k]) ++ order) by (rewrite <- app_assoc; reflexivity).
  split; [exact Hp3|]. split.
  - intros s Hs. rewrite Hix by (apply in_or_app; left; exact Hs). unfold ixup.
    destruct (Nat.eqb_spec s k) as [->|_]; [contradiction|reflexivity].
  - intros m1 k' m2 E s Hs l1 l2 E2 y Hy. destruct m1 as [|x m1]; cbn in E; injection E as <- E.
    + cbn [app] in E2.
      assert (In s (done ++ [k])) by (rewrite E2; apply in_or_app; right; left; reflexivity).
      assert (In y (done ++ [k])) by (rewrite E2; apply in_or_app; right; right; exact Hy).
      rewrite !Hix by assumption. eapply (p_live _ _ _ _ _ Hp1); [exact E2|exact Hy|].
      rewrite cnt_app. apply cnt_In in Hs. lia.
    + eapply (Hh m1 k' m2 E s Hs l1 l2); [|exact Hy]. rewrite <- app_assoc. exact E2.
Qed.
(** If every node has an output, placement never fails. *)
Lemma loop_total : (forall k n, lookup g k = Some n -> 0 < n_outputs n) -> forall order a outs done ix,
  pinv a outs done (flat_map (sources g) order) ix -> all_pos a -> NoDup (done ++ order) ->
  (forall k, In k order -> edges_of g k <> None /\ pedges_of g k <> None) ->
  exists r, alloc_loop g bs a outs order = Some r.
Proof.
  intros Hall. induction order as [|k order IH]; intros a outs done ix Hp Hpos Hnd Hlive; cbn [alloc_loop]; [eauto|].
  destruct (Hlive k) as [He Hpe]; [left; reflexivity|].
  destruct (edges_of g k) as [es|] eqn:E1; [|congruence]. destruct (pedges_of g k) as [ps|] eqn:E2; [|congruence].
  assert (exists n, lookup g k = Some n) as [n El]. { unfold edges_of in E1. destruct (lookup g k); [eauto|discriminate]. }
  rewrite El. cbn [bind].
  destruct (get_spec a (n_outputs n) bs (N.of_nat (dependents g k)) (p_lay _ _ _ _ _ Hp))
    as (a1 & off & Eg & Hl & Hsz & Hnx & Hv & i & len & Hi & Hlen & Ho & Hcase).
  rewrite Eg. cbn [bind fst snd].
  assert (Hk : ~ In k done). { apply NoDup_remove_2 in Hnd. rewrite in_app_iff in Hnd. tauto. }
  destruct (get_step _ _ _ _ _ _ _ _ _ Hp Hk El Eg) as [i' Hp1]. cbn [flat_map] in Hp1.
  assert (Hpos1 : all_pos a1).
  { intros j b Hb. destruct (Nat.eq_dec j i) as [->|Hne].
    - rewrite Hi in Hb. injection Hb as <-. cbn. specialize (Hall k n El). nia.
    - rewrite Ho in Hb by exact Hne. eapply Hpos; eauto. }
  destruct (return_all_step _ _ _ _ _ _ Hp1) as [H1 H2]. destruct (H2 Hpos1) as [a2 Er]. rewrite Er. cbn [bind].
  destruct (H1 _ Er) as [Hp2 Hpos2]. eapply (IH a2 _ (done ++ [k])); [exact Hp2|apply Hpos2; exact Hpos1| |].
  - rewrite <- app_assoc. exact Hnd.
  - intros x Hx. apply Hlive. right. exact Hx.
Qed.
End Place.
