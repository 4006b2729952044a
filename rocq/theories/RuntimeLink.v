(** UGens move along with the task lists: proofs for C21, for histories in which the ring buffer never overflows. *)
From Coq Require Import Sorted.
From Verif Require Import Base GraphModel GraphSpec GraphBase GraphPath GraphInv GraphShape GraphGrow OrderModel OrderSpec OrderProofs
  RuntimeModel RuntimeSpec RuntimeEvolve RuntimeSafe.
Local Open Scope nat_scope.

Definition cnt (k : key) (l : list key) : nat := count_occ Nat.eq_dec l k.
Lemma cnt_app k a b : cnt k (a ++ b) = cnt k a + cnt k b.
Proof. apply count_occ_app. Qed.
Lemma cnt_In k l : In k l <-> 0 < cnt k l.
Proof. unfold cnt. rewrite (count_occ_In Nat.eq_dec). lia. Qed.
Lemma cnt_not k l : ~ In k l <-> cnt k l = 0.
Proof. unfold cnt. apply count_occ_not_In. Qed.
Lemma cnt_nodup l : NoDup l <-> forall k, cnt k l <= 1.
Proof. unfold cnt. apply (NoDup_count_occ Nat.eq_dec). Qed.
Lemma cnt_cons k a l : cnt k (a :: l) = (if a =? k then 1 else 0) + cnt k l.
Proof. unfold cnt. cbn. destruct (Nat.eq_dec a k) as [->|Hne]; [rewrite Nat.eqb_refl; lia|]. apply Nat.eqb_neq in Hne. rewrite Hne. lia. Qed.
Arguments cnt : simpl never.
Local Arguments Nat.ltb : simpl never.
Local Arguments waiting : simpl never. Local Arguments running : simpl never. Local Arguments owners : simpl never.
Local Arguments released : simpl never. Local Arguments RuntimeSpec.expected : simpl never.
Lemma cnt_filter (P : key -> bool) l k : NoDup l -> cnt k (filter P l) = if existsb (Nat.eqb k) l && P k then 1 else 0.
Proof.
  induction l as [|a l IH]; intros H; [reflexivity|]. inversion H as [|? ? Hn Hd]; subst. cbn [filter existsb].
  destruct (Nat.eqb_spec k a) as [->|Hne]; cbn [orb andb].
  - assert (E : cnt a (filter P l) = 0).
    { rewrite IH by exact Hd. destruct (existsb (Nat.eqb a) l) eqn:E; [|reflexivity]. apply existsb_eqb_In in E. contradiction. }
    destruct (P a); [rewrite cnt_cons, Nat.eqb_refl; lia|exact E].
  - destruct (P a); [|apply IH; exact Hd]. rewrite cnt_cons. destruct (Nat.eqb_spec a k); [congruence|]. apply IH. exact Hd.
Qed.

Section Link.
Context {St X : Type}.
Variable init : key -> St.
Variable proc : X -> key -> St -> St.
Notation sys := (sys St X).
Notation rtd := (rtd St).
Notation r_keys := (r_keys St). Notation r_tasks := (r_tasks St). Notation r_seen := (r_seen St). Notation r_flag := (r_flag St).
Notation y_g := (y_g St X). Notation y_ug := (y_ug St X). Notation y_order := (y_order St X). Notation y_seen := (y_seen St X).
Notation y_ring := (y_ring St X). Notation y_trash := (y_trash St X). Notation y_applied := (y_applied St X).
Notation y_cur := (y_cur St X). Notation y_chunk := (y_chunk St X). Notation y_next := (y_next St X).
Notation y_started := (y_started St X). Notation y_reading := (y_reading St X). Notation y_trace := (y_trace St X).
Notation y_dead := (y_dead St X). Notation y_lost := (y_lost St X). Notation y_virgin := (y_virgin St X).
Notation y_held := (y_held St X). Notation y_cap := (y_cap St X). Notation y_dcap := (y_dcap St X).
Notation ystep := (ystep St X proc). Notation ycommit := (ycommit St X). Notation owned := (owned St).
Notation make_tasks := (make_tasks St). Notation take_all := (take_all St). Notation task := (key * tugen St)%type.
Notation expected := (expected init proc).

(** ** pieces *)
Definition taken (ts : list task) : list key := flat_map (fun t => match snd t with Take _ => [fst t] | _ => [] end) ts.
Lemma make_tasks_ug order : forall i ug, NoDup order ->
  (forall j k, nth_error order j = Some k -> snd (make_tasks i order ug) k = NLive (i + j)) /\
  (forall k, ~ In k order -> snd (make_tasks i order ug) k = ug k) /\
  fst (make_tasks i order ug) = map (fun k => (k, task_of St (ug k))) order.
Proof.
  induction order as [|k0 o IH]; intros i ug H; cbn [RuntimeModel.make_tasks].
  - split; [intros [|j]; discriminate|split; [reflexivity|reflexivity]].
  - inversion H as [|? ? Hn Hd]; subst. destruct (IH (S i) (upd St ug k0 (NLive i)) Hd) as (A & B & C).
    destruct (make_tasks (S i) o (upd St ug k0 (NLive i))) as [ts ug']. cbn [fst snd] in *. split; [|split].
    + intros [|j] k E; cbn in E.
      * injection E as <-. rewrite B by exact Hn. unfold upd. rewrite Nat.eqb_refl, Nat.add_0_r. reflexivity.
      * rewrite (A j k E). f_equal. lia.
    + intros k Hk. rewrite B by (intros Hi; apply Hk; right; exact Hi). unfold upd.
      destruct (Nat.eqb_spec k k0) as [->|]; [exfalso; apply Hk; left; reflexivity|reflexivity].
    + cbn [map]. rewrite C. f_equal. apply map_ext_in. intros k Hk. unfold upd.
      destruct (Nat.eqb_spec k k0) as [->|]; [contradiction|reflexivity].
Qed.
Lemma set_nth_other {A} (l : list A) j x l' i : set_nth l j x = Some l' -> i <> j -> nth_error l' i = nth_error l i.
Proof.
  revert j l' i. induction l as [|a l IH]; intros [|j] l' i H Hne; cbn in H; try discriminate.
  - injection H as <-. destruct i; [lia|reflexivity].
  - destruct (set_nth l j x) as [l0|] eqn:E; [|discriminate]. injection H as <-. destruct i; [reflexivity|]. cbn. eapply IH; eauto.
Qed.
Lemma set_nth_owned (l : list task) : forall j k s, nth_error l j = Some (k, Own s) ->
  exists l', set_nth l j (k, Gone) = Some l' /\ forall k', cnt k' (owned l) = cnt k' (owned l') + (if k =? k' then 1 else 0).
Proof.
  induction l as [|a l IH]; intros [|j] k s H; cbn in H; try discriminate.
  - injection H as ->. cbn. eexists. split; [reflexivity|]. intros k'. unfold RuntimeModel.owned. cbn [flat_map snd fst List.app].
    rewrite cnt_cons. lia.
  - destruct (IH j k s H) as (l' & E & Hc). cbn. rewrite E. eexists. split; [reflexivity|]. intros k'.
    unfold RuntimeModel.owned in *. cbn [flat_map]. rewrite !cnt_app, Hc. lia.
Qed.
Lemma take_all_spec (st : key -> St) new : forall old, NoDup (map fst new) ->
  (forall k j, In (k, Take j) new -> nth_error old j = Some (k, Own (st k))) ->
  exists old', take_all new old =
      Some (map (fun t => match snd t with Take _ => (fst t, Own (st (fst t))) | _ => t end) new, old') /\
    (forall k, cnt k (owned old') + cnt k (taken new) = cnt k (owned old)) /\ map fst old' = map fst old.
Proof.
  induction new as [|[k u] new IH]; intros old Hnd Ht; cbn [RuntimeModel.take_all].
  - exists old. cbn. auto.
  - inversion Hnd as [|? ? Hn Hd]; subst. destruct u as [s|j|].
    + destruct (IH old Hd) as (old' & E & Hc & Hm); [intros k' j' Hi; apply Ht; right; exact Hi|].
      rewrite E. cbn. exists old'. auto.
    + pose proof (Ht k j (or_introl eq_refl)) as Hj. rewrite Hj. cbn [bind fst snd].
      destruct (set_nth_owned old j k _ Hj) as (old1 & E1 & Hc1). rewrite E1. cbn [bind].
      destruct (IH old1 Hd) as (old' & E & Hc & Hm).
      { intros k' j' Hi. erewrite set_nth_other; [apply Ht; right; exact Hi|exact E1|].
        intros ->. specialize (Ht k' j (or_intror Hi)). rewrite Hj in Ht. injection Ht as -> _. apply Hn.
        apply in_map_iff. exists (k', Take j). auto. }
      rewrite E. cbn. exists old'. split; [reflexivity|]. split.
      * intros k'. fold (taken new). rewrite Hc1, <- Hc. rewrite cnt_cons. lia.
      * rewrite Hm. eapply set_nth_keys; [exact Hj|exact E1].
    + destruct (IH old Hd) as (old' & E & Hc & Hm); [intros k' j' Hi; apply Ht; right; exact Hi|].
      rewrite E. cbn. exists old'. auto.
Qed.
Lemma owned_taken (st : key -> St) new k :
  cnt k (owned (map (fun t => match snd t with Take _ => (fst t, Own (st (fst t))) | _ => t end) new)) =
  cnt k (owned new) + cnt k (taken new).
Proof.
  induction new as [|[k' u] new IH]; [reflexivity|]. unfold RuntimeModel.owned, taken in *.
  destruct u; cbn [map flat_map fst snd List.app]; rewrite ?cnt_cons, IH; lia.
Qed.
Lemma owned_In ts k : In k (owned ts) <-> exists s, In (k, Own s) ts.
Proof.
  unfold RuntimeModel.owned. rewrite in_flat_map. split.
  - intros ([k' u] & Hi & H). cbn in H. destruct u as [s| |]; [|destruct H..]. destruct H as [<-|[]]. eauto.
  - intros (s & Hi). exists (k, Own s). split; [exact Hi|left; reflexivity].
Qed.
Lemma taken_In ts k : In k (taken ts) <-> exists j, In (k, Take j) ts.
Proof.
  unfold taken. rewrite in_flat_map. split.
  - intros ([k' u] & Hi & H). cbn in H. destruct u as [|j|]; [destruct H| |destruct H]. destruct H as [<-|[]]. eauto.
  - intros (j & Hi). exists (k, Take j). split; [exact Hi|left; reflexivity].
Qed.
Lemma cnt_owned_keys ts k : cnt k (owned ts) <= cnt k (map fst ts).
Proof.
  induction ts as [|[k' u] ts IH]; [reflexivity|]. unfold RuntimeModel.owned in *.
  destruct u; cbn [flat_map map fst snd List.app]; rewrite !cnt_cons; destruct (k' =? k); lia.
Qed.
Lemma run_all_spec (st : key -> St) x ts : (forall k u, In (k, u) ts -> u = Own (st k)) ->
  run_all St X proc x ts = Some (map (fun t => (fst t, Own (proc x (fst t) (st (fst t))))) ts).
Proof.
  induction ts as [|[k u] ts IH]; intros H; [reflexivity|]. cbn [run_all]. rewrite (H k u) by (left; reflexivity).
  rewrite IH by (intros; apply H; right; assumption). reflexivity.
Qed.
Lemma expected_app k tr b : expected k (tr ++ [b]) =
  if existsb (Nat.eqb k) (fst b) then proc (snd b) k (expected k tr) else expected k tr.
Proof. unfold RuntimeSpec.expected. rewrite fold_left_app. reflexivity. Qed.
Lemma expected_absent k tr : (forall b, In b tr -> ~ In k (fst b)) -> expected k tr = init k.
Proof.
  unfold RuntimeSpec.expected. generalize (init k) as s. induction tr as [|b tr IH]; intros s H; [reflexivity|]. cbn [fold_left].
  destruct (existsb (Nat.eqb k) (fst b)) eqn:E.
  - exfalso. apply existsb_eqb_In in E. exact (H b (or_introl eq_refl) E).
  - apply IH. intros b' Hb. apply H. right. exact Hb.
Qed.

(** ** the chain of task lists *)
Definition link (seen : nat) (a : list key) (b : rtd) : Prop :=
  seen <= r_seen b /\ NoDup (r_keys b) /\ (forall k, In k (r_keys b) -> k < r_seen b) /\
  (forall k u, In (k, u) (r_tasks b) ->
     match u with Take j => nth_error a j = Some k | Own s => s = init k /\ seen <= k | Gone => False end).
Fixpoint chain (seen : nat) (a : list key) (l : list rtd) : Prop :=
  match l with [] => True | b :: l' => link seen a b /\ chain (r_seen b) (r_keys b) l' end.
Fixpoint lastk (a : list key) (l : list rtd) : list key := match l with [] => a | b :: l' => lastk (r_keys b) l' end.
Fixpoint lasts (s : nat) (l : list rtd) : nat := match l with [] => s | b :: l' => lasts (r_seen b) l' end.
Lemma chain_snoc l : forall s a t, chain s a l -> link (lasts s l) (lastk a l) t -> chain s a (l ++ [t]).
Proof.
  induction l as [|b l IH]; intros s a t H1 H2; cbn in *; [auto|]. destruct H1 as [H1 H3]. split; [exact H1|]. apply IH; assumption.
Qed.
Lemma lastk_snoc l : forall a t, lastk a (l ++ [t]) = r_keys t.
Proof. induction l as [|b l IH]; intros a t; cbn; [reflexivity|apply IH]. Qed.
Lemma lasts_snoc l : forall s t, lasts s (l ++ [t]) = r_seen t.
Proof. induction l as [|b l IH]; intros s t; cbn; [reflexivity|apply IH]. Qed.
Lemma lasts_ge l : forall s a, chain s a l -> s <= lasts s l.
Proof. induction l as [|b l IH]; intros s a H; cbn in *; [lia|]. destruct H as [(H & _) H2]. apply IH in H2. lia. Qed.
Lemma chain_seen l : forall s a t, chain s a l -> In t l -> s <= r_seen t <= lasts s l.
Proof.
  induction l as [|b l IH]; intros s a t H Ht; cbn in *; [destruct Ht|]. destruct H as [(H & _) H2].
  destruct Ht as [<-|Ht]; [split; [lia|eapply lasts_ge; eauto]|]. apply (IH _ _ _ H2) in Ht. lia.
Qed.
Lemma chain_absent l : forall s a k t, chain s a l -> k < s -> ~ In k a -> In t l -> ~ In k (r_keys t).
Proof.
  induction l as [|b l IH]; intros s a k t H Hk Ha Ht; cbn in *; [destruct Ht|]. destruct H as [(H & H3 & H4 & H5) H2].
  assert (Hb : ~ In k (r_keys b)).
  { intros Hi. apply in_map_iff in Hi as ([k' u] & E & Hi). cbn in E. subst k'. specialize (H5 k u Hi). destruct u as [s0|j|].
    - lia.
    - apply Ha. eapply nth_error_In; eauto.
    - exact H5. }
  destruct Ht as [<-|Ht]; [exact Hb|]. eapply IH; [exact H2| |exact Hb|exact Ht]. lia.
Qed.
Lemma lastk_seen l : forall s a k, chain s a l -> (forall k, In k a -> k < s) -> In k (lastk a l) -> k < lasts s l.
Proof.
  induction l as [|b l IH]; intros s a k H Ha Hk; cbn in *; [auto|]. destruct H as [(H & H3 & H4 & H5) H2]. eapply IH; eauto.
Qed.

(** ** the invariant *)
Definition act (y : sys) : list task := if y_virgin y then [] else r_tasks (running y).
Definition aseen (y : sys) : nat := if y_virgin y then 0 else r_seen (running y).
(** Lists that only wait to be dropped. *)
Definition leftover (y : sys) : list key :=
  match y_next y with Some _ => owned (r_tasks (y_cur y)) | None => [] end ++
  flat_map (fun t => owned (r_tasks t)) (y_trash y) ++ y_dead y.

(** All task lists that may still be used. *)
Definition lists (y : sys) : list rtd := y_cur y :: match y_next y with Some t => [t] | None => [] end ++ waiting y.
Local Arguments lists : simpl never. Local Arguments act : simpl never. Local Arguments aseen : simpl never. Local Arguments leftover : simpl never.
Record linked (y : sys) : Prop := {
  k_safe : safe y;
  k_chain : chain (aseen y) (map fst (act y)) (waiting y);
  k_order : lastk (map fst (act y)) (waiting y) = y_order y;
  k_seen : lasts (aseen y) (waiting y) = y_seen y;
  k_act : forall k u, In (k, u) (act y) -> u = Own (expected k (y_trace y));
  k_nodup : NoDup (map fst (act y));
  k_actlt : forall k, In k (map fst (act y)) -> k < aseen y;
  k_trace : forall b k, In b (y_trace y) -> In k (fst b) -> k < aseen y;
  k_onodup : NoDup (y_order y);
  k_ug : forall i k, nth_error (y_order y) i = Some k -> y_ug y k = NLive i;
  k_loc : forall k, y_seen y <= k -> y_ug y k = NLocal (init k);
  k_next : y_seen y <= g_next (y_g y);
  k_cact : forall k, live (y_g y) k -> k < aseen y -> In k (map fst (act y));
  k_cwait : forall t k, In t (waiting y) -> live (y_g y) k -> k < r_seen t -> In k (r_keys t);
  k_cord : forall k, live (y_g y) k -> k < y_seen y -> In k (y_order y);
  k_calm : g_recalc (y_g y) = false -> forall k, live (y_g y) k -> k < y_seen y;
  k_calm2 : g_recalc (y_g y) = false -> forall k, In k (y_order y) -> live (y_g y) k;
  k_sent : forall t k, In t (lists y) -> In k (r_keys t) -> exists i, y_ug y k = NLive i;
  k_left2 : forall k, In k (flat_map (fun t => owned (r_tasks t)) (y_trash y) ++ y_dead y) -> ~ In k (r_keys (y_cur y));
  k_left : forall k, In k (leftover y) -> released y k /\ ~ live (y_g y) k /\ k < g_next (y_g y);
  k_own : forall k, cnt k (owners y) = if k <? g_next (y_g y) then 1 else 0;
  k_virgin : y_virgin y = true -> y_applied y = [] /\ y_next y = None /\ owned (r_tasks (y_cur y)) = [] /\
    (y_started y = false -> y_ring y = [] -> y_order y = []) /\
    (y_started y = true -> r_tasks (y_cur y) = [] \/ y_chunk y <> [] \/ (y_reading y = false /\ y_ring y <> []));
  k_unstarted : y_started y = false -> y_virgin y = true;
  k_flags : forall f, f < g_flag (y_g y) -> In f (y_applied y) \/ exists t, In t (waiting y) /\ r_flag t = Some f }.

Lemma existsb_iff (l l' : list key) k : (In k l <-> In k l') -> existsb (Nat.eqb k) l = existsb (Nat.eqb k) l'.
Proof. intros H. apply eq_true_iff_eq. rewrite !existsb_eqb_In. exact H. Qed.
Lemma cnt_owners y k : cnt k (owners y) = cnt k (locals y) + cnt k (owned (r_tasks (y_cur y))) +
  cnt k (match y_next y with Some t => owned (r_tasks t) | None => [] end) +
  cnt k (flat_map (fun t => owned (r_tasks t)) (y_chunk y)) + cnt k (flat_map (fun t => owned (r_tasks t)) (y_ring y)) +
  cnt k (flat_map (fun t => owned (r_tasks t)) (y_trash y)) + cnt k (y_dead y).
Proof. unfold owners. rewrite !flat_map_app, !cnt_app. lia. Qed.
Lemma cnt_locals y k : wf (y_g y) ->
  cnt k (locals y) = if existsb (Nat.eqb k) (keys (y_g y)) && (match y_ug y k with NLocal _ => true | NLive _ => false end) then 1 else 0.
Proof. intros Hw. unfold locals. apply (cnt_filter (fun k => match y_ug y k with NLocal _ => true | NLive _ => false end)). apply Hw. Qed.

Lemma linked_new id i o slots cap dcap : linked (sys_new St X init id i o slots cap dcap).
Proof.
  constructor; unfold act, aseen, leftover, waiting, running; cbn; try tauto; try (constructor; fail); try reflexivity.
  - apply safe_new.
  - intros [|n]; discriminate.
  - intros; lia.
  - intros; lia.
  - intros _ k (n & es & E & _). discriminate.
  - intros t k [<-|[]] [].
  - intros; lia.
Qed.

(** An edit, or the graph part of a commit. *)
Lemma linked_edit y g' : linked y -> evolves (fun _ => false) (y_g y) g' ->
  linked (mk_sys _ _ g' (y_ug y) (y_order y) (y_seen y) (y_cap y) (y_dcap y) (y_ring y) (y_trash y) (y_applied y) (y_started y)
    (y_cur y) (y_reading y) (y_chunk y) (y_held y) (y_next y) (y_trace y) (y_dead y) (y_lost y) (y_virgin y)).
Proof.
  intros Hl Hev. destruct Hl. destruct Hev as [E1 E2 E3 E4 E5 _ E7 E8 E9 E10].
  assert (Hord : forall k, live g' k -> k < y_seen y -> live (y_g y) k) by (intros k Hk Hlt; apply E9; [exact Hk|lia]).
  assert (Hlast : forall t, In t (waiting y) -> r_seen t <= y_seen y) by (intros t Ht; rewrite <- k_seen0; eapply chain_seen; eauto).
  assert (Has : aseen y <= y_seen y) by (rewrite <- k_seen0; eapply lasts_ge; eauto).
  constructor; cbn; try assumption.
  - eapply (safe_evolve init proc y g'); [exact k_safe0| |reflexivity..]. right. constructor; auto; discriminate.
  - lia.
  - intros k Hk Hlt. apply k_cact0; [|exact Hlt]. apply Hord; [exact Hk|]. match type of Hlt with k < ?A => change A with (aseen y) in Hlt end. lia.
  - intros t k Ht Hk Hlt. apply k_cwait0; [exact Ht| |exact Hlt]. apply Hord; [exact Hk|]. specialize (Hlast t Ht). lia.
  - intros k Hk Hlt. apply k_cord0; auto.
  - intros Hc k Hk. apply E10 in Hc as (Hc & En & Hc2). destruct (Nat.lt_ge_cases k (g_next (y_g y))) as [Hlt|Hge].
    + apply (k_calm0 Hc). apply E9; assumption.
    + exfalso. apply live_key in Hk. apply (bi_lt g' (proj1 (proj1 E1))) in Hk. lia.
  - intros Hc k Hk. apply E10 in Hc as (Hc & En & Hc2). apply Hc2. apply (k_calm3 Hc). exact Hk.
  - intros k Hk. destruct (k_left0 k Hk) as (A & B & C). split; [exact A|]. split; [|lia].
    intros Hlv. apply B. apply E9; [exact Hlv|exact C].
  - intros k. specialize (k_own0 k). rewrite cnt_owners in *. cbn [RuntimeModel.y_cur RuntimeModel.y_next RuntimeModel.y_chunk
      RuntimeModel.y_ring RuntimeModel.y_trash RuntimeModel.y_dead] in *.
    assert (Hw : wf (y_g y)) by apply k_safe0. rewrite cnt_locals in * by assumption. cbn [RuntimeModel.y_g RuntimeModel.y_ug].
    destruct (Nat.lt_ge_cases k (g_next (y_g y))) as [Hlt|Hge].
    + rewrite (existsb_iff (keys g') (keys (y_g y))).
      2: { split; [intros Hk; apply E4 in Hk as [Hk|Hk]; [exact Hk|lia]|intros Hk; apply E5 in Hk as [Hk|(f & _ & Hf)]; [exact Hk|discriminate]]. }
      rewrite k_own0. 
      destruct (Nat.ltb_spec k (g_next (y_g y))); destruct (Nat.ltb_spec k (g_next g')); lia.
    + assert (Hn0 : existsb (Nat.eqb k) (keys (y_g y)) = false).
      { apply not_true_iff_false. rewrite existsb_eqb_In. intros Hk. apply (bi_lt _ (proj1 (proj1 Hw))) in Hk. lia. }
      rewrite Hn0 in k_own0. cbn [andb] in k_own0. rewrite (k_loc0 k) by lia. rewrite andb_true_r.
      destruct (Nat.ltb_spec k (g_next (y_g y))); [lia|]. destruct (Nat.ltb_spec k (g_next g')) as [Hlt|Hge'].
      * assert (Hin : existsb (Nat.eqb k) (keys g') = true) by (apply existsb_eqb_In; apply E7; lia). rewrite Hin. lia.
      * assert (Hin : existsb (Nat.eqb k) (keys g') = false).
        { apply not_true_iff_false. rewrite existsb_eqb_In. intros Hk. apply (bi_lt _ (proj1 (proj1 E1))) in Hk. lia. }
        rewrite Hin. lia.
  - intros f Hf. rewrite E2 in Hf. apply k_flags0. exact Hf.
Qed.

(** A commit; [ycommit] is split into clean-up, dropping old task lists, and sending new tasks. *)
Definition cleaned (y : sys) (g1 : graph) : sys :=
  mk_sys _ _ g1 (y_ug y) (y_order y) (y_seen y) (y_cap y) (y_dcap y) (y_ring y) [] (y_applied y) (y_started y)
    (y_cur y) (y_reading y) (y_chunk y) (y_held y) (y_next y) (y_trace y)
    (filter (fun k => match y_ug y k with NLocal _ => true | NLive _ => false end)
       (filter (fun k => negb (existsb (Nat.eqb k) (map fst (g_nodes g1)))) (map fst (g_nodes (y_g y)))) ++
     flat_map (fun t => owned (r_tasks t)) (y_trash y) ++ y_dead y) (y_lost y) (y_virgin y).
Lemma linked_cleaned y g1 : linked y -> evolves (applied_fn St X y) (y_g y) g1 -> linked (cleaned y g1).
Proof.
  intros Hl Hev. pose proof Hev as Hev0. destruct Hl. destruct Hev as [E1 E2 E3 E4 E5 E6 E7 E8 E9 E10].
  assert (Hord : forall k, live g1 k -> k < y_seen y -> live (y_g y) k) by (intros k Hk Hlt; apply E9; [exact Hk|lia]).
  assert (Hlast : forall t, In t (waiting y) -> r_seen t <= y_seen y) by (intros t Ht; rewrite <- k_seen0; eapply chain_seen; eauto).
  assert (Has : aseen y <= y_seen y) by (rewrite <- k_seen0; eapply lasts_ge; eauto).
  assert (Hw : wf (y_g y)) by apply k_safe0.
  assert (Hgone : forall k, In k (keys (y_g y)) -> ~ In k (keys g1) -> released y k).
  { intros k Hk Hn. apply E5 in Hk as [Hk|(f & Hp & Hf)]; [contradiction|]. apply applied_fn_In in Hf.
    eapply safe_removed; eauto. }
  unfold cleaned. constructor; cbn; try assumption.
  - eapply (safe_evolve init proc y g1); [exact k_safe0| |reflexivity..]. left. exact Hev0.
  - lia.
  - intros k Hk Hlt. apply k_cact0; [|exact Hlt]. apply Hord; [exact Hk|]. match type of Hlt with k < ?A => change A with (aseen y) in Hlt end. lia.
  - intros t k Ht Hk Hlt. apply k_cwait0; [exact Ht| |exact Hlt]. apply Hord; [exact Hk|]. specialize (Hlast t Ht). lia.
  - intros k Hk Hlt. apply k_cord0; auto.
  - intros Hc k Hk. apply E10 in Hc as (Hc & En & Hc2). destruct (Nat.lt_ge_cases k (g_next (y_g y))) as [Hlt|Hge].
    + apply (k_calm0 Hc). apply E9; assumption.
    + exfalso. apply live_key in Hk. apply (bi_lt g1 (proj1 (proj1 E1))) in Hk. lia.
  - intros Hc k Hk. apply E10 in Hc as (Hc & En & Hc2). apply Hc2. apply (k_calm3 Hc). exact Hk.
  - intros k Hk. rewrite <- app_assoc in Hk || idtac. apply in_app_or in Hk as [Hk|Hk]; [|apply k_left3; exact Hk].
    intros Hi. apply filter_In in Hk as [_ Hk]. destruct (k_sent0 (y_cur y) k (or_introl eq_refl) Hi) as [i Ei].
    rewrite Ei in Hk. discriminate.
  - intros k Hk. unfold leftover in Hk; cbn in Hk.
    assert (Hk' : In k (leftover y) \/ In k (filter (fun k => match y_ug y k with NLocal _ => true | NLive _ => false end)
       (filter (fun k => negb (existsb (Nat.eqb k) (map fst (g_nodes g1)))) (map fst (g_nodes (y_g y)))))).
    { apply in_app_or in Hk as [Hk|Hk]; [left; unfold leftover; apply in_or_app; auto|].
      apply in_app_or in Hk as [Hk|Hk]; [right; exact Hk|left]. unfold leftover. apply in_or_app. right. exact Hk. }
    clear Hk. destruct Hk' as [Hk|Hk].
    + destruct (k_left0 k Hk) as (A & B & C). split; [exact A|]. split; [|lia].
      intros Hlv. apply B. apply E9; [exact Hlv|exact C].
    + apply filter_In in Hk as [Hk _]. apply filter_In in Hk as [Hk Hn]. apply negb_true_iff in Hn.
      assert (Hn1 : ~ In k (keys g1)) by (intros Hi; apply existsb_eqb_In in Hi; unfold keys in Hi; congruence).
      split; [apply Hgone; assumption|]. split; [intros Hlv; apply live_key in Hlv; contradiction|].
      apply (bi_lt _ (proj1 (proj1 Hw))) in Hk. lia.
  - intros k. specialize (k_own0 k). rewrite cnt_owners in *. cbn [RuntimeModel.y_cur RuntimeModel.y_next RuntimeModel.y_chunk
      RuntimeModel.y_ring RuntimeModel.y_trash RuntimeModel.y_dead flat_map] in *.
    rewrite cnt_locals in * by assumption. cbn [RuntimeModel.y_g RuntimeModel.y_ug].
    rewrite !cnt_app. assert (Hnd : NoDup (map fst (g_nodes (y_g y)))) by apply Hw.
    rewrite (cnt_filter (fun k => match y_ug y k with NLocal _ => true | NLive _ => false end)) by (apply NoDup_filter; exact Hnd).
    assert (Hc0 : cnt k [] = 0) by reflexivity. rewrite Hc0.
    assert (Hf : existsb (Nat.eqb k) (filter (fun k => negb (existsb (Nat.eqb k) (map fst (g_nodes g1)))) (map fst (g_nodes (y_g y)))) =
                 existsb (Nat.eqb k) (keys (y_g y)) && negb (existsb (Nat.eqb k) (keys g1))).
    { apply eq_true_iff_eq. rewrite andb_true_iff, !existsb_eqb_In. rewrite filter_In. reflexivity. }
    rewrite Hf. destruct (Nat.lt_ge_cases k (g_next (y_g y))) as [Hlt|Hge].
    + assert (Hin : existsb (Nat.eqb k) (keys g1) = true -> existsb (Nat.eqb k) (keys (y_g y)) = true).
      { rewrite !existsb_eqb_In. intros Hi. apply E4 in Hi as [Hi|Hi]; [exact Hi|lia]. }
      destruct (Nat.ltb_spec k (g_next (y_g y))); [|lia]. destruct (Nat.ltb_spec k (g_next g1)); [|lia].
      destruct (existsb (Nat.eqb k) (keys g1)); [rewrite Hin in * by reflexivity|];
        destruct (existsb (Nat.eqb k) (keys (y_g y))); destruct (y_ug y k); cbn [negb andb] in *; lia.
    + assert (Hn0 : existsb (Nat.eqb k) (keys (y_g y)) = false).
      { apply not_true_iff_false. rewrite existsb_eqb_In. intros Hk. apply (bi_lt _ (proj1 (proj1 Hw))) in Hk. lia. }
      rewrite Hn0 in *. cbn [andb] in *. rewrite (k_loc0 k) by lia. rewrite andb_true_r.
      destruct (Nat.ltb_spec k (g_next (y_g y))); [lia|]. destruct (Nat.ltb_spec k (g_next g1)) as [Hlt|Hge'].
      * assert (Hin : existsb (Nat.eqb k) (keys g1) = true) by (apply existsb_eqb_In; apply E7; lia). rewrite Hin. lia.
      * assert (Hin : existsb (Nat.eqb k) (keys g1) = false).
        { apply not_true_iff_false. rewrite existsb_eqb_In. intros Hk. apply (bi_lt _ (proj1 (proj1 E1))) in Hk. lia. }
        rewrite Hin. lia.
  - intros f Hf. rewrite E2 in Hf. apply k_flags0. exact Hf.
Qed.
Lemma linked_commit y y' : linked y -> ycommit y = Some y' -> y_lost y' = false -> linked y'.
Proof.
  intros Hl H Hlost. pose proof (safe_commit init proc y y' (k_safe y Hl) H) as Hsafe. unfold RuntimeModel.ycommit in H.
  destruct (free_old _ _) as [g1|] eqn:E; cbn [bind] in H; [|discriminate].
  assert (Hev : evolves (applied_fn St X y) (y_g y) g1)
    by (apply free_old_evolves; [apply Hl|apply safe_fresh_flag; apply Hl|exact E]).
  pose proof (linked_cleaned y g1 Hl Hev) as Hc.
  destruct (g_recalc g1) eqn:Erc; [|injection H as <-; exact Hc].
  destruct (node_order g1) as [ord|] eqn:Eo; cbn [bind] in H; [|discriminate].
  destruct (order_once g1 ord (ev_wf _ _ _ Hev) Eo) as [Hond Holive].
  destruct (make_tasks_ug ord 0 (y_ug y) Hond) as (M1 & M2 & M3).
  destruct (make_tasks 0 ord (y_ug y)) as [ts ug] eqn:Emt. cbn [fst snd] in M1, M2, M3.
  destruct (_ <? _) eqn:Efull; injection H as <-; [|discriminate]. clear Efull Emt.
  assert (Hkeys : map fst ts = ord) by (rewrite M3, map_map; apply map_id).
  set (td := mk_rtd St (Some (g_flag g1)) (g_next g1) ts) in *.
  match type of Hsafe with safe ?Y => set (y' := Y) in * end.
  assert (Hwait : waiting y' = waiting y ++ [td]) by (unfold waiting; cbn; rewrite app_assoc; reflexivity).
  assert (Hact : act y' = act y) by reflexivity. assert (Hase : aseen y' = aseen y) by reflexivity.
  destruct Hc. cbn in *. change (act (cleaned y g1)) with (act y) in *. change (aseen (cleaned y g1)) with (aseen y) in *.
  change (waiting (cleaned y g1)) with (waiting y) in *.
  assert (Hlt : forall k, In k ord -> k < g_next g1).
  { intros k Hk. apply Holive in Hk. apply live_key in Hk. apply (bi_lt g1 (proj1 (proj1 (ev_wf _ _ _ Hev)))). exact Hk. }
  assert (Hcase : forall k, live g1 k -> (k < y_seen y /\ exists i, nth_error (y_order y) i = Some k /\ y_ug y k = NLive i) \/
     (y_seen y <= k /\ y_ug y k = NLocal (init k))).
  { intros k Hk. destruct (Nat.lt_ge_cases k (y_seen y)) as [Hs|Hs]; [left|right; auto]. split; [exact Hs|].
    apply k_cord0 in Hs; [|exact Hk]. apply In_nth_error in Hs as [i Hi]. exists i. split; [exact Hi|]. apply k_ug0. exact Hi. }
  assert (Hlk : link (y_seen y) (y_order y) td).
  { split; [exact k_next0|]. split; [unfold RuntimeModel.r_keys; cbn; rewrite Hkeys; exact Hond|]. split.
    - intros k. unfold RuntimeModel.r_keys; cbn. rewrite Hkeys. apply Hlt.
    - intros k u Hk. cbn in Hk. rewrite M3 in Hk. apply in_map_iff in Hk as (k' & Ek & Hk). injection Ek as -> <-.
      apply Holive in Hk. destruct (Hcase k Hk) as [(_ & i & Hi & ->)|(Hs & ->)]; cbn; auto. }
  assert (Hlocal : forall k, (match ug k with NLocal _ => true | NLive _ => false end) =
            (match y_ug y k with NLocal _ => true | NLive _ => false end) && negb (existsb (Nat.eqb k) ord)).
  { intros k. destruct (existsb (Nat.eqb k) ord) eqn:Ex.
    - apply existsb_eqb_In in Ex. apply In_nth_error in Ex as [i Hi]. rewrite (M1 i k Hi). rewrite andb_false_r. reflexivity.
    - rewrite M2; [rewrite andb_true_r; reflexivity|]. intros Hi. apply existsb_eqb_In in Hi. congruence. }
  constructor; rewrite ?Hact, ?Hase, ?Hwait; cbn; try assumption.
  - apply chain_snoc; [exact k_chain0|]. rewrite k_order0, k_seen0. exact Hlk.
  - rewrite lastk_snoc. exact Hkeys.
  - apply lasts_snoc.
  - intros k Hk. rewrite M2; [apply k_loc0; lia|]. intros Hi. apply Hlt in Hi. lia.
  - lia.
  - intros t k Ht Hk Hs. rewrite live_frame in Hk by reflexivity. apply in_app_or in Ht as [Ht|[<-|[]]]; [apply k_cwait0; assumption|].
    unfold RuntimeModel.r_keys; cbn. rewrite Hkeys. apply Holive. exact Hk.
  - intros k Hk _. rewrite live_frame in Hk by reflexivity. apply Holive. exact Hk.
  - intros _ k Hk. rewrite live_frame in Hk by reflexivity. apply Hlt. apply Holive. exact Hk.
  - intros _ k Hk. rewrite live_frame by reflexivity. apply Holive. exact Hk.
  - intros t k Ht Hk. destruct (in_dec Nat.eq_dec k ord) as [Hi|Hi].
    + apply In_nth_error in Hi as [i Hi]. exists (0 + i). apply M1. exact Hi.
    + rewrite M2 by exact Hi. apply (k_sent0 t k); [|exact Hk]. unfold lists in *. cbn in Ht. rewrite Hwait in Ht.
      destruct Ht as [<-|Ht]; [left; reflexivity|]. rewrite app_assoc in Ht. apply in_app_or in Ht as [Ht|[<-|[]]]; [right; exact Ht|].
      exfalso. apply Hi. rewrite <- Hkeys. exact Hk.
  - intros k Hk. destruct (k_left0 k Hk) as ([A1 A2] & B & C). split; [|split; [rewrite live_frame by reflexivity; exact B|exact C]].
    split; [exact A1|]. intros t Ht. rewrite Hwait in Ht. apply in_app_or in Ht as [Ht|[<-|[]]]; [apply A2; exact Ht|].
    unfold RuntimeModel.r_keys; cbn. rewrite Hkeys. intros Hi. apply B. apply Holive. exact Hi.
  - intros k. specialize (k_own0 k). rewrite cnt_owners in *. cbn [RuntimeModel.y_cur RuntimeModel.y_next RuntimeModel.y_chunk
      RuntimeModel.y_ring RuntimeModel.y_trash RuntimeModel.y_dead flat_map cleaned] in *. unfold y' at 2 3 4 5 6. unfold y'.
    cbn [RuntimeModel.y_cur RuntimeModel.y_next RuntimeModel.y_chunk
      RuntimeModel.y_ring RuntimeModel.y_trash RuntimeModel.y_dead flat_map cleaned].
    rewrite flat_map_app, cnt_app. cbn [flat_map]. rewrite app_nil_r.
    rewrite cnt_locals in * by (cbn; first [apply Hsafe|apply Hev]).
    cbn [RuntimeModel.y_g RuntimeModel.y_ug cleaned] in *.
    change (keys (set_recalc (set_flag g1 (S (g_flag g1))) false)) with (keys g1). rewrite Hlocal.
    assert (Hown : cnt k (owned (r_tasks td)) = if existsb (Nat.eqb k) ord && (match y_ug y k with NLocal _ => true | NLive _ => false end) then 1 else 0).
    { rewrite <- (cnt_filter (fun k => match y_ug y k with NLocal _ => true | NLive _ => false end)) by exact Hond.
      f_equal. cbn. rewrite M3. clear. induction ord as [|a l IH]; [reflexivity|]. unfold RuntimeModel.owned in *. cbn [map flat_map filter snd fst].
      destruct (y_ug y a); cbn [task_of List.app]; congruence. }
    rewrite Hown. cbn in k_own0.
    assert (Hsub : existsb (Nat.eqb k) ord = true -> existsb (Nat.eqb k) (keys g1) = true).
    { rewrite !existsb_eqb_In. intros Hi. apply live_key. apply Holive. exact Hi. }
    destruct (existsb (Nat.eqb k) ord); [rewrite Hsub in * by reflexivity|]; destruct (existsb (Nat.eqb k) (keys g1));
      destruct (y_ug y k); cbn [negb andb] in *; rewrite ?cnt_app in *; lia.
  - intros Hv. destruct (k_virgin0 ltac:(first [exact Hv|reflexivity])) as (V1 & V2 & V3 & V4 & V5). repeat (split; [assumption|]). split.
    + intros _ Hr. destruct (y_ring y); discriminate.
    + intros Hs. destruct (V5 Hs) as [V|[V|[V Vr]]]; [auto|auto|]. right. right. split; [exact V|]. destruct (y_ring y); discriminate.
  - intros f Hf. assert (Hd : f = g_flag g1 \/ f < g_flag g1) by lia. destruct Hd as [->|Hd].
    + right. exists td. split; [apply in_or_app; right; left; reflexivity|reflexivity].
    + apply k_flags0 in Hd as [Hd|(t & Ht & Hfl)]; [auto|right]. exists t. split; [apply in_or_app; auto|exact Hfl].
Qed.

(** End of Graph::new. *)
Lemma linked_start y y' : linked y -> ystep y (YStart X) = Some y' -> linked y'.
Proof.
  intros Hl H. pose proof (safe_step init proc y _ y' (k_safe y Hl) H) as Hsafe. cbn [RuntimeModel.ystep] in H.
  destruct (y_started y) eqn:Es; [injection H as <-; exact Hl|]. destruct Hl.
  destruct (make_tasks_ug (y_order y) 0 (y_ug y) k_onodup0) as (M1 & M2 & M3).
  destruct (make_tasks 0 (y_order y) (y_ug y)) as [ts ug]. cbn [fst snd] in M1, M2, M3. injection H as <-.
  pose proof (k_unstarted0 Es) as Hv. destruct (k_virgin0 ltac:(first [exact Hv|reflexivity])) as (V1 & V2 & V3 & V4 & V5).
  destruct (sf_unstarted y k_safe0 Es) as [Hr _]. destruct (sf_idle y k_safe0 Hr) as [Hc _].
  assert (Hug : forall k, ug k = y_ug y k).
  { intros k. destruct (in_dec Nat.eq_dec k (y_order y)) as [Hi|Hi]; [|apply M2; exact Hi].
    apply In_nth_error in Hi as [i Hi]. rewrite (M1 i k Hi), (k_ug0 i k Hi). reflexivity. }
  assert (Hts : owned ts = []).
  { rewrite M3. assert (H : forall k, In k (y_order y) -> exists i, y_ug y k = NLive i).
    { intros k Hi. apply In_nth_error in Hi as [i Hi]. exists i. apply k_ug0. exact Hi. }
    clear - H. induction (y_order y) as [|k l IH]; [reflexivity|]. destruct (H k (or_introl eq_refl)) as [i Hi].
    unfold RuntimeModel.owned in *. cbn [map flat_map snd]. rewrite Hi. cbn. apply IH. intros k' Hk'. apply H. right. exact Hk'. }
  match type of Hsafe with safe ?Y => set (y' := Y) in * end.
  assert (Hwait : waiting y' = waiting y) by (unfold waiting; cbn; rewrite Hc; reflexivity).
  assert (Ha : act y = []) by (unfold act; rewrite Hv; reflexivity).
  assert (Ha' : act y' = []) by (unfold act, y'; cbn; rewrite Hv; reflexivity).
  assert (Hs : aseen y = 0) by (unfold aseen; rewrite Hv; reflexivity).
  assert (Hs' : aseen y' = 0) by (unfold aseen, y'; cbn; rewrite Hv; reflexivity).
  rewrite Ha, Hs in *. cbn [map] in *.
  assert (Hno : forall k, In k (leftover y) -> ~ In k (y_order y)).
  { intros k Hk Hi. destruct (k_left0 k Hk) as ([_ A2] & _ & _).
    (* a node of the last order is in a waiting list, or there is none *)
    rewrite <- k_order0 in Hi. clear - Hi A2. revert Hi A2. generalize (waiting y) as l. intros l.
    assert (Hin : forall a, In k (lastk a l) -> In k a \/ exists t, In t l /\ In k (r_keys t)).
    { induction l as [|b l IH]; intros a Hi; cbn in *; [auto|]. apply IH in Hi as [Hi|(t & Ht & Hi)]; right; [exists b; auto|exists t; auto]. }
    intros Hi A2. apply Hin in Hi as [[]|(t & Ht & Hi)]. exact (A2 t Ht Hi). }
  constructor; rewrite ?Ha', ?Hs', ?Hwait; cbn; try assumption.
  - intros k Hk. rewrite Hug. apply k_loc0. exact Hk.
  - intros t k Ht Hk. rewrite Hug. unfold lists, y' in Ht; cbn in Ht. fold y' in Ht. rewrite Hwait in Ht. destruct Ht as [<-|Ht].
    + unfold RuntimeModel.r_keys in Hk; cbn in Hk. rewrite M3, map_map, map_id in Hk. apply In_nth_error in Hk as [i Hi]. exists i.
      apply k_ug0. exact Hi.
    + apply (k_sent0 t k); [|exact Hk]. unfold lists. right. apply in_or_app. right. exact Ht.
  - intros k Hk Hi. unfold RuntimeModel.r_keys in Hi; cbn in Hi. rewrite M3, map_map, map_id in Hi. revert Hi. apply Hno.
    unfold leftover. apply in_or_app. right. exact Hk.
  - intros k Hk. assert (Hk' : In k (leftover y)) by (unfold leftover, y' in *; cbn in Hk; apply in_or_app; right; exact Hk).
    destruct (k_left0 k Hk') as ([A1 A2] & B & C). split; [|split; assumption]. split; [|rewrite Hwait; exact A2].
    intros Hi. unfold y', running, RuntimeModel.r_keys in Hi; cbn in Hi. rewrite M3, map_map, map_id in Hi. exact (Hno k Hk' Hi).
  - intros k. specialize (k_own0 k). rewrite cnt_owners in *. unfold y'. cbn [RuntimeModel.y_cur RuntimeModel.y_next RuntimeModel.y_chunk
      RuntimeModel.y_ring RuntimeModel.y_trash RuntimeModel.y_dead RuntimeModel.r_tasks flat_map] in *.
    rewrite Hts. rewrite V2, V3, Hc in k_own0. cbn [flat_map] in k_own0.
    rewrite cnt_locals in * by (cbn; apply k_safe0). cbn [RuntimeModel.y_g RuntimeModel.y_ug]. rewrite Hug. exact k_own0.
  - intros _. repeat (split; [assumption || reflexivity|]). split; [discriminate|]. intros _.
    destruct (y_ring y) as [|t r] eqn:Er; [left|right; right; split; [reflexivity|discriminate]].
    rewrite M3, V4 by (assumption || reflexivity). reflexivity.
  - discriminate.
Qed.
Lemma linked_read y y' : linked y -> ystep y (YRead X) = Some y' -> linked y'.
Proof.
  intros Hl H. pose proof (safe_step init proc y _ y' (k_safe y Hl) H) as Hsafe. cbn [RuntimeModel.ystep] in H.
  destruct (y_started y && negb (y_reading y)) eqn:Ec; [|injection H as <-; exact Hl].
  apply andb_true_iff in Ec as [Est Er]. apply negb_true_iff in Er. injection H as <-. destruct Hl.
  destruct (sf_idle y k_safe0 Er) as [Hc Hn].
  match type of Hsafe with safe ?Y => set (y' := Y) in * end.
  assert (Hwait : waiting y' = waiting y) by (unfold waiting; cbn; rewrite Hc, app_nil_r; reflexivity).
  assert (Hrun : running y' = running y) by (unfold running; cbn; rewrite Hn; reflexivity).
  assert (Ha : act y' = act y) by (unfold act; rewrite Hrun; reflexivity).
  assert (Hs : aseen y' = aseen y) by (unfold aseen; rewrite Hrun; reflexivity).
  assert (Hlf : leftover y' = leftover y) by (unfold leftover; cbn; rewrite Hn; reflexivity).
  constructor; rewrite ?Ha, ?Hs, ?Hwait, ?Hlf; cbn; try assumption.
  - intros t k Ht. apply k_sent0. unfold lists in *. rewrite Hwait in Ht. rewrite Hn. exact Ht.
  - unfold released. rewrite Hrun, Hwait. exact k_left0.
  - intros k. specialize (k_own0 k). rewrite cnt_owners in *. unfold y'. cbn [RuntimeModel.y_cur RuntimeModel.y_next RuntimeModel.y_chunk
      RuntimeModel.y_ring RuntimeModel.y_trash RuntimeModel.y_dead flat_map] in *.
    rewrite Hn, Hc in k_own0. cbn [flat_map] in k_own0. change (locals y') with (locals y).
    match goal with |- cnt k (locals ?Y) + _ + _ + _ + _ + _ + _ = _ => change (locals Y) with (locals y) end. lia.
  - intros Hv. destruct (k_virgin0 ltac:(first [exact Hv|reflexivity])) as (V1 & V2 & V3 & V4 & V5). repeat (split; [assumption || reflexivity|]). split; [discriminate|].
    intros _. destruct (V5 Est) as [V|[V|[_ V]]]; [auto|congruence|auto].
  - discriminate.
Qed.
Lemma linked_switch y y' : linked y -> ystep y (YSwitch X) = Some y' -> linked y'.
Proof.
  intros Hl H. pose proof (safe_step init proc y _ y' (k_safe y Hl) H) as Hsafe. cbn [RuntimeModel.ystep] in H.
  destruct (y_next y) as [td|] eqn:En; [|injection H as <-; exact Hl]. injection H as <-. destruct Hl.
  assert (Hv : y_virgin y = false).
  { destruct (y_virgin y) eqn:Hv; [|reflexivity]. destruct (k_virgin0 ltac:(first [exact Hv|reflexivity])) as (_ & V & _). congruence. }
  match type of Hsafe with safe ?Y => set (y' := Y) in * end.
  assert (Hwait : waiting y' = waiting y) by reflexivity.
  assert (Hrun : running y' = running y) by (unfold running; cbn; rewrite En; reflexivity).
  assert (Ha : act y' = act y) by (unfold act; rewrite Hrun; reflexivity).
  assert (Hs : aseen y' = aseen y) by (unfold aseen; rewrite Hrun; reflexivity).
  assert (Hlf : forall k, In k (leftover y') -> In k (leftover y)).
  { intros k. unfold leftover, y'; cbn. rewrite En. cbn [List.app]. destruct (negb _); rewrite ?flat_map_app; cbn [flat_map]; rewrite ?app_nil_r;
      rewrite !in_app_iff; tauto. }
  constructor; rewrite ?Ha, ?Hs, ?Hwait; cbn; try assumption.
  - intros t k Ht. apply k_sent0. unfold lists in *. rewrite En. right. cbn in Ht. rewrite Hwait in Ht. exact Ht.
  - intros k Hk. assert (Hk' : In k (leftover y)).
    { unfold leftover. rewrite En. revert Hk. destruct (negb _); rewrite ?flat_map_app; cbn [flat_map]; rewrite ?app_nil_r;
        rewrite !in_app_iff; unfold RuntimeModel.owned; tauto. }
    destruct (k_left0 k Hk') as ([A1 _] & _). unfold running in A1. rewrite En in A1. exact A1.
  - unfold released. rewrite Hrun, Hwait. intros k Hk. apply k_left0. apply Hlf. exact Hk.
  - intros k. specialize (k_own0 k). rewrite cnt_owners in *. unfold y'. cbn [RuntimeModel.y_cur RuntimeModel.y_next RuntimeModel.y_chunk
      RuntimeModel.y_ring RuntimeModel.y_trash RuntimeModel.y_dead flat_map] in *.
    match goal with |- cnt k (locals ?Y) + _ + _ + _ + _ + _ + _ = _ => change (locals Y) with (locals y) end.
    rewrite En in k_own0. assert (Hc0 : cnt k [] = 0) by reflexivity. rewrite Hc0.
    destruct (negb _); rewrite ?flat_map_app, ?cnt_app; cbn [flat_map]; rewrite ?app_nil_r; lia.
  - rewrite Hv. discriminate.
  - discriminate.
Qed.
Lemma linked_run y x y' : linked y -> ystep y (YRun X x) = Some y' -> linked y'.
Proof.
  intros Hl H. pose proof (safe_step init proc y _ y' (k_safe y Hl) H) as Hsafe. cbn [RuntimeModel.ystep] in H.
  destruct (y_reading y) eqn:Er; [|injection H as <-; exact Hl].
  destruct (y_next y) as [nx|] eqn:En; [injection H as <-; exact Hl|].
  destruct (y_chunk y) as [|td rest] eqn:Ec; [|injection H as <-; exact Hl].
  destruct (run_all _ _ _ _ _) as [ts|] eqn:Et; cbn [bind] in H; [|discriminate]. injection H as <-. destruct Hl.
  assert (Hst : y_started y = true).
  { destruct (y_started y) eqn:E; [reflexivity|]. destruct (sf_unstarted y k_safe0 E). congruence. }
  match type of Hsafe with safe ?Y => set (y' := Y) in * end.
  assert (Hwait : waiting y' = waiting y) by (unfold waiting; cbn; rewrite Ec; reflexivity).
  assert (Hrun : running y = y_cur y) by (unfold running; rewrite En; reflexivity).
  pose proof (run_all_keys proc x _ _ Et) as Hkeys.
  assert (Hka : map fst (act y') = map fst (act y)).
  { unfold act, y'; cbn. rewrite Hrun. destruct (y_virgin y); [reflexivity|]. exact Hkeys. }
  assert (Hs : aseen y' = aseen y) by (unfold aseen, y'; cbn; rewrite Hrun; reflexivity).
  assert (Hkr : r_keys (running y') = r_keys (running y)) by (rewrite Hrun; unfold y', running, RuntimeModel.r_keys; cbn; exact Hkeys).
  assert (Hlf : leftover y' = leftover y) by (unfold leftover; cbn; rewrite En; reflexivity).
  (* either nothing has been picked up and nothing runs, or every task holds its UGen *)
  assert (Hcase : (y_virgin y = true /\ r_tasks (y_cur y) = [] /\ ts = []) \/
    (y_virgin y = false /\ ts = map (fun t => (fst t, Own (proc x (fst t) (expected (fst t) (y_trace y))))) (r_tasks (y_cur y)))).
  { destruct (y_virgin y) eqn:Hv; [left|right].
    - destruct (k_virgin0 ltac:(first [exact Hv|reflexivity])) as (_ & _ & _ & _ & V). destruct (V Hst) as [V1|[V1|[V1 _]]]; [|congruence..].
      rewrite V1 in Et. cbn in Et. injection Et as <-. auto.
    - split; [reflexivity|]. rewrite (run_all_spec (fun k => expected k (y_trace y))) in Et; [injection Et as <-; reflexivity|].
      intros k u Hk. apply k_act0. unfold act. rewrite Hv, Hrun. exact Hk. }
  constructor; rewrite ?Hka, ?Hs, ?Hwait, ?Hlf; cbn; try assumption.
  - intros k u Hk. unfold act, y', running in Hk; cbn in Hk. destruct Hcase as [(Hv & _)|(Hv & ->)]; rewrite Hv in Hk; [destruct Hk|].
    cbn in Hk. apply in_map_iff in Hk as ([k' u'] & E & Hk). cbn in E. injection E as -> <-.
    rewrite expected_app. cbn [fst snd].
    assert (Hin : existsb (Nat.eqb k) (r_keys (y_cur y)) = true) by (apply existsb_eqb_In; apply in_map_iff; exists (k, u'); auto).
    rewrite Hin. reflexivity.
  - intros b k Hb Hk. apply in_app_or in Hb as [Hb|[<-|[]]]; [eapply k_trace0; eauto|]. cbn in Hk. apply k_actlt0. unfold act.
    destruct Hcase as [(Hv & Hnil & _)|(Hv & _)]; rewrite Hv.
    + unfold RuntimeModel.r_keys in Hk. rewrite Hnil in Hk. destruct Hk.
    + rewrite Hrun. exact Hk.
  - intros t k Ht Hk. unfold lists in Ht. cbn in Ht. destruct Ht as [<-|Ht].
    + apply (k_sent0 (y_cur y) k); [left; reflexivity|]. rewrite <- Hrun, <- Hkr. exact Hk.
    + apply (k_sent0 t k); [|exact Hk]. unfold lists. rewrite En. right. rewrite Hwait in Ht. exact Ht.
  - intros k Hk Hi. apply (k_left3 k Hk). rewrite <- Hrun, <- Hkr. exact Hi.
  - unfold released. rewrite Hkr, Hwait. exact k_left0.
  - intros k. specialize (k_own0 k). rewrite cnt_owners in *. unfold y'. cbn [RuntimeModel.y_cur RuntimeModel.y_next RuntimeModel.y_chunk
      RuntimeModel.y_ring RuntimeModel.y_trash RuntimeModel.y_dead RuntimeModel.r_tasks flat_map] in *.
    match goal with |- cnt k (locals ?Y) + _ + _ + _ + _ + _ + _ = _ => change (locals Y) with (locals y) end.
    rewrite En, Ec in k_own0. cbn [flat_map] in k_own0.
    assert (Ho : owned ts = owned (r_tasks (y_cur y))).
    { destruct Hcase as [(_ & -> & ->)|(Hv & ->)]; [reflexivity|].
      assert (Hall : forall k u, In (k, u) (r_tasks (y_cur y)) -> u = Own (expected k (y_trace y)))
        by (intros k0 u Hk; apply k_act0; unfold act; rewrite Hv, Hrun; exact Hk).
      clear - Hall. induction (r_tasks (y_cur y)) as [|[k u] l IH]; [reflexivity|]. unfold RuntimeModel.owned in *. cbn [map flat_map fst snd].
      rewrite (Hall k u) by (left; reflexivity). rewrite IH by (intros; apply Hall; right; assumption). reflexivity. }
    rewrite Ho. exact k_own0.
  - intros Hv. destruct (k_virgin0 ltac:(first [exact Hv|reflexivity])) as (V1 & V2 & V3 & V4 & V5). destruct Hcase as [(_ & Hnil & ->)|(Hv' & _)]; [|congruence].
    repeat (split; [assumption || reflexivity|]). split; [discriminate|auto].
  - discriminate.
Qed.
Lemma linked_apply_ok y : linked y -> y_reading y = true -> y_next y = None -> forall td rest, y_chunk y = td :: rest ->
  exists old', take_all (r_tasks td) (r_tasks (y_cur y)) =
     Some (map (fun t => match snd t with Take _ => (fst t, Own (expected (fst t) (y_trace y))) | _ => t end) (r_tasks td), old') /\
    (forall k, cnt k (owned old') + cnt k (taken (r_tasks td)) = cnt k (owned (r_tasks (y_cur y)))) /\
    map fst old' = map fst (r_tasks (y_cur y)).
Proof.
  intros Hl Er En td rest Ec. destruct Hl. unfold waiting in k_chain0. rewrite Ec in k_chain0.
  destruct k_chain0 as [(C1 & C2 & C3 & C4) _]. apply (take_all_spec (fun k => expected k (y_trace y))); [exact C2|]. intros k j Hk. specialize (C4 k _ Hk). cbn in C4.
  unfold act, running in C4, k_act0. rewrite En in C4, k_act0. destruct (y_virgin y); [destruct j; discriminate|].
  rewrite nth_error_map in C4. destruct (nth_error (r_tasks (y_cur y)) j) as [[k' u]|] eqn:E; [|discriminate]. cbn in C4. injection C4 as ->.
  f_equal. f_equal. apply k_act0. eapply nth_error_In; eauto.
Qed.
Lemma linked_apply y y' : linked y -> ystep y (YApply X) = Some y' -> linked y'.
Proof.
  intros Hl H. pose proof (safe_step init proc y _ y' (k_safe y Hl) H) as Hsafe. cbn [RuntimeModel.ystep] in H.
  destruct (y_reading y) eqn:Er; [|injection H as <-; exact Hl].
  destruct (y_next y) as [nx|] eqn:En; [injection H as <-; exact Hl|].
  destruct (y_chunk y) as [|td rest] eqn:Ec; [injection H as <-; exact Hl|].
  destruct (linked_apply_ok y Hl Er En td rest Ec) as (old' & Et & Hcnt & Hmf). rewrite Et in H. cbn [bind fst snd] in H.
  injection H as <-. set (new' := map _ (r_tasks td)) in *. destruct Hl.
  assert (Hst : y_started y = true).
  { destruct (y_started y) eqn:E; [reflexivity|]. destruct (sf_unstarted y k_safe0 E). congruence. }
  match type of Hsafe with safe ?Y => set (y' := Y) in * end.
  assert (Hwait : waiting y = td :: waiting y') by (unfold waiting; cbn; rewrite Ec; reflexivity).
  assert (Hrun : running y = y_cur y) by (unfold running; rewrite En; reflexivity).
  assert (Hnk : map fst new' = r_keys td).
  { unfold new', RuntimeModel.r_keys. rewrite map_map. apply map_ext. intros [k [s|j|]]; reflexivity. }
  assert (Ha : act y' = new') by reflexivity. assert (Hs : aseen y' = r_seen td) by reflexivity.
  rewrite Hwait in *. destruct k_chain0 as [(C1 & C2 & C3 & C4) Cn]. cbn [lastk lasts] in k_order0, k_seen0.
  assert (Hold : forall k, In k (owned (r_tasks (y_cur y))) -> y_virgin y = false /\ k < aseen y /\ cnt k (owned (r_tasks (y_cur y))) <= 1).
  { intros k Hk. destruct (y_virgin y) eqn:Hv.
    - destruct (k_virgin0 ltac:(first [exact Hv|reflexivity])) as (_ & _ & V & _). rewrite V in Hk. destruct Hk.
    - split; [reflexivity|]. split.
      + apply k_actlt0. unfold act. rewrite Hv, Hrun. apply owned_In in Hk as [s Hk]. apply in_map_iff. exists (k, Own s). auto.
      + etransitivity; [apply cnt_owned_keys|]. apply cnt_nodup. unfold act in k_nodup0. rewrite Hv, Hrun in k_nodup0. exact k_nodup0. }
  constructor; rewrite ?Ha, ?Hs, ?Hnk; cbn; try assumption.
  - intros k u Hk. apply in_map_iff in Hk as ([k' u'] & E & Hk). specialize (C4 k' u' Hk). destruct u' as [s|j|]; cbn in E; injection E as -> <-.
    + destruct C4 as [-> Hge]. rewrite expected_absent; [reflexivity|]. intros b Hb Hi. specialize (k_trace0 b k Hb Hi). lia.
    + reflexivity.
    + destruct C4.
  - intros b k Hb Hk. specialize (k_trace0 b k Hb Hk). lia.
  - intros k Hk Hlt. apply k_cwait0; [left; reflexivity|exact Hk|exact Hlt].
  - intros t k Ht. apply k_cwait0. right. exact Ht.
  - intros t k Ht Hk. unfold lists in k_sent0. rewrite En, Hwait in k_sent0. unfold lists in Ht. cbn in Ht. destruct Ht as [<-|[<-|Ht]].
    + apply (k_sent0 (y_cur y) k); [left; reflexivity|]. unfold RuntimeModel.r_keys in *. cbn in Hk. rewrite Hmf in Hk. exact Hk.
    + apply (k_sent0 td k); [right; left; reflexivity|]. unfold RuntimeModel.r_keys in Hk. cbn in Hk. rewrite Hnk in Hk. exact Hk.
    + apply (k_sent0 t k); [right; right; exact Ht|exact Hk].
  - intros k Hk. unfold RuntimeModel.r_keys; cbn. rewrite Hmf. apply k_left3. exact Hk.
  - intros k Hk. unfold leftover, y' in Hk; cbn in Hk. apply in_app_or in Hk as [Hk|Hk].
    + (* left behind in the old list *)
      change (In k (owned old')) in Hk.
      assert (Hko : In k (owned (r_tasks (y_cur y)))) by (apply cnt_In in Hk; apply cnt_In; specialize (Hcnt k); lia).
      destruct (Hold k Hko) as (Hv & Hlt & Hle).
      assert (Hn : ~ In k (r_keys td)).
      { intros Hi. apply in_map_iff in Hi as ([k' u] & E & Hi). cbn in E. subst k'. specialize (C4 k u Hi). destruct u as [s|j|]; [lia| |exact C4].
        assert (Ht : In k (taken (r_tasks td))) by (apply taken_In; eauto). apply cnt_In in Ht. apply cnt_In in Hk. specialize (Hcnt k). lia. }
      split; [|split].
      * split; [unfold y', running, RuntimeModel.r_keys; cbn; rewrite Hnk; exact Hn|].
        intros t Ht. eapply chain_absent; [exact Cn| |exact Hn|exact Ht]. lia.
      * intros Hlv. apply Hn. apply k_cwait0; [left; reflexivity|exact Hlv|lia].
      * assert (Hss : r_seen td <= y_seen y) by (rewrite <- k_seen0; eapply lasts_ge; eauto). lia.
    + destruct (k_left0 k) as ([A1 A2] & B & C); [unfold leftover; rewrite En; exact Hk|]. split; [|split; assumption].
      split.
      * unfold y', running, RuntimeModel.r_keys; cbn. rewrite Hnk. apply A2. rewrite Hwait. left. reflexivity.
      * intros t Ht. apply A2. rewrite Hwait. right. exact Ht.
  - intros k. specialize (k_own0 k). specialize (Hcnt k). rewrite cnt_owners in *. unfold y'. cbn [RuntimeModel.y_cur RuntimeModel.y_next RuntimeModel.y_chunk
      RuntimeModel.y_ring RuntimeModel.y_trash RuntimeModel.y_dead RuntimeModel.r_tasks] in *.
    match goal with |- cnt k (locals ?Y) + _ + _ + _ + _ + _ + _ = _ => change (locals Y) with (locals y) end.
    rewrite En, Ec in k_own0. cbn [flat_map] in k_own0. rewrite cnt_app in k_own0. unfold new'. rewrite (owned_taken (fun k0 => expected k0 (y_trace y))).
    assert (Hc0 : cnt k [] = 0) by reflexivity. rewrite Hc0 in k_own0. lia.
  - discriminate.
  - discriminate.
  - intros f Hf. apply k_flags0 in Hf as [Hf|(t & [<-|Ht] & Hfl)].
    + left. destruct (r_flag td); [right; exact Hf|exact Hf].
    + left. rewrite Hfl. left. reflexivity.
    + right. exists t. auto.
Qed.
Lemma lost_stays y o y' : ystep y o = Some y' -> y_lost y = true -> y_lost y' = true.
Proof.
  intros H Hl. destruct o as [o| | | | | |x].
  - destruct o; cbn [RuntimeModel.ystep] in H; try (injection H as <-; exact Hl);
      (destruct (step _ _) as [gr|] in H; cbn [bind] in H; [|discriminate]; injection H as <-; exact Hl).
  - cbn [RuntimeModel.ystep] in H. unfold RuntimeModel.ycommit in H. destruct (free_old _ _) as [g1|]; cbn [bind] in H; [|discriminate].
    destruct (g_recalc g1); [|injection H as <-; exact Hl]. destruct (node_order g1); cbn [bind] in H; [|discriminate].
    destruct (make_tasks _ _ _). destruct (_ <? _); injection H as <-; [exact Hl|reflexivity].
  - cbn [RuntimeModel.ystep] in H. destruct (y_started y); [injection H as <-; exact Hl|]. destruct (make_tasks _ _ _). injection H as <-. exact Hl.
  - cbn [RuntimeModel.ystep] in H. destruct (_ && _); injection H as <-; exact Hl.
  - cbn [RuntimeModel.ystep] in H. destruct (y_reading y), (y_next y), (y_chunk y); try (injection H as <-; exact Hl).
    destruct (take_all _ _); cbn [bind] in H; [|discriminate]. injection H as <-; exact Hl.
  - cbn [RuntimeModel.ystep] in H. destruct (y_next y); injection H as <-; exact Hl.
  - cbn [RuntimeModel.ystep] in H. destruct (y_reading y), (y_next y), (y_chunk y); try (injection H as <-; exact Hl).
    destruct (run_all _ _ _ _ _); cbn [bind] in H; [|discriminate]. injection H as <-; exact Hl.
Qed.
Lemma linked_step y o y' : linked y -> ystep y o = Some y' -> y_lost y' = false -> linked y'.
Proof.
  intros Hl H Hlost. destruct o as [o| | | | | |x].
  - destruct (match o with OpCommit _ => true | _ => false end) eqn:Eo.
    { destruct o; try discriminate. injection H as <-. exact Hl. }
    assert (Hne : forall fl, o <> OpCommit fl) by (intros fl ->; discriminate).
    assert (Hst : exists gr, step (y_g y) o = Some gr /\ y' = mk_sys _ _ (fst gr) (y_ug y) (y_order y) (y_seen y)
       (y_cap y) (y_dcap y) (y_ring y) (y_trash y) (y_applied y) (y_started y) (y_cur y)
       (y_reading y) (y_chunk y) (y_held y) (y_next y) (y_trace y) (y_dead y) (y_lost y) (y_virgin y)).
    { destruct o; try discriminate; cbn [RuntimeModel.ystep] in H;
        (destruct (step _ _) as [gr|] eqn:E in H; cbn [bind] in H; [|discriminate]; injection H as <-; exists gr; split; [exact E|reflexivity]). }
    destruct Hst as ([g' r] & Est & ->). apply linked_edit; [exact Hl|]. eapply edit_evolves; [apply Hl|exact Hne|exact Est].
  - eapply linked_commit; eauto.
  - eapply linked_start; eauto.
  - eapply linked_read; eauto.
  - eapply linked_apply; eauto.
  - eapply linked_switch; eauto.
  - eapply linked_run; eauto.
Qed.
Lemma run_lost ops : forall y y', yrun St X proc y ops = Some y' -> y_lost y = true -> y_lost y' = true.
Proof.
  induction ops as [|o ops IH]; intros y y' H Hl; cbn [yrun] in H; [injection H as <-; exact Hl|].
  destruct (ystep y o) as [y1|] eqn:E; cbn [bind] in H; [|discriminate]. eapply IH; [exact H|]. eapply lost_stays; eauto.
Qed.
Lemma linked_runs ops : forall y y', linked y -> yrun St X proc y ops = Some y' -> y_lost y' = false -> linked y'.
Proof.
  induction ops as [|o ops IH]; intros y y' Hl H Hlost; cbn [yrun] in H; [injection H as <-; exact Hl|].
  destruct (ystep y o) as [y1|] eqn:E; cbn [bind] in H; [|discriminate]. eapply IH; [|exact H|exact Hlost].
  eapply linked_step; [exact Hl|exact E|]. destruct (y_lost y1) eqn:El; [|reflexivity].
  rewrite (run_lost ops y1 y' H El) in Hlost. discriminate.
Qed.
End Link.
