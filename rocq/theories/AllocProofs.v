(** The block allocator: layout invariant and the effect of its operations. *)
From Verif Require Import Base GraphModel OrderModel AllocModel.
Local Open Scope nat_scope.

Record lay (a : alloc) : Prop := {
  la_order : forall i j b c, i < j -> nth_error (a_blocks a) i = Some b -> nth_error (a_blocks a) j = Some c ->
    b_start b + b_len b <= b_start c;
  la_next : forall i b, nth_error (a_blocks a) i = Some b -> b_start b + b_len b <= a_next a;
  la_virtual : a_virtual a = a_next a;
  la_nodup : NoDup (a_ret a);
  la_ret : forall i, In i (a_ret a) -> exists b, nth_error (a_blocks a) i = Some b /\ b_borrows b = 0%N }.

(** Only block [i] differs, and only in its number of borrows. *)
Definition touched (a a' : alloc) (i : nat) (n : N) : Prop :=
  a_next a' = a_next a /\ a_virtual a' = a_virtual a /\ a_size a' = a_size a /\
  (exists b, nth_error (a_blocks a) i = Some b /\ nth_error (a_blocks a') i = Some (mk_blk (b_start b) (b_len b) n)) /\
  (forall j, j <> i -> nth_error (a_blocks a') j = nth_error (a_blocks a) j).
Lemma touched_back a a' i n : touched a a' i n -> forall j c, nth_error (a_blocks a') j = Some c ->
  exists b, nth_error (a_blocks a) j = Some b /\ b_start b = b_start c /\ b_len b = b_len c /\ (j <> i -> b = c).
Proof.
  intros (_ & _ & _ & (b & Hb & Hb') & Ho) j c Hc. destruct (Nat.eq_dec j i) as [->|Hne].
  - rewrite Hb' in Hc. injection Hc as <-. exists b. cbn. repeat split; auto. congruence.
  - rewrite Ho in Hc by exact Hne. exists c. auto.
Qed.
Lemma touched_lay a a' i n : lay a -> touched a a' i n -> NoDup (a_ret a') ->
  (forall j, In j (a_ret a') -> j = i /\ n = 0%N \/ j <> i /\ In j (a_ret a)) -> lay a'.
Proof.
  intros [H1 H2 H3 H4 H5] Ht Hn Hr. pose proof (touched_back _ _ _ _ Ht) as Hb. destruct Ht as (T1 & T2 & T3 & T4 & T5).
  constructor.
  - intros j j' c c' Hlt Hc Hc'. destruct (Hb _ _ Hc) as (b & B1 & B2 & B3 & _).
    destruct (Hb _ _ Hc') as (b' & B1' & B2' & B3' & _). rewrite <- B2, <- B3, <- B2'. eauto.
  - intros j c Hc. destruct (Hb _ _ Hc) as (b & B1 & B2 & B3 & _). rewrite <- B2, <- B3, T1. eauto.
  - congruence.
  - exact Hn.
  - intros j Hj. destruct (Hr j Hj) as [[-> ->]|[Hne Hin]].
    + destruct T4 as (b & _ & Hb'). eauto.
    + destruct (H5 j Hin) as (b & B & Z). exists b. rewrite T5; auto.
Qed.

Lemma find_start_spec off l : match find_start off l with
  | Some i => exists b, nth_error l i = Some b /\ b_start b = off /\ forall j c, j < i -> nth_error l j = Some c -> b_start c <> off
  | None => forall j c, nth_error l j = Some c -> b_start c <> off
  end.
Proof.
  induction l as [|b l IH]; cbn [find_start]; [intros [|j] c H; discriminate|].
  destruct (Nat.eqb_spec (b_start b) off) as [E|E].
  - exists b. split; [reflexivity|]. split; [exact E|]. intros j c Hj. lia.
  - destruct (find_start off l) as [i|]; cbn [option_map].
    + destruct IH as (c & H1 & H2 & H3). exists c. split; [exact H1|]. split; [exact H2|].
      intros [|j] d Hj Hd; [injection Hd as <-; exact E|]. eapply H3; [|exact Hd]. lia.
    + intros [|j] c Hc; [injection Hc as <-; exact E|]. eapply IH; eauto.
Qed.
(** Blocks of positive length have different starts; an equal start belongs to an earlier empty block. *)
Lemma start_inj a i j b c : lay a -> nth_error (a_blocks a) i = Some b -> nth_error (a_blocks a) j = Some c ->
  0 < b_len b -> b_start c = b_start b -> j = i \/ (j < i /\ b_len c = 0).
Proof.
  intros Hl Hb Hc Hp E. destruct (Nat.lt_trichotomy j i) as [H|[H|H]]; [right|left; exact H|].
  - split; [exact H|]. pose proof (la_order a Hl _ _ _ _ H Hc Hb). lia.
  - pose proof (la_order a Hl _ _ _ _ H Hb Hc). lia.
Qed.

Lemma return_cases a off a' : return_block a off = Some a' ->
  (a' = a /\ forall j c, nth_error (a_blocks a) j = Some c -> b_start c <> off) \/
  exists i b, nth_error (a_blocks a) i = Some b /\ b_start b = off /\ (0 < b_borrows b)%N /\
    (forall j c, j < i -> nth_error (a_blocks a) j = Some c -> b_start c <> off) /\
    touched a a' i (b_borrows b - 1) /\
    a_ret a' = if (b_borrows b - 1 =? 0)%N then i :: a_ret a else a_ret a.
Proof.
  unfold return_block. pose proof (find_start_spec off (a_blocks a)) as Hf.
  destruct (find_start off (a_blocks a)) as [i|]; [|intros H; injection H as <-; left; auto].
  destruct Hf as (b & H1 & H2 & H3). rewrite H1. cbn [bind].
  destruct (N.eqb_spec (b_borrows b) 0) as [E|E]; [discriminate|].
  destruct (set_nth _ _ _) as [bl|] eqn:Es; cbn [bind]; [|discriminate]. intros H. injection H as <-.
  right. exists i, b. cbn [a_ret]. split; [exact H1|]. split; [exact H2|]. split; [lia|]. split; [exact H3|].
  split; [|reflexivity]. unfold touched. cbn [a_next a_virtual a_size a_blocks]. do 3 (split; [reflexivity|]).
  split.
  - exists b. split; [exact H1|]. eapply set_nth_same; eauto.
  - intros j Hj. eapply set_nth_other; [exact Es|congruence].
Qed.
Lemma return_lay a off a' : lay a -> return_block a off = Some a' -> lay a'.
Proof.
  intros Hl H. destruct (return_cases _ _ _ H) as [[-> _]|(i & b & Hb & _ & Hp & _ & Ht & Hr)]; [exact Hl|].
  eapply touched_lay; [exact Hl|exact Ht| |]; rewrite Hr; destruct (N.eqb_spec (b_borrows b - 1) 0) as [E|E].
  - constructor; [|exact (la_nodup a Hl)]. intros Hi. destruct (la_ret a Hl i Hi) as (c & Hc & Hz).
    rewrite Hb in Hc. injection Hc as <-. lia.
  - exact (la_nodup a Hl).
  - intros j [<-|Hj]; [left; auto|]. destruct (Nat.eq_dec j i) as [->|Hne]; [left; auto|right; auto].
  - intros j Hj. destruct (Nat.eq_dec j i) as [->|Hne]; [|right; auto].
    destruct (la_ret a Hl i Hj) as (c & Hc & Hz). rewrite Hb in Hc. injection Hc as <-. lia.
Qed.
Lemma return_total a off i b : nth_error (a_blocks a) i = Some b -> b_start b = off -> (0 < b_borrows b)%N ->
  (forall j c, j < i -> nth_error (a_blocks a) j = Some c -> b_start c <> off) -> exists a', return_block a off = Some a'.
Proof.
  intros Hb Hs Hp Hf. unfold return_block. pose proof (find_start_spec off (a_blocks a)) as Hfs.
  destruct (find_start off (a_blocks a)) as [j|]; [|eauto].
  destruct Hfs as (c & H1 & H2 & H3). assert (j = i).
  { destruct (Nat.lt_trichotomy j i) as [H|[H|H]]; [|exact H|]; exfalso; [eapply Hf|eapply H3]; eauto. }
  subst j. rewrite Hb in *. injection H1 as <-. cbn [bind].
  destruct (N.eqb_spec (b_borrows b) 0) as [E|E]; [lia|].
  destruct (set_nth_some (a_blocks a) i (mk_blk (b_start b) (b_len b) (b_borrows b - 1))) as [bl ->];
    [apply nth_error_Some; congruence|]. cbn. eauto.
Qed.

Lemma pick_spec blocks len ret : (forall i, In i ret -> exists b, nth_error blocks i = Some b) ->
  exists r, pick blocks len ret = Some r /\
  match r with
  | Some (i, ret') => In i ret /\ (exists b, nth_error blocks i = Some b /\ b_borrows b = 0%N /\ len <= b_len b) /\
      exists l1 l2, ret = l1 ++ i :: l2 /\ ret' = l1 ++ l2
  | None => True
  end.
Proof.
  induction ret as [|i ret IH]; intros H; cbn [pick]; [exists None; auto|].
  destruct (H i) as [b Hb]; [left; reflexivity|]. rewrite Hb. cbn [bind].
  destruct ((b_borrows b =? 0)%N && (len <=? b_len b)) eqn:E.
  - apply andb_true_iff in E as [E1 E2]. apply N.eqb_eq in E1. apply Nat.leb_le in E2.
    exists (Some (i, ret)). split; [reflexivity|]. split; [left; reflexivity|]. split; [eauto|].
    exists [], ret. auto.
  - destruct IH as (r & Hr & Hs); [intros j Hj; apply H; right; exact Hj|]. rewrite Hr. cbn [bind].
    destruct r as [[j ret']|]; cbn [option_map fst snd]; [|exists None; auto].
    eexists. split; [reflexivity|]. cbn. destruct Hs as (H1 & H2 & l1 & l2 & -> & ->).
    split; [right; exact H1|]. split; [exact H2|]. exists (i :: l1), l2. auto.
Qed.
(** A granted block is new or was returned by all its borrowers. *)
Lemma get_spec a n bs bo : lay a -> exists a' off, get_block a n bs bo = Some (a', off) /\ lay a' /\
  a_size a' = a_size a /\ a_next a <= a_next a' /\ a_virtual a <= a_virtual a' /\
  exists i len, nth_error (a_blocks a') i = Some (mk_blk off len bo) /\ n * bs <= len /\
    (forall j, j <> i -> nth_error (a_blocks a') j = nth_error (a_blocks a) j) /\
    ((i = List.length (a_blocks a) /\ len = n * bs /\ a_ret a' = a_ret a) \/
     (In i (a_ret a) /\ (exists b, nth_error (a_blocks a) i = Some b /\ b_start b = off /\ b_len b = len /\ b_borrows b = 0%N) /\
      forall x, In x (a_ret a') <-> In x (a_ret a) /\ x <> i)).
Proof.
  intros Hl. unfold get_block.
  destruct (pick_spec (a_blocks a) (n * bs) (a_ret a)) as (r & -> & Hs).
  { intros i Hi. destruct (la_ret a Hl i Hi) as (b & Hb & _). eauto. }
  cbn [bind]. destruct r as [[i ret']|].
  - destruct Hs as (Hin & (b & Hb & Hz & Hlen) & l1 & l2 & E1 & E2). rewrite Hb. cbn [bind].
    destruct (set_nth_some (a_blocks a) i (mk_blk (b_start b) (b_len b) bo)) as [bl Ebl];
      [apply nth_error_Some; congruence|].
    rewrite Ebl. cbn [bind]. eexists _, _. split; [reflexivity|].
    pose proof (la_nodup a Hl) as Hnd.
    assert (Hx : forall x, In x ret' <-> In x (a_ret a) /\ x <> i).
    { intros x. rewrite E1, E2. rewrite E1 in Hnd. apply NoDup_remove_2 in Hnd. rewrite !in_app_iff in *. cbn [In].
      split; [|intros [[H|[H|H]] H']; auto; congruence]. intros H. split; [tauto|]. intros ->. tauto. }
    assert (Ht : touched a (mk_alloc (a_next a) bl ret' (a_virtual a) (a_size a)) i bo).
    { unfold touched. cbn. do 3 (split; [reflexivity|]). split.
      - exists b. split; [exact Hb|]. eapply set_nth_same; eauto.
      - intros j Hj. eapply set_nth_other; [exact Ebl|congruence]. }
    split; [|split; [reflexivity|split; [cbn; lia|split; [cbn; lia|]]]].
    + eapply touched_lay; [exact Hl|exact Ht| |]; cbn [a_ret].
      * rewrite E2. rewrite E1 in Hnd. eapply NoDup_remove_1. exact Hnd.
      * intros j Hj. apply Hx in Hj as [H1 H2]. right. auto.
    + destruct Ht as (_ & _ & _ & (b' & Hb1 & Hb2) & Ho). rewrite Hb in Hb1. injection Hb1 as <-.
      exists i, (b_len b). split; [exact Hb2|]. split; [exact Hlen|]. split; [exact Ho|]. right.
      split; [exact Hin|]. split; [exists b; auto|]. cbn [a_ret]. exact Hx.
  - unfold assign_new_block. eexists _, _. split; [reflexivity|]. cbn [a_blocks a_next a_virtual a_size a_ret].
    assert (Hv : (if a_virtual a <? a_next a + n * bs then a_next a + n * bs else a_virtual a) = a_next a + n * bs).
    { rewrite (la_virtual a Hl). destruct (Nat.ltb_spec (a_next a) (a_next a + n * bs)); lia. }
    assert (Hnth : forall j c, nth_error (a_blocks a ++ [mk_blk (a_next a) (n * bs) bo]) j = Some c ->
      (j < List.length (a_blocks a) /\ nth_error (a_blocks a) j = Some c) \/
      (j = List.length (a_blocks a) /\ c = mk_blk (a_next a) (n * bs) bo)).
    { intros j c H. destruct (Nat.lt_ge_cases j (List.length (a_blocks a))) as [Hj|Hj].
      - rewrite nth_error_app1 in H by exact Hj. auto.
      - rewrite nth_error_app2 in H by exact Hj. right.
        destruct (j - List.length (a_blocks a)) as [|d] eqn:Ed; cbn in H; [|destruct d; discriminate].
        injection H as <-. split; [lia|reflexivity]. }
    split; [|split; [reflexivity|split; [lia|split; [rewrite Hv, (la_virtual a Hl); lia|]]]].
    + constructor; cbn [a_blocks a_next a_virtual a_ret].
      * intros i j b c Hij Hb Hc. destruct (Hnth _ _ Hb) as [[L1 B1]|[L1 B1]], (Hnth _ _ Hc) as [[L2 B2]|[L2 B2]]; try lia.
        -- exact (la_order a Hl _ _ _ _ Hij B1 B2).
        -- subst c. cbn. eapply (la_next a Hl); eauto.
      * intros i b Hb. destruct (Hnth _ _ Hb) as [[L1 B1]|[L1 B1]].
        -- pose proof (la_next a Hl _ _ B1). lia.
        -- subst b. cbn. lia.
      * exact Hv.
      * exact (la_nodup a Hl).
      * intros i Hi. destruct (la_ret a Hl i Hi) as (b & Hb & Hz). exists b. split; [|exact Hz].
        rewrite nth_error_app1; [exact Hb|]. apply nth_error_Some. congruence.
    + exists (List.length (a_blocks a)), (n * bs). split; [|split; [lia|split]].
      * rewrite nth_error_app2, Nat.sub_diag by lia. reflexivity.
      * intros j Hj. destruct (Nat.lt_ge_cases j (List.length (a_blocks a))) as [H|H].
        -- rewrite nth_error_app1 by exact H. reflexivity.
        -- rewrite nth_error_app2 by exact H. destruct (j - List.length (a_blocks a)) as [|d] eqn:Ed; [lia|].
           cbn. destruct d; cbn; symmetry; apply nth_error_None; exact H.
      * left. auto.
Qed.
Lemma reset_spec a bs : exists a', reset a bs = Some a' /\ lay a' /\ a_size a' = a_size a /\
  a_blocks a' = [mk_blk 0 bs usize_max] /\ a_ret a' = [] /\ a_virtual a' = bs.
Proof.
  unfold reset, get_block. cbn [a_ret pick bind a_blocks assign_new_block a_next a_virtual a_size fst].
  eexists. split; [reflexivity|]. rewrite Nat.mul_1_l. cbn [Nat.add].
  split; [|split; [reflexivity|split; [reflexivity|split; [reflexivity|]]]]; cbn [a_blocks a_next a_virtual a_ret].
  - constructor; cbn [a_blocks a_next a_virtual a_ret app].
    + intros i [|j] b c Hij Hb Hc; [lia|]. destruct j; discriminate.
    + intros [|i] b Hb; cbn in Hb; [injection Hb as <-; cbn; lia|destruct i; discriminate].
    + destruct (Nat.ltb_spec 0 bs); lia.
    + constructor.
    + intros i [].
  - destruct (Nat.ltb_spec 0 bs); lia.
Qed.
