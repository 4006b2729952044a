From Verif Require Import Base DelayModel DelaySpec.
From Coq Require Import PeanoNat.

Section Proofs.
Context {V : Type} (zero : V).
Notation back := (back V zero).

(** * Rings: the first [d] cells of a buffer, written one after the other *)
(** After the inputs [xs], written from position [p] on: going back [j] cells gives the [j]-th last input, or what was there
    before ([old]). *)
Definition ring (d p : nat) (old : nat -> V) (buf : list V) (xs : list V) : Prop :=
  d <= length buf /\
  forall j, 1 <= j <= d -> nth_error buf ((p + length xs + d - j) mod d) =
    Some (if length xs <? j then old ((p + length xs + d - j) mod d) else nth (length xs - j) xs zero).

Lemma mod_distinct : forall d a k, 0 < d -> 1 <= k < d -> (a + k) mod d <> a mod d.
Proof.
  intros d a k Hd Hk H.
  rewrite <- (Nat.add_mod_idemp_l a k d) in H by lia.
  pose proof (Nat.mod_upper_bound a d ltac:(lia)) as B. set (r := a mod d) in *.
  destruct (Nat.lt_ge_cases (r + k) d) as [L | L].
  - rewrite Nat.mod_small in H by exact L. lia.
  - replace (r + k) with ((r + k - d) + 1 * d) in H by lia. rewrite Nat.mod_add in H by lia. rewrite Nat.mod_small in H by lia. lia.
Qed.
Lemma ring_write : forall d p old buf xs x buf', 0 < d -> ring d p old buf xs ->
  set_nth buf ((p + length xs) mod d) x = Some buf' -> ring d p old buf' (xs ++ [x]).
Proof.
  intros d p old buf xs x buf' Hd [HL H] E. split; [rewrite (set_nth_length _ _ _ _ E); exact HL |].
  intros j Hj. rewrite app_length. cbn [length]. destruct (Nat.eq_dec j 1) as [-> | N1].
  - replace (p + (length xs + 1) + d - 1) with (p + length xs + 1 * d) by lia. rewrite Nat.mod_add by lia.
    rewrite (set_nth_same _ _ _ _ E). replace (length xs + 1 <? 1) with false by (symmetry; apply Nat.ltb_ge; lia).
    f_equal. replace (length xs + 1 - 1) with (length xs) by lia. rewrite app_nth2, Nat.sub_diag by lia. reflexivity.
  - assert (Q : p + (length xs + 1) + d - j = p + length xs + d - (j - 1)) by lia. rewrite Q. clear Q.
    rewrite (set_nth_other _ _ _ _ _ E).
    + rewrite (H (j - 1)) by lia. f_equal.
      destruct (Nat.ltb_spec (length xs) (j - 1)) as [L | L]; destruct (Nat.ltb_spec (length xs + 1) j) as [L' | L']; try lia; [reflexivity |].
      rewrite app_nth1 by lia. f_equal. lia.
    + intros C. symmetry in C. revert C.
      replace (p + length xs + d - (j - 1)) with ((p + length xs) + (d - (j - 1))) by lia. apply mod_distinct; lia.
Qed.
Lemma ring_mono : forall d p old buf xs ys, ring d p old buf xs -> xs = ys -> ring d p old buf ys.
Proof. intros. subst. assumption. Qed.
Lemma ring_init : forall d p buf, 0 < d -> d <= length buf -> ring d p (fun i => nth i buf zero) buf [].
Proof.
  intros d p buf Hd H. split; [exact H |]. intros j Hj. cbn [length].
  replace (0 <? j) with true by (symmetry; apply Nat.ltb_lt; lia).
  apply nth_error_nth'. pose proof (Nat.mod_upper_bound (p + 0 + d - j) d ltac:(lia)). lia.
Qed.
Lemma nth_repeat_zero : forall n i, nth i (repeat zero n) zero = zero.
Proof. induction n as [| n IH]; intros [| i]; try reflexivity. apply IH. Qed.

(** * SampleDelay *)
Lemma sd_process_ok : forall L x s xs, 0 < L -> ring L 0 (fun _ => zero) (sd_buf s) xs -> length (sd_buf s) = L -> sd_wp s = length xs mod L ->
  sd_d s < L -> exists buf', sd_process x s = Some (mk_sdelay buf' (length (xs ++ [x]) mod L) (sd_d s), back (xs ++ [x]) (length xs) (sd_d s)) /\
    ring L 0 (fun _ => zero) buf' (xs ++ [x]) /\ length buf' = L.
Proof.
  intros L x s xs HL R Hb Hw Hd. unfold sd_process.
  pose proof (Nat.mod_upper_bound (length xs) L ltac:(lia)) as B.
  destruct (set_nth_some (sd_buf s) (sd_wp s) x) as [buf' E]; [rewrite Hw, Hb; exact B |].
  rewrite E. cbn [bind]. assert (Lb : length buf' = L) by (rewrite (set_nth_length _ _ _ _ E); exact Hb). rewrite Lb.
  rewrite Hw in *. pose proof (ring_write L 0 _ _ _ _ _ HL R E) as R'.
  replace (length xs mod L + L <? sd_d s) with false by (symmetry; apply Nat.ltb_ge; lia).
  replace (L =? 0) with false by (symmetry; apply Nat.eqb_neq; lia).
  destruct R' as [_ R2]. specialize (R2 (sd_d s + 1) ltac:(lia)). rewrite app_length in R2. cbn [length] in R2.
  assert (Q : (0 + (length xs + 1) + L - (sd_d s + 1)) mod L = (length xs mod L + L - sd_d s) mod L).
  { replace (0 + (length xs + 1) + L - (sd_d s + 1)) with (length xs + (L - sd_d s)) by lia.
    replace (length xs mod L + L - sd_d s) with (length xs mod L + (L - sd_d s)) by lia. rewrite Nat.add_mod_idemp_l by lia. reflexivity. }
  rewrite Q in R2. rewrite R2. cbn [bind]. exists buf'. split; [| split; [apply (ring_write L 0 _ _ _ _ _ HL R E) | exact Lb]].
  f_equal. f_equal.
  - f_equal. rewrite app_length. cbn [length]. rewrite Nat.add_mod_idemp_l by lia. reflexivity.
  - unfold DelaySpec.back. destruct (Nat.ltb_spec (length xs + 1) (sd_d s + 1)) as [A | A]; destruct (Nat.ltb_spec (length xs) (sd_d s)) as [A' | A']; try lia; [reflexivity |].
    f_equal. lia.
Qed.
Lemma back_app : forall xs ys n d, n < length xs -> back (xs ++ ys) n d = back xs n d.
Proof. intros. unfold DelaySpec.back. destruct (n <? d); [reflexivity |]. apply app_nth1. lia. Qed.
Lemma sd_run_ok : forall L ops s xs, 0 < L -> ring L 0 (fun _ => zero) (sd_buf s) xs -> length (sd_buf s) = L -> sd_wp s = length xs mod L ->
  sd_d s < L -> (forall d, In (SdSet d) ops -> d < L) ->
  let ys := sd_inputs V (sd_d s) ops in
  sd_run s ops = Some (map (fun '(n, (d, _)) => back (xs ++ map snd ys) n d) (combine (seq (length xs) (length ys)) ys)).
Proof.
  intros L ops. induction ops as [| o ops IH]; intros s xs HL R Hb Hw Hd Hs ys; [reflexivity |]. destruct o as [d | x]; cbn [sd_run].
  - rewrite (IH (sd_set d s) xs); try assumption; [reflexivity | apply Hs; left; reflexivity | intros d' H; apply Hs; right; exact H].
  - destruct (sd_process_ok L x s xs HL R Hb Hw Hd) as (buf' & E & R' & Lb). rewrite E. cbn [bind fst snd].
    rewrite (IH (mk_sdelay buf' (length (xs ++ [x]) mod L) (sd_d s)) (xs ++ [x])); try assumption; try reflexivity;
      [| intros d' H; apply Hs; right; exact H].
    cbn [bind sd_d]. subst ys. cbn [sd_inputs map snd length seq combine]. f_equal. f_equal.
      replace (xs ++ x :: map snd (sd_inputs V (sd_d s) ops)) with ((xs ++ [x]) ++ map snd (sd_inputs V (sd_d s) ops)) by (rewrite <- app_assoc; reflexivity).
      symmetry. apply back_app. rewrite app_length. cbn. lia.
    + rewrite app_length. cbn [length]. rewrite Nat.add_1_r. rewrite <- app_assoc. reflexivity.
Qed.

(** * StaticSampleDelay *)
(** A run of cells that does not wrap *)
Lemma set_nth_app : forall (p : list V) y q x, set_nth (p ++ y :: q) (length p) x = Some (p ++ x :: q).
Proof. induction p as [| a p IH]; intros y q x; [reflexivity |]. cbn [app length set_nth]. rewrite IH. reflexivity. Qed.
Lemma samples_flat : forall xs p q r, length q = length xs -> (q = @nil V -> r <> @nil V) ->
  ssd_samples xs (mk_ssd (p ++ q ++ r) (length p) (length (p ++ q ++ r))) =
  Some (mk_ssd (p ++ xs ++ r) ((length p + length xs) mod length (p ++ q ++ r)) (length (p ++ q ++ r)), q).
Proof.
  induction xs as [| x xs IH]; intros p q r Hq Hr.
  - destruct q as [| ? ?]; [| discriminate Hq]. cbn [ssd_samples app length]. rewrite Nat.add_0_r, Nat.mod_small; [reflexivity |].
    rewrite app_length. specialize (Hr eq_refl). destruct r as [| ? ?]; [contradiction |]. cbn [length]. lia.
  - destruct q as [| y q]; [discriminate Hq |]. injection Hq as Hq. cbn [ssd_samples].
    unfold ssd_read. cbn [ss_buf ss_pos]. rewrite nth_error_app2 by lia. rewrite Nat.sub_diag. cbn [app nth_error bind].
    unfold ssd_write. cbn [ss_buf ss_pos ss_len]. change (p ++ (y :: q) ++ r) with (p ++ y :: (q ++ r)). rewrite set_nth_app. cbn [bind].
    set (L := length (p ++ y :: q ++ r)). assert (HL : L = length p + S (length q + length r)) by (unfold L; rewrite app_length; cbn [length]; rewrite app_length; reflexivity).
    unfold rem. replace (L =? 0) with false by (symmetry; apply Nat.eqb_neq; lia). cbn [bind].
    destruct (Nat.eq_dec (length q + length r) 0) as [Z0 | NZ].
    + (* the last cell *)
      assert (q = []) by (destruct q; [reflexivity | cbn in Z0; lia]). assert (r = []) by (destruct r; [reflexivity | cbn in Z0; lia]). subst q r.
      destruct xs as [| ? ?]; [| discriminate Hq]. cbn [ssd_samples bind fst snd app length]. reflexivity.
    + assert (Q : (length p + 1) mod L = length (p ++ [x])) by (rewrite app_length; cbn [length]; apply Nat.mod_small; lia). rewrite Q.
      assert (E : p ++ x :: q ++ r = (p ++ [x]) ++ q ++ r) by (rewrite <- app_assoc; reflexivity). rewrite E.
      assert (EL : L = length ((p ++ [x]) ++ q ++ r)) by (rewrite <- E; unfold L; rewrite !app_length; reflexivity). rewrite EL.
      rewrite IH; [| exact Hq | intros ->; destruct r; [cbn in NZ; lia | discriminate]].
      cbn [bind fst snd]. f_equal. f_equal. f_equal; [rewrite <- app_assoc; reflexivity |]. f_equal. rewrite app_length. cbn [length]. lia.
Qed.
Lemma samples_app : forall xs ys s, ssd_samples (xs ++ ys) s =
  (r <- ssd_samples xs s;; r2 <- ssd_samples ys (fst r);; @Some (ssd V * list V) (fst r2, snd r ++ snd r2)).
Proof.
  induction xs as [| x xs IH]; intros ys s; cbn [app ssd_samples bind fst snd].
  - destruct (ssd_samples ys s) as [[? ?] |]; reflexivity.
  - destruct (ssd_read s) as [o |]; [| reflexivity]. cbn [bind]. destruct (ssd_write x s) as [s1 |]; [| reflexivity]. cbn [bind].
    rewrite IH. destruct (ssd_samples xs s1) as [[s2 l] |]; [| reflexivity]. cbn [bind fst snd].
    destruct (ssd_samples ys s2) as [[s3 l2] |]; reflexivity.
Qed.
Lemma slice_mid : forall (p q r : list V), slice (length p) (length p + length q) (p ++ q ++ r) = Some q.
Proof.
  intros. unfold slice. rewrite !app_length.
  replace (length p <=? length p + length q) with true by (symmetry; apply Nat.leb_le; lia).
  replace (length p + length q <=? length p + (length q + length r)) with true by (symmetry; apply Nat.leb_le; lia). cbn [andb].
  rewrite skipn_app, skipn_all, Nat.sub_diag. cbn [app skipn]. replace (length p + length q - length p) with (length q) by lia.
  rewrite firstn_app, firstn_all, Nat.sub_diag. cbn [firstn]. rewrite app_nil_r. reflexivity.
Qed.
Lemma copy_mid : forall (p q r x : list V), length x = length q -> copy_to (length p) (length p + length q) x (p ++ q ++ r) = Some (p ++ x ++ r).
Proof.
  intros. unfold copy_to. rewrite !app_length.
  replace (length p <=? length p + length q) with true by (symmetry; apply Nat.leb_le; lia).
  replace (length p + length q <=? length p + (length q + length r)) with true by (symmetry; apply Nat.leb_le; lia).
  replace (length x =? length p + length q - length p) with true by (symmetry; apply Nat.eqb_eq; lia). cbn [andb].
  f_equal. rewrite firstn_app, firstn_all, Nat.sub_diag. cbn [firstn]. rewrite app_nil_r. f_equal. f_equal.
  rewrite skipn_app, skipn_all2 by lia. cbn [app]. replace (length p + length q - length p) with (length q) by lia.
  rewrite skipn_app, skipn_all, Nat.sub_diag. reflexivity.
Qed.
Lemma copy_mid' : forall (p q r x : list V) a b, a = length p -> b = length p + length q -> length x = length q -> copy_to a b x (p ++ q ++ r) = Some (p ++ x ++ r).
Proof. intros. subst. apply copy_mid. assumption. Qed.
Lemma slice_mid' : forall (p q r : list V) a b, a = length p -> b = length p + length q -> slice a b (p ++ q ++ r) = Some q.
Proof. intros. subst. apply slice_mid. Qed.
Lemma split3 : forall (l : list V) a n, a + n <= length l -> exists p q r, l = p ++ q ++ r /\ length p = a /\ length q = n.
Proof.
  intros l a n H. exists (firstn a l), (firstn n (skipn a l)), (skipn n (skipn a l)). split; [| split].
  - rewrite firstn_skipn, firstn_skipn. reflexivity.
  - apply firstn_length_le. lia.
  - apply firstn_length_le. rewrite skipn_length. lia.
Qed.
(** Block access and sample access do the same. *)
Lemma block_samples : forall xs s, 0 < length (ss_buf s) -> ss_pos s < length (ss_buf s) -> ss_len s = length (ss_buf s) -> length xs <= length (ss_buf s) ->
  ssd_block V zero xs s = ssd_samples xs s.
Proof.
  intros xs [buf pos dl] H0 Hp Hl Hx. cbn [ss_buf ss_pos ss_len] in *. subst dl.
  unfold ssd_block, ssd_read_block, ssd_write_block. cbn [ss_buf ss_pos ss_len].
  replace (length buf <? length xs) with false by (symmetry; apply Nat.ltb_ge; lia).
  unfold rem. replace (length buf =? 0) with false by (symmetry; apply Nat.eqb_neq; lia).
  destruct (Nat.leb_spec (pos + length xs) (length buf)) as [L | L].
  - destruct (split3 buf pos (length xs) L) as (p & q & r & -> & Lp & Lq). subst pos. rewrite <- Lq.
    rewrite slice_mid. cbn [bind]. rewrite copy_mid by lia. cbn [bind]. rewrite samples_flat; [rewrite Lq; reflexivity | exact Lq |].
    intros -> ->. rewrite !app_nil_r in Hp. lia.
  - (* wraps *)
    set (e := pos + length xs - length buf).
    assert (Em : (pos + length xs) mod length buf = e).
    { replace (pos + length xs) with (e + 1 * length buf) by (unfold e; lia). rewrite Nat.mod_add by lia. apply Nat.mod_small. unfold e. lia. }
    rewrite Em. cbn [bind]. replace (length xs <? e) with false by (symmetry; apply Nat.ltb_ge; unfold e; lia).
    assert (Ne : length xs - e = length buf - pos) by (unfold e; lia). rewrite Ne.
    destruct (split3 buf e (pos - e)) as (a & b & c & Eb & La & Lb); [unfold e; lia |].
    assert (Lc : length c = length buf - pos) by (apply (f_equal (@length V)) in Eb; rewrite !app_length in Eb; unfold e in *; lia).
    assert (Ex : exists x1 x2, xs = x1 ++ x2 /\ length x1 = length c /\ length x2 = e).
    { exists (firstn (length c) xs), (skipn (length c) xs). split; [symmetry; apply firstn_skipn |]. rewrite firstn_length_le by (unfold e in *; lia). split; [reflexivity |].
      rewrite skipn_length. unfold e in *. lia. }
    destruct Ex as (x1 & x2 & -> & L1 & L2). rewrite app_length in *.
    assert (Lpos : pos = length (a ++ b)) by (rewrite app_length; unfold e in *; lia).
    (* read *)
    assert (Eb1 : buf = (a ++ b) ++ c ++ []) by (rewrite app_nil_r, <- app_assoc; exact Eb).
    assert (S1 : slice pos (length buf) buf = Some c).
    { rewrite Eb1 at 2. apply slice_mid'; [exact Lpos | rewrite <- Lpos, Lc; lia]. }
    rewrite S1. cbn [bind].
    assert (C1 : copy_to 0 (length buf - pos) c (repeat zero (length x1 + length x2)) = Some ([] ++ c ++ repeat zero (length x2))).
    { rewrite repeat_app. change (repeat zero (length x1) ++ repeat zero (length x2)) with ([] ++ repeat zero (length x1) ++ repeat zero (length x2)).
      apply copy_mid'; [reflexivity | rewrite repeat_length; cbn; lia | rewrite repeat_length; lia]. }
    rewrite C1. cbn [bind app].
    assert (S2 : slice 0 e buf = Some a).
    { rewrite Eb. change (a ++ b ++ c) with ([] ++ a ++ (b ++ c)). apply slice_mid'; [reflexivity | cbn; lia]. }
    rewrite S2. cbn [bind].
    assert (C2 : copy_to (length buf - pos) (length x1 + length x2) a (c ++ repeat zero (length x2)) = Some (c ++ a)).
    { rewrite <- (app_nil_r (repeat zero (length x2))). rewrite (copy_mid' c (repeat zero (length x2)) [] a).
      - rewrite app_nil_r. reflexivity.
      - lia.
      - rewrite repeat_length. lia.
      - rewrite repeat_length. lia. }
    rewrite C2. cbn [bind].
    (* write *)
    assert (S3 : slice 0 (length buf - pos) (x1 ++ x2) = Some x1).
    { change (x1 ++ x2) with ([] ++ x1 ++ x2). apply slice_mid'; [reflexivity | cbn; lia]. }
    rewrite S3. cbn [bind].
    assert (C3 : copy_to pos (length buf) x1 buf = Some ((a ++ b) ++ x1 ++ [])).
    { rewrite Eb1 at 2. apply copy_mid'; [exact Lpos | rewrite <- Lpos, Lc; lia | exact L1]. }
    rewrite C3. cbn [bind]. rewrite app_nil_r.
    assert (S4 : slice (length buf - pos) (length x1 + length x2) (x1 ++ x2) = Some x2).
    { rewrite <- (app_nil_r x2) at 2. apply slice_mid'; lia. }
    rewrite S4. cbn [bind].
    assert (C4 : copy_to 0 e x2 ((a ++ b) ++ x1) = Some (x2 ++ b ++ x1)).
    { rewrite <- app_assoc. change (a ++ b ++ x1) with ([] ++ a ++ (b ++ x1)). rewrite (copy_mid' [] a (b ++ x1) x2); [reflexivity | reflexivity | cbn; lia | lia]. }
    rewrite C4. cbn [bind].
    (* the samples *)
    rewrite samples_app.
    assert (F1 := samples_flat x1 (a ++ b) c [] ltac:(lia)). rewrite <- Eb1, <- Lpos in F1.
    rewrite F1 by (intros ->; cbn in Lc; lia). cbn [bind fst snd]. rewrite app_nil_r.
    replace ((pos + length x1) mod length buf) with 0 by (replace (pos + length x1) with (length buf) by lia; rewrite Nat.mod_same by lia; reflexivity).
    assert (LB : length buf = length ([] ++ a ++ (b ++ x1))) by (rewrite Eb; cbn [app]; rewrite !app_length; lia).
    assert (F2 := samples_flat x2 [] a (b ++ x1) ltac:(lia)). rewrite <- LB in F2. cbn [app length Nat.add] in F2.
    rewrite <- app_assoc. rewrite F2.
    + cbn [bind fst snd]. f_equal. f_equal. f_equal. symmetry. rewrite Nat.mod_small by (unfold e in *; lia). lia.
    + intros -> C. apply app_eq_nil in C as [-> ->]. cbn in L1. lia.
Qed.
Definition ssd_inv (L : nat) (s : ssd V) (xs : list V) : Prop :=
  length (ss_buf s) = L /\ ss_len s = L /\ ss_pos s = length xs mod L /\ ring L 0 (fun _ => zero) (ss_buf s) xs.
Lemma samples_ok : forall L ys s xs, 0 < L -> ssd_inv L s xs ->
  exists s', ssd_samples ys s = Some (s', map (fun n => back (xs ++ ys) n L) (seq (length xs) (length ys))) /\ ssd_inv L s' (xs ++ ys).
Proof.
  intros L. induction ys as [| y ys IH]; intros s xs HL (I1 & I2 & I3 & I4).
  - exists s. rewrite app_nil_r. split; [reflexivity |]. repeat split; try assumption; apply I4.
  - pose proof (Nat.mod_upper_bound (length xs) L ltac:(lia)) as B.
    assert (Rd : ssd_read s = Some (back (xs ++ y :: ys) (length xs) L)).
    { unfold ssd_read. rewrite I3. destruct I4 as [_ R]. specialize (R L ltac:(lia)).
      replace ((0 + length xs + L - L) mod L) with (length xs mod L) in R by (f_equal; lia). rewrite R. f_equal.
      unfold DelaySpec.back. destruct (length xs <? L) eqn:E; [reflexivity |]. apply Nat.ltb_ge in E. rewrite app_nth1 by lia. reflexivity. }
    destruct (set_nth_some (ss_buf s) (ss_pos s) y) as [buf' E]; [rewrite I3, I1; exact B |].
    assert (Wr : ssd_write y s = Some (mk_ssd buf' (length (xs ++ [y]) mod L) L)).
    { unfold ssd_write. rewrite E. cbn [bind]. unfold rem. rewrite I2. replace (L =? 0) with false by (symmetry; apply Nat.eqb_neq; lia). cbn [bind].
      f_equal. f_equal. rewrite I3, app_length. cbn [length]. rewrite Nat.add_mod_idemp_l by lia. reflexivity. }
    rewrite I3 in E.
    destruct (IH (mk_ssd buf' (length (xs ++ [y]) mod L) L) (xs ++ [y]) HL) as (s' & A & B').
    { split; [cbn [ss_buf]; rewrite (set_nth_length _ _ _ _ E); exact I1 |]. split; [reflexivity |]. split; [reflexivity |].
      apply (ring_write L 0 _ _ _ _ _ HL I4 E). }
    exists s'. cbn [ssd_samples]. rewrite Rd. cbn [bind]. rewrite Wr. cbn [bind]. rewrite A. cbn [bind fst snd]. split.
    + f_equal. f_equal. cbn [length seq map]. f_equal. rewrite app_length. cbn [length]. rewrite Nat.add_1_r, <- app_assoc. reflexivity.
    + rewrite <- app_assoc in B'. exact B'.
Qed.
Lemma ss_run_ok : forall L ops s xs, 0 < L -> ssd_inv L s xs -> no_change V ops -> blocks_fit V L ops ->
  exists s', ss_run V zero s ops = Some (s', map (fun n => back (xs ++ ss_inputs V ops) n L) (seq (length xs) (length (ss_inputs V ops)))).
Proof.
  intros L. induction ops as [| o ops IH]; intros s xs HL HI Hn Hb.
  - exists s. reflexivity.
  - assert (Step : exists ys s1, ss_step V zero s o = Some (s1, map (fun n => back (xs ++ ys) n L) (seq (length xs) (length ys))) /\ ssd_inv L s1 (xs ++ ys) /\
              ss_inputs V (o :: ops) = ys ++ ss_inputs V ops).
    { destruct HI as (I1 & I2 & I3 & I4). pose proof (Nat.mod_upper_bound (length xs) L ltac:(lia)) as B. destruct o as [n | ys | ys | ys]; cbn [ss_step].
      - exfalso. apply (Hn n). left. reflexivity.
      - destruct (samples_ok L ys s xs HL) as (s1 & A1 & A2); [repeat split; try assumption; apply I4 |]. exists ys, s1. split; [exact A1 |]. split; [exact A2 | reflexivity].
      - destruct (samples_ok L ys s xs HL) as (s1 & A1 & A2); [repeat split; try assumption; apply I4 |]. exists ys, s1. split; [| split; [exact A2 | reflexivity]].
        rewrite block_samples; [exact A1 | lia | rewrite I3; lia | lia |]. rewrite I1. apply Hb. left. reflexivity.
      - destruct (samples_ok L ys s xs HL) as (s1 & A1 & A2); [repeat split; try assumption; apply I4 |]. exists ys, s1. split; [| split; [exact A2 | reflexivity]].
        unfold ssd_process. destruct (Nat.ltb_spec (length ys) (length (ss_buf s))) as [Lt | Lt]; [| exact A1].
        rewrite block_samples; [exact A1 | lia | rewrite I3; lia | lia | lia]. }
    destruct Step as (ys & s1 & E & I1 & Q).
    destruct (IH s1 (xs ++ ys) HL I1) as (s2 & E2); [intros n H; apply (Hn n); right; exact H | intros zs H; apply (Hb zs); right; exact H |].
    exists s2. cbn [ss_run]. rewrite E. cbn [bind fst snd]. rewrite E2. cbn [bind fst snd]. rewrite Q. f_equal. f_equal.
    rewrite (app_length ys). rewrite seq_app, map_app. rewrite (app_length xs), <- app_assoc. f_equal.
    apply map_ext_in. intros n Hin. apply in_seq in Hin. rewrite app_assoc. symmetry. apply back_app. rewrite app_length. lia.
Qed.

(** After a change of the length, sample by sample *)
Lemma changed_samples : forall d ys s xs p old, 0 < d -> ss_len s = d -> ss_pos s = (p + length xs) mod d -> ring d p old (ss_buf s) xs ->
  exists s' out, ssd_samples ys s = Some (s', out) /\ length out = length ys /\
    forall m, m < length ys -> d <= length xs + m -> nth_error out m = Some (nth (length xs + m - d) (xs ++ ys) zero).
Proof.
  intros d. induction ys as [| y ys IH]; intros s xs p old Hd I2 I3 I4.
  - exists s, []. split; [reflexivity |]. split; [reflexivity |]. intros m H. cbn in H. lia.
  - pose proof (Nat.mod_upper_bound (p + length xs) d ltac:(lia)) as B. pose proof (proj1 I4) as Hb.
    destruct (set_nth_some (ss_buf s) (ss_pos s) y) as [buf' E]; [rewrite I3; lia |].
    destruct (nth_error (ss_buf s) (ss_pos s)) as [o |] eqn:O; [| apply nth_error_None in O; rewrite I3 in O; lia].
    set (s1 := mk_ssd buf' ((p + length (xs ++ [y])) mod d) d).
    assert (Wr : ssd_write y s = Some s1).
    { unfold ssd_write. rewrite E. cbn [bind]. unfold rem. rewrite I2. replace (d =? 0) with false by (symmetry; apply Nat.eqb_neq; lia). cbn [bind].
      unfold s1. f_equal. f_equal. rewrite I3, app_length. cbn [length]. rewrite Nat.add_mod_idemp_l by lia. f_equal. lia. }
    rewrite I3 in E. pose proof (ring_write d p old _ _ _ _ Hd I4 E) as R'.
    destruct (IH s1 (xs ++ [y]) p old Hd eq_refl eq_refl R') as (s' & out & A1 & A2 & A3).
    exists s', (o :: out). cbn [ssd_samples]. unfold ssd_read. rewrite O. cbn [bind]. rewrite Wr. cbn [bind]. rewrite A1. cbn [bind fst snd].
    split; [reflexivity |]. split; [cbn [length]; rewrite A2; reflexivity |].
    intros m Hm Hd'. destruct m as [| m]; cbn [nth_error].
    + rewrite <- O, I3. destruct I4 as [_ R]. specialize (R d ltac:(lia)). replace (p + length xs + d - d) with (p + length xs) in R by lia. rewrite R.
      replace (length xs <? d) with false by (symmetry; apply Nat.ltb_ge; lia). f_equal. rewrite Nat.add_0_r, app_nth1 by lia. reflexivity.
    + cbn [length] in Hm. rewrite (A3 m) by (rewrite ?app_length; cbn [length]; lia). f_equal. rewrite <- app_assoc, app_length. cbn [app length]. f_equal. lia.
Qed.
End Proofs.
