From Verif Require Import Base BlockModel BlockSpec.
Local Open Scope nat_scope.

Section Proofs.
Context {F : Type} (zero : F).
Implicit Types (b : block F) (v : view).

Lemma idx_lt c f ch sz : c < ch -> f < sz -> c * sz + f < ch * sz.
Proof. intros. nia. Qed.
Lemma idx_inj c f c' f' sz : f < sz -> f' < sz -> c * sz + f = c' * sz + f' -> c = c' /\ f = f'.
Proof. intros. assert (c = c') by nia. subst. lia. Qed.

Lemma slice_some {A} (l : list A) a c s : slice l a c = Some s ->
  a <= c /\ c <= length l /\ length s = c - a /\ forall i, i < c - a -> nth_error s i = nth_error l (a + i).
Proof.
  unfold slice. destruct ((a <=? c) && (c <=? length l)) eqn:E; [|discriminate].
  intros H; injection H as <-. apply andb_prop in E as [E1 E2].
  apply Nat.leb_le in E1, E2. repeat split; auto.
  - rewrite firstn_length, skipn_length. lia.
  - intros i Hi. rewrite <- (firstn_skipn a l) at 2.
    rewrite nth_error_app2; rewrite firstn_length; [|lia].
    replace (a + i - Nat.min a (length l)) with i by lia.
    rewrite <- (firstn_skipn (c - a) (skipn a l)) at 2.
    rewrite nth_error_app1; [reflexivity|]. rewrite firstn_length, skipn_length. lia.
Qed.
Lemma slice_ok {A} (l : list A) a c : a <= c -> c <= length l -> exists s, slice l a c = Some s.
Proof.
  intros H1 H2. unfold slice. rewrite (proj2 (Nat.leb_le _ _) H1), (proj2 (Nat.leb_le _ _) H2). cbn [andb]. eauto.
Qed.

Lemma v_read_base b v c f : v_read b v c f = base_read b c (origin v + f).
Proof.
  revert f. induction v as [|[s l] v IH]; intros f; cbn [v_read origin fold_right fst]; [reflexivity|].
  rewrite IH. f_equal. unfold origin. lia.
Qed.
Lemma v_write_base b v x c f : v_write b v x c f = base_write b x c (origin v + f).
Proof.
  revert f. induction v as [|[s l] v IH]; intros f; cbn [v_write origin fold_right fst]; [reflexivity|].
  rewrite IH. f_equal. unfold origin. lia.
Qed.
Lemma view_bound b v : view_ok b v -> origin v + v_size b v <= b_size b.
Proof.
  induction v as [|[s l] v IH]; cbn [view_ok v_size origin fold_right fst]; [lia|].
  intros [H1 H2]. specialize (IH H2). unfold origin in IH. lia.
Qed.

Lemma block_new_wf vec ch sz : block_wf (block_new zero vec ch sz).
Proof. unfold block_wf, block_new; cbn. apply repeat_length. Qed.
Lemma block_new_shows vec ch sz : shows (block_new zero vec ch sz) [] (fun _ _ => zero).
Proof.
  intros c f Hc Hf. unfold block_new in *; cbn in *. unfold base_read; cbn.
  rewrite nth_error_repeat; [reflexivity|]. apply idx_lt; assumption.
Qed.

Lemma shows_exists b : block_wf b -> F -> exists g, shows b [] g.
Proof.
  intros Hwf d. exists (fun c f => nth (c * b_size b + f) (b_buf b) d).
  intros c f Hc Hf; cbn in *. unfold base_read. apply nth_error_nth'.
  rewrite Hwf. apply idx_lt; assumption.
Qed.

Lemma window_shows b v g : view_ok b v -> shows b [] g ->
  shows b v (fun c f => g c (origin v + f)).
Proof.
  intros Hv Hg c f Hc Hf. rewrite v_read_base. apply (Hg c (origin v + f)); [exact Hc|].
  cbn. pose proof (view_bound b v Hv). lia.
Qed.

Lemma write_ok b v g c f x : block_wf b -> view_ok b v -> shows b [] g ->
  c < b_channels b -> f < v_size b v ->
  exists b', v_write b v x c f = Some b' /\ block_wf b' /\ same_shape b b' /\
             shows b' [] (upd g c (origin v + f) x).
Proof.
  intros Hwf Hv Hg Hc Hf. pose proof (view_bound b v Hv) as Hb.
  rewrite v_write_base. unfold base_write.
  destruct (set_nth_some (b_buf b) (c * b_size b + (origin v + f)) x) as [buf E].
  { rewrite Hwf. apply idx_lt; lia. }
  rewrite E. cbn [bind]. eexists; split; [reflexivity|].
  split; [|split].
  - unfold block_wf; cbn. rewrite (set_nth_length _ _ _ _ E). exact Hwf.
  - repeat split.
  - intros c' f' Hc' Hf'; cbn in *. unfold base_read; cbn. unfold upd.
    destruct (Nat.eqb_spec c' c) as [->|Hne]; [destruct (Nat.eqb_spec f' (origin v + f)) as [->|Hne]|];
      cbn [andb].
    + apply (set_nth_same _ _ _ _ E).
    + rewrite (set_nth_other _ _ _ _ _ E); [apply (Hg c f'); assumption|]. lia.
    + rewrite (set_nth_other _ _ _ _ _ E); [apply (Hg c' f'); assumption|].
      intros He. apply idx_inj in He; lia.
Qed.

Lemma same_shape_view b b' v : same_shape b b' -> v_size b' v = v_size b v /\ (view_ok b v -> view_ok b' v).
Proof.
  intros (H1 & H2 & H3). induction v as [|[s l] v [IH1 IH2]]; cbn [v_size view_ok]; [auto|].
  split; [reflexivity|]. rewrite IH1. intuition.
Qed.

Lemma writes_ok ws : forall b v g, block_wf b -> view_ok b v -> shows b [] g ->
  in_range (b_channels b) (v_size b v) ws ->
  exists b', write_all b v ws = Some b' /\ block_wf b' /\ same_shape b b' /\
             shows b' [] (upd_all g (origin v) ws).
Proof.
  induction ws as [|[[c f] x] ws IH]; intros b v g Hwf Hv Hg Hr; cbn [write_all upd_all].
  - exists b. repeat split; auto.
  - inversion Hr as [|? ? [Hc Hf] Hr']; subst; cbn in Hc, Hf.
    destruct (write_ok b v g c f x Hwf Hv Hg Hc Hf) as (b1 & E & Hwf1 & Hs1 & Hg1).
    rewrite E. cbn [bind]. destruct (same_shape_view b b1 v Hs1) as [Hsz Hvo].
    destruct (IH b1 v _ Hwf1 (Hvo Hv) Hg1) as (b2 & E2 & Hwf2 & Hs2 & Hg2).
    { rewrite Hsz. destruct Hs1 as (-> & _ & _). exact Hr'. }
    exists b2. rewrite E2. repeat split; auto; destruct Hs1 as (?&?&?), Hs2 as (?&?&?); congruence.
Qed.

Lemma slice_both b v c : block_wf b -> view_ok b v -> c < b_channels b ->
  exists s, v_slice b v c = Some s /\ v_slice_mut b v c = Some s /\ length s = v_size b v /\
    forall i, i < v_size b v -> nth_error s i = v_read b v c i.
Proof.
  intros Hwf Hv Hc. induction v as [|[st len] v IH]; cbn [view_ok v_slice v_slice_mut v_size v_read] in *.
  - assert (Hb : (c + 1) * b_size b <= length (b_buf b)) by (rewrite Hwf; nia).
    destruct (slice_ok (b_buf b) (c * b_size b) ((c + 1) * b_size b)) as [s E]; [nia|exact Hb|].
    exists s. unfold base_slice, base_slice_mut. rewrite (proj2 (Nat.ltb_lt _ _) Hc).
    rewrite andb_false_r. rewrite E. destruct (slice_some _ _ _ _ E) as (_ & _ & Hl & Hn).
    repeat split; auto; [lia|]. intros i Hi. rewrite Hn by lia. reflexivity.
  - destruct Hv as [Hv1 Hv2]. destruct (IH Hv2) as (s & E1 & E2 & Hl & Hn).
    rewrite E1, E2. cbn [bind].
    destruct (slice_ok s st (st + len)) as [s' E]; [lia|lia|]. rewrite E.
    destruct (slice_some _ _ _ _ E) as (_ & _ & Hl' & Hn').
    exists s'. repeat split; auto; [lia|]. intros i Hi. rewrite Hn' by lia.
    rewrite Hn by lia. f_equal. lia.
Qed.

Lemma list_of_fun (s : list F) n (h : nat -> F) : length s = n ->
  (forall i, i < n -> nth_error s i = Some (h i)) -> s = map h (seq 0 n).
Proof.
  intros Hl Hn. apply nth_error_ext. intros i. destruct (lt_dec i n) as [Hi|Hi].
  - rewrite Hn by exact Hi. rewrite nth_error_map, nth_error_nth' with (d := 0) by (rewrite seq_length; exact Hi).
    rewrite seq_nth by exact Hi. reflexivity.
  - rewrite (proj2 (nth_error_None s i)) by lia.
    symmetry. apply nth_error_None. rewrite map_length, seq_length. lia.
Qed.

Lemma slice_shows b v g c : block_wf b -> view_ok b v -> shows b v g -> c < b_channels b ->
  v_slice b v c = Some (map (g c) (seq 0 (v_size b v))) /\
  v_slice_mut b v c = Some (map (g c) (seq 0 (v_size b v))).
Proof.
  intros Hwf Hv Hg Hc. destruct (slice_both b v c Hwf Hv Hc) as (s & E1 & E2 & Hl & Hn).
  rewrite E1, E2. rewrite (list_of_fun s (v_size b v) (g c) Hl); [auto|].
  intros i Hi. rewrite Hn by exact Hi. apply Hg; assumption.
Qed.

Lemma slice_write_agrees b v c i x : block_wf b -> view_ok b v -> c < b_channels b ->
  v_slice_write b v c i x = if i <? v_size b v then v_write b v x c i else None.
Proof.
  intros Hwf Hv Hc. revert i. induction v as [|[st len] v IH]; intros i.
  - destruct (slice_both b [] c Hwf I Hc) as (s & _ & E2 & Hl & _).
    cbn [v_slice_mut v_slice_write v_size v_write] in *. unfold base_slice_write, base_write.
    rewrite E2. cbn [bind]. rewrite Hl. reflexivity.
  - destruct (slice_both b _ c Hwf Hv Hc) as (s & _ & E2 & Hl & _).
    cbn [v_slice_write]. rewrite E2. cbn [bind]. rewrite Hl. cbn [v_size v_write].
    destruct Hv as [Hv1 Hv2]. destruct (Nat.ltb_spec i len) as [Hi|Hi]; [|reflexivity].
    rewrite IH by exact Hv2. rewrite (proj2 (Nat.ltb_lt _ _)) by lia. f_equal. lia.
Qed.

Lemma iter_run_none b v k r : b_channels b <= r -> iter_run b v k r = Some (repeat None k).
Proof.
  intros H. induction k as [|k IH]; cbn [iter_run repeat]; [reflexivity|].
  unfold iter_next, v_channels. rewrite (proj2 (Nat.leb_le _ _) H). cbn [bind snd fst].
  rewrite IH. reflexivity.
Qed.
Lemma iter_run_some b v g k : block_wf b -> view_ok b v -> shows b v g ->
  forall n r, r + n = b_channels b ->
  iter_run b v (n + k) r =
    Some (map (fun c => Some (map (g c) (seq 0 (v_size b v)))) (seq r n) ++ repeat None k).
Proof.
  intros Hwf Hv Hg. induction n as [|n IH]; intros r Hr; cbn [plus].
  - apply iter_run_none. lia.
  - cbn [iter_run]. unfold iter_next, v_channels.
    destruct (Nat.leb_spec (b_channels b) r) as [Hle|Hlt]; [lia|].
    destruct (slice_shows b v g r Hwf Hv Hg Hlt) as [_ ->]. cbn [bind fst snd].
    rewrite IH by lia. cbn [bind seq map app]. rewrite Nat.add_1_r. reflexivity.
Qed.
Lemma iter_all b v g k : block_wf b -> view_ok b v -> shows b v g ->
  iter_run b v (b_channels b + k) 0 =
    Some (map (fun c => Some (map (g c) (seq 0 (v_size b v)))) (seq 0 (b_channels b)) ++ repeat None k).
Proof. intros. apply iter_run_some; auto. Qed.
End Proofs.
