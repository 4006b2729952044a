From Coq Require Import Reals Lra.
From Coquelicot Require Import Rcomplements Complex.
From Verif Require Import Base WaveSpec NoiseModel SvfRespSpec PoleSpec PoleProofs DcModel DcSpec.
Local Open Scope R_scope.

(** * The recurrence *)
Lemma rsum_ext : forall f g n, (forall k, (k < n)%nat -> f k = g k) -> rsum f n = rsum g n.
Proof. intros f g n H. induction n as [| n IH]; [reflexivity |]. cbn [rsum]. rewrite IH, H by (intros; try apply H; lia). reflexivity. Qed.
Lemma rsum_scal : forall c f n, rsum (fun k => c * f k) n = c * rsum f n.
Proof. intros c f n. induction n as [| n IH]; cbn [rsum]; [ring |]. rewrite IH. ring. Qed.
Lemma past_S : forall x n, past x (S n) = r * past x n + (1 - r) * x n.
Proof.
  intros x n. unfold past. cbn [rsum]. replace (S n - 1 - n)%nat with 0%nat by lia. cbn [pow].
  rewrite (rsum_ext (fun k => r ^ (S n - 1 - k) * x k) (fun k => r * (r ^ (n - 1 - k) * x k))).
  - rewrite rsum_scal. ring.
  - intros k Hk. replace (S n - 1 - k)%nat with (S (n - 1 - k)) by lia. cbn [pow]. ring.
Qed.
Lemma without_0 : forall x, without x 0 = x 0%nat.
Proof. intros x. unfold without, past. cbn [rsum]. ring. Qed.
Lemma without_S : forall x n, without x (S n) = without x n * r + x (S n) - x n.
Proof. intros x n. unfold without. rewrite past_S. ring. Qed.
Lemma without_ext : forall x z n, (forall k, (k <= n)%nat -> x k = z k) -> without x n = without z n.
Proof.
  intros x z n H. unfold without, past. rewrite (H n) by lia. f_equal. f_equal. apply rsum_ext. intros k Hk. rewrite H by lia. reflexivity.
Qed.

(** * The loop *)
(** The state before sample [i]: the latest sample and output of every channel *)
Definition prev_of (ch : nat) (mem : list R) (i c : nat) : R := if (i <=? c)%nat then 0 else nth (c + (i - 1 - c) / ch * ch) mem 0.
Definition lpf_of (ch : nat) (mem : list R) (i c : nat) : R := if (i <=? c)%nat then 0 else without (channel ch c mem) ((i - 1 - c) / ch).
Definition state_ok (ch : nat) (mem : list R) (i : nat) (st : list R * list R) : Prop :=
  length (fst st) = ch /\ length (snd st) = ch /\ forall c, (c < ch)%nat -> nth_error (fst st) c = Some (prev_of ch mem i c) /\ nth_error (snd st) c = Some (lpf_of ch mem i c).
Lemma nth_error_set : forall A (l : list A) i x l' j, set_nth l i x = Some l' -> nth_error l' j = if (j =? i)%nat then Some x else nth_error l j.
Proof.
  induction l as [| y l IH]; intros i x l' j H; [destruct i; discriminate H |].
  destruct i as [| i]; cbn [set_nth] in H.
  - injection H as <-. destruct j; reflexivity.
  - destruct (set_nth l i x) as [t |] eqn:E; [| discriminate H]. injection H as <-. destruct j as [| j]; [reflexivity |]. cbn [nth_error]. rewrite (IH _ _ _ j E). reflexivity.
Qed.
Lemma other_channel : forall ch i c, (0 < ch)%nat -> (c < ch)%nat -> c <> (i mod ch)%nat ->
  ((S i <=? c) = (i <=? c))%nat /\ ((i <=? c)%nat = false -> ((S i - 1 - c) / ch = (i - 1 - c) / ch)%nat).
Proof.
  intros ch i c H C N. pose proof (Nat.div_mod_eq i ch) as D. pose proof (Nat.mod_upper_bound i ch ltac:(lia)) as U. set (m := (i mod ch)%nat) in *. set (q := (i / ch)%nat) in *.
  assert (G : i <> c) by (intros ->; unfold m in N; rewrite Nat.mod_small in N by exact C; congruence).
  split.
  - destruct (Nat.leb_spec i c); destruct (Nat.leb_spec (S i) c); try reflexivity; lia.
  - intros L. apply Nat.leb_gt in L. destruct (Nat.lt_ge_cases m c) as [K | K].
    + (* the latest frame of channel c is frame q - 1 *)
      assert (1 <= q)%nat by nia.
      replace (S i - 1 - c)%nat with ((ch + m - c) + (q - 1) * ch)%nat by nia. replace (i - 1 - c)%nat with ((ch + m - c - 1) + (q - 1) * ch)%nat by nia.
      rewrite !Nat.div_add by lia. rewrite !Nat.div_small by lia. reflexivity.
    + replace (S i - 1 - c)%nat with ((m - c) + q * ch)%nat by nia. replace (i - 1 - c)%nat with ((m - c - 1) + q * ch)%nat by nia.
      rewrite !Nat.div_add by lia. rewrite !Nat.div_small by lia. reflexivity.
Qed.
Lemma this_channel : forall ch i, (0 < ch)%nat -> let c := (i mod ch)%nat in let q := (i / ch)%nat in
  ((S i <=? c)%nat = false /\ (S i - 1 - c) / ch = q)%nat /\ i = (q * ch + c)%nat /\ (c < ch)%nat /\
  ((i <=? c)%nat = true /\ q = 0%nat \/ (i <=? c)%nat = false /\ exists q', q = S q' /\ ((i - 1 - c) / ch = q')%nat).
Proof.
  intros ch i H c q. pose proof (Nat.div_mod_eq i ch) as D. pose proof (Nat.mod_upper_bound i ch ltac:(lia)) as U. fold c in D, U. fold q in D.
  assert (I : i = (q * ch + c)%nat) by lia.
  split; [split; [apply Nat.leb_gt; nia |] |].
  - replace (S i - 1 - c)%nat with (q * ch)%nat by lia. apply Nat.div_mul. lia.
  - split; [exact I |]. split; [exact U |]. destruct q as [| q'] eqn:Q.
    + left. split; [apply Nat.leb_le; lia | reflexivity].
    + right. split; [apply Nat.leb_gt; nia |]. exists q'. split; [reflexivity |].
      replace (i - 1 - c)%nat with ((ch - 1) + q' * ch)%nat by nia. rewrite Nat.div_add by lia. rewrite Nat.div_small by lia. reflexivity.
Qed.
Lemma dc_sample_ok : forall ch mem i x st, (0 < ch)%nat -> nth_error mem i = Some x -> state_ok ch mem i st ->
  exists st', dc_sample (999 / 1000) Rplus Rminus Rmult ch i x st = Some (st', without (channel ch (i mod ch) mem) (i / ch)) /\ state_ok ch mem (S i) st'.
Proof.
  intros ch mem i x st H X (L1 & L2 & S0). destruct (this_channel ch i H) as ((T1 & T2) & I & C & K). set (c := (i mod ch)%nat) in *. set (q := (i / ch)%nat) in *.
  destruct (S0 c C) as [P L]. unfold dc_sample. assert (Hz : (ch =? 0)%nat = false) by (apply Nat.eqb_neq; lia). rewrite Hz. fold c. rewrite P, L. cbn [bind].
  assert (Xn : x = channel ch c mem q) by (unfold channel; rewrite <- I; symmetry; apply nth_error_nth; exact X).
  assert (Y : lpf_of ch mem i c * (999 / 1000) + x - prev_of ch mem i c = without (channel ch c mem) q).
  { unfold lpf_of, prev_of. destruct K as [[K0 K1] | (K0 & q' & K1 & K2)]; rewrite K0.
    - rewrite Xn, K1, without_0. ring.
    - rewrite K2, K1, without_S, Xn, K1. unfold channel at 3. replace (c + q' * ch)%nat with (q' * ch + c)%nat by lia. unfold channel. reflexivity. }
  rewrite Y. destruct (set_nth_some (fst st) c x ltac:(lia)) as [ps Eps]. destruct (set_nth_some (snd st) c (without (channel ch c mem) q) ltac:(lia)) as [ls Els].
  rewrite Eps, Els. cbn [bind]. eexists. split; [reflexivity |]. unfold state_ok. cbn [fst snd]. split; [rewrite (set_nth_length _ _ _ _ Eps); exact L1 |]. split; [rewrite (set_nth_length _ _ _ _ Els); exact L2 |].
  intros d D. cbn [fst snd]. rewrite (nth_error_set _ _ _ _ _ d Eps), (nth_error_set _ _ _ _ _ d Els). destruct (Nat.eqb_spec d c) as [-> | N].
  - unfold prev_of, lpf_of. rewrite T1, T2. split; [| reflexivity]. f_equal. rewrite Xn. unfold channel. f_equal. lia.
  - destruct (other_channel ch i d H D N) as [O1 O2]. destruct (S0 d D) as [P' L']. rewrite P', L'. unfold prev_of, lpf_of. rewrite O1.
    destruct (i <=? d)%nat eqn:E; [split; reflexivity |]. rewrite (O2 eq_refl). split; reflexivity.
Qed.
Lemma dc_loop_ok : forall ch mem, (0 < ch)%nat -> forall buf i st, mem = firstn i mem ++ buf -> (i <= length mem)%nat -> state_ok ch mem i st ->
  exists out, dc_loop (999 / 1000) Rplus Rminus Rmult ch i buf st = Some out /\ length out = length buf /\
    forall j, (j < length buf)%nat -> nth_error out j = Some (without (channel ch ((i + j) mod ch) mem) ((i + j) / ch)).
Proof.
  intros ch mem H. induction buf as [| x buf IH]; intros i st E Hi S0.
  - exists []. split; [reflexivity |]. split; [reflexivity |]. intros j Hj. cbn in Hj. lia.
  - assert (X : nth_error mem i = Some x).
    { rewrite E. rewrite nth_error_app2 by (rewrite firstn_length; lia). rewrite firstn_length. replace (i - Nat.min i (length mem))%nat with 0%nat by lia. reflexivity. }
    destruct (dc_sample_ok ch mem i x st H X S0) as (st' & E1 & S1). cbn [dc_loop]. rewrite E1. cbn [bind fst snd].
    assert (Hl : (i < length mem)%nat) by (apply nth_error_Some; rewrite X; discriminate).
    destruct (IH (S i) st') as (out & E2 & L2 & N2); [| lia | exact S1 |].
    { rewrite E at 1. replace (x :: buf) with ([x] ++ buf) by reflexivity. rewrite app_assoc. f_equal.
      clear - X. revert i X. induction mem as [| y mem IHm]; intros i X; [destruct i; discriminate X |]. destruct i as [| i]; cbn [nth_error] in X.
      - injection X as ->. reflexivity.
      - cbn [firstn app]. f_equal. apply IHm. exact X. }
    rewrite E2. cbn [bind]. eexists. split; [reflexivity |]. cbn [length]. split; [lia |]. intros j Hj. destruct j as [| j]; cbn [nth_error].
    + rewrite Nat.add_0_r. reflexivity.
    + rewrite N2 by lia. replace (S i + j)%nat with (i + S j)%nat by lia. reflexivity.
Qed.
Lemma remove_ok : forall ch mem, (0 < ch)%nat -> exists out, remove_dc_exact ch mem = Some out /\ length out = length mem /\
  forall c n, in_buffer ch c n mem -> channel ch c out n = without (channel ch c mem) n.
Proof.
  intros ch mem H. destruct (dc_loop_ok ch mem H mem 0 (repeat 0 ch, repeat 0 ch)) as (out & E & L & N); [reflexivity | lia | |].
  - split; [apply repeat_length |]. split; [apply repeat_length |]. intros c C. cbn [fst snd]. unfold prev_of, lpf_of. cbn [Nat.leb].
    assert (Q : nth_error (repeat 0 ch) c = Some 0) by (rewrite nth_error_repeat by exact C; reflexivity). rewrite Q. split; reflexivity.
  - exists out. split; [exact E |]. split; [exact L |]. intros c n [C B]. unfold channel at 1. apply nth_error_nth. rewrite N by exact B. rewrite Nat.add_0_l.
    f_equal. rewrite Nat.add_comm, Nat.mod_add, Nat.mod_small by lia. f_equal. rewrite Nat.div_add, Nat.div_small by lia. reflexivity.
Qed.

(** * Consequences *)
Lemma r_range : 0 < r < 1. Proof. unfold r. lra. Qed.
Lemma without_const : forall v n, without (fun _ => v) n = v * r ^ n.
Proof. intros v. induction n as [| n IH]; [rewrite without_0; cbn [pow]; ring |]. rewrite without_S, IH. cbn [pow]. ring. Qed.
Lemma without_plus : forall x z n, without (fun k => x k + z k) n = without x n + without z n.
Proof. intros x z. induction n as [| n IH]; [rewrite !without_0; ring |]. rewrite !without_S, IH. ring. Qed.
Lemma without_scale : forall a x n, without (fun k => a * x k) n = a * without x n.
Proof. intros a x. induction n as [| n IH]; [rewrite !without_0; ring |]. rewrite !without_S, IH. ring. Qed.
Lemma past_bound : forall x m n, (forall k, (k < n)%nat -> Rabs (x k) <= m) -> Rabs (past x n) <= m * (1 - r ^ n).
Proof.
  intros x m. induction n as [| n IH]; intros H.
  - unfold past. cbn [rsum pow]. rewrite Rmult_0_r, Rabs_R0. lra.
  - rewrite past_S. specialize (IH (fun k Hk => H k ltac:(lia))). specialize (H n ltac:(lia)). pose proof r_range as R0.
    eapply Rle_trans; [apply Rabs_triang |]. rewrite !Rabs_mult, (Rabs_pos_eq r), (Rabs_pos_eq (1 - r)) by lra. cbn [pow]. nra.
Qed.
Lemma without_bound : forall x m n, (forall k, (k <= n)%nat -> Rabs (x k) <= m) -> Rabs (without x n) <= m * (2 - r ^ n).
Proof.
  intros x m n H. unfold without. pose proof (past_bound x m n (fun k Hk => H k ltac:(lia))) as P. specialize (H n ltac:(lia)).
  eapply Rle_trans; [apply Rabs_triang |]. rewrite Rabs_Ropp. lra.
Qed.
Lemma bernoulli : forall n, 1 - INR n / 1000 <= r ^ n.
Proof.
  induction n as [| n IH]; [cbn [pow INR]; lra |]. rewrite S_INR. cbn [pow]. pose proof (pos_INR n). unfold r in *. nra.
Qed.
(** ** Sinusoids *)
Definition h_dc (w : R) : C := (Re (h_high r w) / r, Im (h_high r w) / r).
Lemma dc_filtered : forall sr f a phi n, filtered (h_dc (per_sample f sr)) sr f a phi n = (sinusoid sr f a phi n - filtered (h_low r (per_sample f sr)) sr f a phi n) / r.
Proof. intros. unfold filtered, sinusoid, h_dc, h_high, Re, Im. cbn [fst snd]. field. unfold r. lra. Qed.
Lemma dc_recurrence : forall sr f a phi n, filtered (h_dc (per_sample f sr)) sr f a phi (S n) =
  filtered (h_dc (per_sample f sr)) sr f a phi n * r + sinusoid sr f a phi (S n) - sinusoid sr f a phi n.
Proof. intros. rewrite !dc_filtered, (filtered_recurrence r) by apply r_range. field. unfold r. lra. Qed.
Lemma dc_difference : forall sr f a phi n, without (sinusoid sr f a phi) n - filtered (h_dc (per_sample f sr)) sr f a phi n =
  r ^ n * (sinusoid sr f a phi 0 - filtered (h_dc (per_sample f sr)) sr f a phi 0).
Proof.
  intros sr f a phi. induction n as [| n IH]; [rewrite without_0; cbn [pow]; ring |]. rewrite without_S, dc_recurrence. cbn [pow].
  transitivity (r * (without (sinusoid sr f a phi) n - filtered (h_dc (per_sample f sr)) sr f a phi n)); [ring |]. rewrite IH. ring.
Qed.
Lemma dc_denom : forall w, denom r w = (1 - r) * (1 - r) + 2 * r * (1 - cos w).
Proof. intros w. unfold denom. ring. Qed.
Lemma h_dc_power : forall w, power (h_dc w) = dc_power w.
Proof.
  intros w. unfold power, dc_power, h_dc, h_high, h_low, Re, Im. cbn [fst snd]. pose proof (denom_pos r w r_range) as D. pose proof (sin2_cos2 w) as SC. unfold Rsqr in SC.
  rewrite <- dc_denom. pose proof r_range as R0.
  assert (A : (1 - (1 - r) * (1 - r * cos w) / denom r w) / r = (1 + r) * (1 - cos w) / denom r w).
  { unfold denom in *. field. split; lra. }
  rewrite A. replace (- - ((1 - r) * r * sin w / denom r w) / r) with ((1 - r) * sin w / denom r w) by (field; split; lra).
  transitivity (((1 + r) * (1 + r) * ((1 - cos w) * (1 - cos w)) + (1 - r) * (1 - r) * (sin w * sin w)) / (denom r w * denom r w)); [field; lra |].
  replace (sin w * sin w) with (1 - cos w * cos w) by lra.
  transitivity (2 * (1 - cos w) * denom r w / (denom r w * denom r w)); [unfold denom; f_equal; ring | field; lra].
Qed.
Lemma dc_power_le : forall w, 0 <= dc_power w <= 1002 / 1000.
Proof.
  intros w. unfold dc_power. pose proof (COS_bound w) as B. set (u := 1 - cos w). assert (U : 0 <= u <= 2) by (unfold u; lra). unfold r.
  assert (D : 0 < (1 - 999 / 1000) * (1 - 999 / 1000) + 2 * (999 / 1000) * u) by lra. split.
  - apply Rmult_le_pos; [lra |]. apply Rlt_le, Rinv_0_lt_compat. exact D.
  - apply Rle_div_l; [exact D |]. lra.
Qed.
Lemma dc_power_pass : forall w, cos w <= 1 - 49 / 1000000 -> 99 / 100 <= dc_power w.
Proof.
  intros w B. unfold dc_power. pose proof (COS_bound w) as B'. set (u := 1 - cos w). assert (U : 49 / 1000000 <= u <= 2) by (unfold u; lra). unfold r.
  assert (D : 0 < (1 - 999 / 1000) * (1 - 999 / 1000) + 2 * (999 / 1000) * u) by lra. apply -> (Rle_div_r (99 / 100)); [lra | exact D].
Qed.
Lemma filtered_bound : forall h sr f a phi n, Rabs (filtered h sr f a phi n) <= Rabs a * sqrt (power h).
Proof.
  intros h sr f a phi n. unfold filtered. rewrite Rabs_mult. apply Rmult_le_compat_l; [apply Rabs_pos |].
  rewrite <- sqrt_Rsqr_abs. apply sqrt_le_1_alt. unfold Rsqr, power. set (t := angle sr f phi n). pose proof (sin2_cos2 t) as SC. unfold Rsqr in SC.
  pose proof (Rle_0_sqr (Re h * sin t + Im h * cos t)) as Q. unfold Rsqr in Q. nra.
Qed.
Lemma dc_close : forall sr f a phi n, Rabs (without (sinusoid sr f a phi) n - filtered (h_dc (per_sample f sr)) sr f a phi n) <= 3 * Rabs a * r ^ n.
Proof.
  intros sr f a phi n. rewrite dc_difference, Rabs_mult. pose proof r_range as R0.
  assert (P : 0 < r ^ n) by (apply pow_lt; lra). rewrite (Rabs_pos_eq (r ^ n)) by lra. rewrite (Rmult_comm (3 * Rabs a)). apply Rmult_le_compat_l; [lra |].
  eapply Rle_trans; [apply Rabs_triang |]. rewrite Rabs_Ropp. pose proof (filtered_bound (h_dc (per_sample f sr)) sr f a phi 0) as F. rewrite h_dc_power in F.
  assert (S : sqrt (dc_power (per_sample f sr)) <= 2). { rewrite <- (sqrt_square 2) by lra. apply sqrt_le_1_alt. pose proof (dc_power_le (per_sample f sr)). lra. }
  assert (X : Rabs (sinusoid sr f a phi 0) <= Rabs a). { unfold sinusoid. rewrite Rabs_mult. pose proof (COS_bound (angle sr f phi 0)). assert (Rabs (cos (angle sr f phi 0)) <= 1) by (apply Rabs_le; lra). pose proof (Rabs_pos a). nra. }
  pose proof (Rabs_pos a). nra.
Qed.
