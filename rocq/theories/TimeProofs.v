From Verif Require Import Base TimeModel TimeSpec.
Local Open Scope N_scope.
Ltac dlia := zify; Z.div_mod_to_equations; lia.

Lemma U32_val : U32 = 4294967296. Proof. reflexivity. Qed.
Lemma U64_val : U64 = 18446744073709551616. Proof. reflexivity. Qed.
Lemma TS_val : TS = 282240000. Proof. reflexivity. Qed.
Lemma TB_val : TB = 1476034560. Proof. reflexivity. Qed.

Lemma as_u32_small x : x < U32 -> as_u32 x = x.
Proof. intros H. unfold as_u32. apply N.mod_small. exact H. Qed.

Lemma sec_ext a b : s_whole a = s_whole b -> s_sub a = s_sub b -> a = b.
Proof. destruct a, b; cbn; intros -> ->; reflexivity. Qed.
Lemma beats_ext a b : b_whole a = b_whole b -> b_sub a = b_sub b -> a = b.
Proof. destruct a, b; cbn; intros -> ->; reflexivity. Qed.

Lemma sec_ticks_inj a b : sec_normal a -> sec_normal b -> sec_ticks a = sec_ticks b -> a = b.
Proof.
  unfold sec_normal, sec_ticks; rewrite TS_val; intros [_ Ha] [_ Hb] E.
  assert (s_whole a = s_whole b) by nia. apply sec_ext; [assumption|nia].
Qed.
Lemma beats_ticks_inj a b : beats_normal a -> beats_normal b -> beats_ticks a = beats_ticks b -> a = b.
Proof.
  unfold beats_normal, beats_ticks; rewrite TB_val; intros [_ Ha] [_ Hb] E.
  assert (b_whole a = b_whole b) by nia. apply beats_ext; [assumption|nia].
Qed.

(** Carry loop *)
Lemma carry_spec fuel T whole sub :
  0 < T -> sub / T < N.of_nat fuel -> whole + sub / T < U32 ->
  carry fuel T whole sub = Some (whole + sub / T, sub mod T).
Proof.
  intros HT. revert whole sub. induction fuel as [|fuel IH]; intros whole sub Hf Hw.
  - exfalso. apply (N.nlt_0_r _ Hf).
  - cbn [carry]. destruct (N.leb_spec T sub) as [Hle|Hlt].
    + assert (Hq : sub / T = 1 + (sub - T) / T).
      { replace sub with ((sub - T) + 1 * T) at 1 by lia. rewrite N.div_add by lia. lia. }
      pose proof (N.le_0_l ((sub - T) / T)) as Hnn.
      assert (Hm : sub mod T = (sub - T) mod T).
      { replace sub with ((sub - T) + 1 * T) at 1 by lia. rewrite N.mod_add by lia. reflexivity. }
      rewrite Hm, Hq in *. remember ((sub - T) / T) as q eqn:Eq.
      rewrite add_w_some by lia. cbn [bind]. rewrite IH by (rewrite <- Eq; lia).
      rewrite <- Eq. do 2 f_equal. lia.
    + rewrite N.div_small, N.mod_small by assumption. do 2 f_equal. lia.
Qed.
Lemma carry_none_overflow fuel T whole sub :
  0 < T -> U32 <= whole + sub / T -> whole < U32 -> carry fuel T whole sub = None.
Proof.
  intros HT. revert whole sub. induction fuel as [|fuel IH]; intros whole sub Hw Hlt0.
  - reflexivity.
  - cbn [carry]. destruct (N.leb_spec T sub) as [Hle|Hlt].
    + assert (Hq : sub / T = 1 + (sub - T) / T).
      { replace sub with ((sub - T) + 1 * T) at 1 by lia. rewrite N.div_add by lia. lia. }
      pose proof (N.le_0_l ((sub - T) / T)) as Hnn.
      unfold add_w. destruct (N.ltb_spec (whole + 1) U32); [|reflexivity].
      cbn [bind]. apply IH; lia.
    + rewrite N.div_small in Hw by assumption. lia.
Qed.

Lemma sec_add_exact a b :
  sec_normal a -> sec_normal b ->
  if sec_ticks a + sec_ticks b <? U32 * TS
  then exists c, sec_add a b = Some c /\ sec_normal c /\ sec_ticks c = sec_ticks a + sec_ticks b
  else sec_add a b = None.
Proof.
  intros [Ha1 Ha2] [Hb1 Hb2]. unfold sec_ticks, sec_add.
  assert (Hs : s_sub a + s_sub b < U32) by (rewrite U32_val; rewrite TS_val in *; lia).
  assert (Hq : (s_sub a + s_sub b) / TS <= 1).
  { rewrite TS_val in *. dlia. }
  assert (Hdm := N.div_mod (s_sub a + s_sub b) TS ltac:(rewrite TS_val; lia)).
  assert (Hmm : (s_sub a + s_sub b) mod TS < TS) by (apply N.mod_lt; rewrite TS_val; lia).
  pose proof (carry_spec 17 TS (s_whole a + s_whole b) (s_sub a + s_sub b) eq_refl) as Hcs.
  pose proof (carry_none_overflow 17 TS (s_whole a + s_whole b) (s_sub a + s_sub b) eq_refl) as Hcn.
  set (q := (s_sub a + s_sub b) / TS) in *. set (m := (s_sub a + s_sub b) mod TS) in *. clearbody q m.
  destruct (N.ltb_spec (s_whole a * TS + s_sub a + (s_whole b * TS + s_sub b)) (U32 * TS)) as [H|H].
  - assert (Hw : s_whole a + s_whole b + q < U32) by nia.
    rewrite add_w_some by nia. cbn [bind]. rewrite add_w_some by exact Hs. cbn [bind].
    rewrite Hcs by (try exact Hw; cbn; lia). cbn [bind fst snd].
    eexists; split; [reflexivity|]. split; [split; cbn; [exact Hw|exact Hmm]|].
    cbn. nia.
  - assert (Hw : U32 <= s_whole a + s_whole b + q) by nia.
    unfold add_w at 1. destruct (N.ltb_spec (s_whole a + s_whole b) U32); [|reflexivity].
    cbn [bind]. rewrite add_w_some by exact Hs. cbn [bind].
    rewrite Hcn by assumption. reflexivity.
Qed.

Lemma beats_add_exact a b :
  beats_normal a -> beats_normal b ->
  if beats_ticks a + beats_ticks b <? U32 * TB
  then exists c, beats_add a b = Some c /\ beats_normal c /\ beats_ticks c = beats_ticks a + beats_ticks b
  else beats_add a b = None.
Proof.
  intros [Ha1 Ha2] [Hb1 Hb2]. unfold beats_ticks, beats_add.
  assert (Hs : b_sub a + b_sub b < U32) by (rewrite U32_val; rewrite TB_val in *; lia).
  assert (Hq : (b_sub a + b_sub b) / TB <= 1).
  { rewrite TB_val in *. dlia. }
  assert (Hdm := N.div_mod (b_sub a + b_sub b) TB ltac:(rewrite TB_val; lia)).
  assert (Hmm : (b_sub a + b_sub b) mod TB < TB) by (apply N.mod_lt; rewrite TB_val; lia).
  pose proof (carry_spec 17 TB (b_whole a + b_whole b) (b_sub a + b_sub b) eq_refl) as Hcs.
  pose proof (carry_none_overflow 17 TB (b_whole a + b_whole b) (b_sub a + b_sub b) eq_refl) as Hcn.
  set (q := (b_sub a + b_sub b) / TB) in *. set (m := (b_sub a + b_sub b) mod TB) in *. clearbody q m.
  destruct (N.ltb_spec (b_whole a * TB + b_sub a + (b_whole b * TB + b_sub b)) (U32 * TB)) as [H|H].
  - assert (Hw : b_whole a + b_whole b + q < U32) by nia.
    rewrite add_w_some by nia. cbn [bind]. rewrite add_w_some by exact Hs. cbn [bind].
    rewrite Hcs by (try exact Hw; cbn; lia). cbn [bind fst snd].
    eexists; split; [reflexivity|]. split; [split; cbn; [exact Hw|exact Hmm]|].
    cbn. nia.
  - assert (Hw : U32 <= b_whole a + b_whole b + q) by nia.
    unfold add_w at 1. destruct (N.ltb_spec (b_whole a + b_whole b) U32); [|reflexivity].
    cbn [bind]. rewrite add_w_some by exact Hs. cbn [bind].
    rewrite Hcn by assumption. reflexivity.
Qed.

Lemma sec_cmp_ticks a b : sec_normal a -> sec_normal b -> sec_cmp a b = (sec_ticks a ?= sec_ticks b).
Proof.
  unfold sec_normal, sec_ticks, sec_cmp; rewrite TS_val; intros [_ Ha] [_ Hb].
  destruct (N.eqb_spec (s_whole a) (s_whole b)) as [E|E].
  - rewrite E. destruct (N.compare_spec (s_sub a) (s_sub b));
      symmetry; [apply N.compare_eq_iff|apply N.compare_lt_iff|apply N.compare_gt_iff]; lia.
  - destruct (N.compare_spec (s_whole a) (s_whole b)); [contradiction| |];
      symmetry; [apply N.compare_lt_iff|apply N.compare_gt_iff]; nia.
Qed.
Lemma beats_cmp_ticks a b : beats_normal a -> beats_normal b -> beats_cmp a b = (beats_ticks a ?= beats_ticks b).
Proof.
  unfold beats_normal, beats_ticks, beats_cmp; rewrite TB_val; intros [_ Ha] [_ Hb].
  destruct (N.eqb_spec (b_whole a) (b_whole b)) as [E|E].
  - rewrite E. destruct (N.compare_spec (b_sub a) (b_sub b));
      symmetry; [apply N.compare_eq_iff|apply N.compare_lt_iff|apply N.compare_gt_iff]; lia.
  - destruct (N.compare_spec (b_whole a) (b_whole b)); [contradiction| |];
      symmetry; [apply N.compare_lt_iff|apply N.compare_gt_iff]; nia.
Qed.

Lemma sec_order a b : sec_normal a -> sec_normal b ->
  (sec_ltb a b = true <-> sec_ticks a < sec_ticks b) /\
  (sec_leb a b = true <-> sec_ticks a <= sec_ticks b) /\
  (sec_eqb a b = true <-> sec_ticks a = sec_ticks b).
Proof.
  intros Ha Hb. unfold sec_ltb, sec_leb. rewrite (sec_cmp_ticks a b Ha Hb).
  split; [|split].
  - destruct (N.compare_spec (sec_ticks a) (sec_ticks b)); split; intros; try discriminate; try lia; reflexivity.
  - destruct (N.compare_spec (sec_ticks a) (sec_ticks b)); split; intros; try discriminate; try lia; reflexivity.
  - unfold sec_eqb. rewrite andb_true_iff, !N.eqb_eq. split.
    + intros [E1 E2]. unfold sec_ticks. rewrite E1, E2. reflexivity.
    + intros E. rewrite (sec_ticks_inj a b Ha Hb E). split; reflexivity.
Qed.
Lemma beats_order a b : beats_normal a -> beats_normal b ->
  (beats_ltb a b = true <-> beats_ticks a < beats_ticks b) /\
  (beats_leb a b = true <-> beats_ticks a <= beats_ticks b) /\
  (beats_eqb a b = true <-> beats_ticks a = beats_ticks b).
Proof.
  intros Ha Hb. unfold beats_ltb, beats_leb. rewrite (beats_cmp_ticks a b Ha Hb).
  split; [|split].
  - destruct (N.compare_spec (beats_ticks a) (beats_ticks b)); split; intros; try discriminate; try lia; reflexivity.
  - destruct (N.compare_spec (beats_ticks a) (beats_ticks b)); split; intros; try discriminate; try lia; reflexivity.
  - unfold beats_eqb. rewrite andb_true_iff, !N.eqb_eq. split.
    + intros [E1 E2]. unfold beats_ticks. rewrite E1, E2. reflexivity.
    + intros E. rewrite (beats_ticks_inj a b Ha Hb E). split; reflexivity.
Qed.

Lemma sec_checked_sub_exact a b :
  sec_normal a -> sec_normal b ->
  if sec_ticks b <=? sec_ticks a
  then exists c, sec_checked_sub a b = Some (Some c) /\ sec_normal c /\ sec_ticks c + sec_ticks b = sec_ticks a
  else sec_checked_sub a b = Some None.
Proof.
  intros Ha Hb. destruct (sec_order a b Ha Hb) as [Hlt _].
  unfold sec_checked_sub. destruct (N.leb_spec (sec_ticks b) (sec_ticks a)) as [H|H].
  - destruct (sec_ltb a b); [exfalso; pose proof (proj1 Hlt eq_refl); lia|]. clear Hlt.
    destruct Ha as [Ha1 Ha2], Hb as [Hb1 Hb2]. unfold sec_ticks in *. rewrite U32_val, TS_val in *.
    destruct (N.leb_spec (s_sub b) (s_sub a)).
    + rewrite sub_w_some by nia. cbn [bind]. rewrite sub_w_some by lia. cbn [bind].
      eexists; split; [reflexivity|]. unfold sec_normal; cbn [s_whole s_sub sec_zero]. rewrite U32_val, TS_val. nia.
    + assert (s_whole b + 1 <= s_whole a) by nia.
      rewrite sub_w_some by lia. cbn [bind]. rewrite sub_w_some by lia. cbn [bind].
      rewrite sub_w_some by lia. cbn [bind]. rewrite sub_w_some by lia. cbn [bind].
      eexists; split; [reflexivity|]. unfold sec_normal; cbn [s_whole s_sub sec_zero]. rewrite U32_val, TS_val. nia.
  - rewrite (proj2 Hlt) by lia. reflexivity.
Qed.
Lemma sec_saturating_sub_exact a b :
  sec_normal a -> sec_normal b ->
  exists c, sec_saturating_sub a b = Some c /\ sec_normal c /\ sec_ticks c = sec_ticks a - sec_ticks b.
Proof.
  intros Ha Hb. destruct (sec_order a b Ha Hb) as (_ & Hle & _).
  unfold sec_saturating_sub. destruct (sec_leb a b) eqn:E.
  - eexists; split; [reflexivity|]. split.
    + unfold sec_normal; cbn [s_whole s_sub sec_zero]. rewrite U32_val, TS_val. lia.
    + pose proof (proj1 Hle eq_refl). unfold sec_ticks at 1; cbn. lia.
  - assert (H : sec_ticks b < sec_ticks a).
    { destruct (N.le_gt_cases (sec_ticks a) (sec_ticks b)) as [H|H]; [|exact H].
      apply Hle in H. discriminate. }
    clear Hle E. destruct Ha as [Ha1 Ha2], Hb as [Hb1 Hb2]. unfold sec_ticks in *. rewrite U32_val, TS_val in *.
    destruct (N.leb_spec (s_sub b) (s_sub a)).
    + rewrite sub_w_some by nia. cbn [bind]. rewrite sub_w_some by lia. cbn [bind].
      eexists; split; [reflexivity|]. unfold sec_normal; cbn [s_whole s_sub sec_zero]. rewrite U32_val, TS_val. nia.
    + assert (s_whole b + 1 <= s_whole a) by nia.
      rewrite sub_w_some by lia. cbn [bind]. rewrite sub_w_some by lia. cbn [bind].
      rewrite sub_w_some by lia. cbn [bind]. rewrite sub_w_some by lia. cbn [bind].
      eexists; split; [reflexivity|]. unfold sec_normal; cbn [s_whole s_sub sec_zero]. rewrite U32_val, TS_val. nia.
Qed.

Lemma beats_checked_sub_exact a b :
  beats_normal a -> beats_normal b ->
  if beats_ticks b <=? beats_ticks a
  then exists c, beats_checked_sub a b = Some (Some c) /\ beats_normal c /\ beats_ticks c + beats_ticks b = beats_ticks a
  else beats_checked_sub a b = Some None.
Proof.
  intros Ha Hb. destruct (beats_order a b Ha Hb) as [Hlt _].
  unfold beats_checked_sub. destruct (N.leb_spec (beats_ticks b) (beats_ticks a)) as [H|H].
  - destruct (beats_ltb a b); [exfalso; pose proof (proj1 Hlt eq_refl); lia|]. clear Hlt.
    destruct Ha as [Ha1 Ha2], Hb as [Hb1 Hb2]. unfold beats_ticks in *. rewrite U32_val, TB_val in *.
    destruct (N.ltb_spec (b_sub a) (b_sub b)).
    + assert (b_whole b + 1 <= b_whole a) by nia.
      rewrite sub_w_some by lia. cbn [bind]. rewrite sub_w_some by lia. cbn [bind].
      rewrite sub_w_some by lia. cbn [bind]. rewrite sub_w_some by lia. cbn [bind].
      eexists; split; [reflexivity|]. unfold beats_normal; cbn [b_whole b_sub beats_zero]. rewrite U32_val, TB_val. nia.
    + rewrite sub_w_some by nia. cbn [bind]. rewrite sub_w_some by lia. cbn [bind].
      eexists; split; [reflexivity|]. unfold beats_normal; cbn [b_whole b_sub beats_zero]. rewrite U32_val, TB_val. nia.
  - rewrite (proj2 Hlt) by lia. reflexivity.
Qed.
Lemma beats_saturating_sub_exact a b :
  beats_normal a -> beats_normal b ->
  exists c, beats_saturating_sub a b = Some c /\ beats_normal c /\ beats_ticks c = beats_ticks a - beats_ticks b.
Proof.
  intros Ha Hb. pose proof (beats_checked_sub_exact a b Ha Hb) as H. unfold beats_saturating_sub.
  destruct (N.leb_spec (beats_ticks b) (beats_ticks a)) as [Hle|Hlt].
  - destruct H as (c & -> & Hn & He). exists c. cbn. split; [reflexivity|]. split; [exact Hn|lia].
  - rewrite H. cbn. eexists; split; [reflexivity|]. split.
    + unfold beats_normal; cbn [b_whole b_sub beats_zero]. rewrite U32_val, TB_val. lia.
    + unfold beats_ticks at 1; cbn. lia.
Qed.

Lemma beats_sum_exact l : forall acc,
  beats_normal acc -> Forall beats_normal l ->
  fold_right (fun b s => beats_ticks b + s) 0 l + beats_ticks acc < U32 * TB ->
  exists c, beats_sum acc l = Some c /\ beats_normal c /\
            beats_ticks c = fold_right (fun b s => beats_ticks b + s) 0 l + beats_ticks acc.
Proof.
  induction l as [|x t IH]; intros acc Hn Hl Hb; cbn [fold_right beats_sum] in *.
  - exists acc. auto.
  - inversion Hl as [|? ? Hx Ht]; subst.
    pose proof (beats_add_exact acc x Hn Hx) as HA.
    destruct (N.ltb_spec (beats_ticks acc + beats_ticks x) (U32 * TB)); [|lia].
    destruct HA as (c & -> & Hcn & Hct). cbn [bind].
    destruct (IH c Hcn Ht) as (r & -> & Hrn & Hrt); [lia|].
    exists r. split; [reflexivity|]. split; [exact Hrn|]. lia.
Qed.

(** Samples *)
Lemma sec_from_samples_val samples sr :
  0 < sr < U32 -> samples < U32 * sr ->
  sec_from_samples samples sr = Some (mk_seconds (samples / sr) ((samples mod sr) * TS / sr)).
Proof.
  intros [H0 H1] Hs. unfold sec_from_samples.
  assert (Hm : samples mod sr < sr) by (apply N.mod_lt; lia).
  rewrite div_w_some, rem_w_some by lia. cbn [bind].
  rewrite mul_w_some by (rewrite TS_val, U64_val; rewrite U32_val in *; nia). cbn [bind].
  rewrite div_w_some by lia. cbn [bind].
  rewrite !as_u32_small; [reflexivity| |].
  - apply N.lt_trans with TS; [|reflexivity]. apply N.div_lt_upper_bound; [lia|].
    rewrite TS_val. nia.
  - apply N.div_lt_upper_bound; [lia|]. rewrite N.mul_comm. exact Hs.
Qed.

Lemma sec_to_samples_val s sr :
  s_whole s < U32 -> s_sub s < TS -> sr < U32 ->
  sec_to_samples s sr = Some (s_whole s * sr + s_sub s * sr / TS).
Proof.
  intros Hw Hs Hr. unfold sec_to_samples.
  assert (Hd : s_sub s * sr / TS <= sr).
  { apply N.div_le_upper_bound; [rewrite TS_val; lia|]. nia. }
  rewrite U32_val in *. 
  rewrite mul_w_some by (rewrite U64_val; nia). cbn [bind].
  rewrite mul_w_some by (rewrite U64_val; rewrite TS_val in *; nia). cbn [bind].
  rewrite div_w_some by (rewrite TS_val; lia). cbn [bind].
  apply add_w_some. rewrite U64_val. nia.
Qed.

Lemma sec_from_samples_normal samples sr s :
  0 < sr < U32 -> samples < U32 * sr -> sec_from_samples samples sr = Some s -> sec_normal s.
Proof.
  intros Hr Hs E. rewrite sec_from_samples_val in E by assumption. injection E as <-.
  assert (Hm : samples mod sr < sr) by (apply N.mod_lt; lia).
  split; cbn.
  - apply N.div_lt_upper_bound; [lia|]. rewrite N.mul_comm. exact Hs.
  - apply N.div_lt_upper_bound; [lia|]. rewrite TS_val. nia.
Qed.

(** [from_samples] then [to_samples] at another rate *)
Lemma sec_resample n sr1 sr2 :
  0 < sr1 < U32 -> sr2 < U32 -> n < U32 * sr1 -> (sr1 | TS) ->
  exists s, sec_from_samples n sr1 = Some s /\ sec_to_samples s sr2 = Some (n * sr2 / sr1).
Proof.
  intros H1 H2 Hn [k Hk].
  pose proof (sec_from_samples_val n sr1 H1 Hn) as E.
  pose proof (sec_from_samples_normal n sr1 _ H1 Hn E) as [Hw Hs].
  eexists; split; [exact E|]. rewrite sec_to_samples_val by assumption. cbn [s_whole s_sub].
  f_equal. assert (Hk0 : k <> 0) by (intros ->; rewrite TS_val in Hk; lia).
  assert (E1 : n mod sr1 * TS / sr1 = n mod sr1 * k).
  { rewrite Hk, N.mul_assoc. apply N.div_mul. lia. }
  rewrite E1, Hk.
  assert (E2 : n mod sr1 * k * sr2 / (k * sr1) = n mod sr1 * sr2 / sr1).
  { replace (n mod sr1 * k * sr2) with (k * (n mod sr1 * sr2)) by lia.
    apply N.div_mul_cancel_l; lia. }
  rewrite E2.
  rewrite <- N.div_add_l by lia. f_equal.
  rewrite (N.div_mod n sr1) at 3 by lia. lia.
Qed.

Lemma sec_roundtrip_dividing n sr :
  0 < sr < U32 -> n < U32 * sr -> (sr | TS) ->
  exists s, sec_from_samples n sr = Some s /\ sec_to_samples s sr = Some n.
Proof.
  intros H Hn Hd. destruct (sec_resample n sr sr H (proj2 H) Hn Hd) as (s & E1 & E2).
  exists s. split; [exact E1|]. rewrite E2. f_equal. apply N.div_mul. lia.
Qed.

Lemma sec_roundtrip_one sr s :
  0 < sr < U32 -> sec_from_samples 1 sr = Some s -> sec_to_samples s sr = Some 1 -> (sr | TS).
Proof.
  intros H E1 E2.
  assert (Hn : 1 < U32 * sr) by (rewrite U32_val; lia).
  pose proof (sec_from_samples_normal 1 sr s H Hn E1) as [Hw Hs].
  rewrite sec_to_samples_val in E2 by (try assumption; apply H).
  rewrite sec_from_samples_val in E1 by assumption. injection E1 as <-. cbn [s_whole s_sub] in *.
  injection E2 as E2.
  destruct (N.eq_dec sr 1) as [->|Hne]; [apply N.divide_1_l|].
  rewrite (N.div_small 1 sr), (N.mod_small 1 sr) in E2 by lia.
  rewrite N.mul_1_l in E2. cbn in E2.
  assert (HT : TS <= TS / sr * sr).
  { assert (TS * 1 <= TS / sr * sr).
    { rewrite <- E2. apply N.mul_div_le. rewrite TS_val; lia. }
    lia. }
  assert (HT2 : sr * (TS / sr) <= TS) by (apply N.mul_div_le; lia).
  exists (TS / sr). lia.
Qed.

Lemma sec_roundtrip_loss n sr :
  0 < sr <= TS -> n < U32 * sr ->
  exists s m, sec_from_samples n sr = Some s /\ sec_to_samples s sr = Some m /\ m <= n <= m + 1.
Proof.
  intros H Hn.
  assert (Hr : 0 < sr < U32) by (rewrite U32_val; rewrite TS_val in H; lia).
  pose proof (sec_from_samples_val n sr Hr Hn) as E.
  pose proof (sec_from_samples_normal n sr _ Hr Hn E) as [Hw Hs].
  eexists; eexists; split; [exact E|]. split; [apply sec_to_samples_val; try assumption; apply Hr|].
  cbn [s_whole s_sub].
  set (q := n mod sr * TS / sr).
  assert (Hq1 : sr * q <= n mod sr * TS) by (apply N.mul_div_le; lia).
  assert (Hq2 : n mod sr * TS < sr * N.succ q) by (apply N.mul_succ_div_gt; lia).
  set (r := q * sr / TS).
  assert (Hr1 : TS * r <= q * sr) by (apply N.mul_div_le; rewrite TS_val; lia).
  assert (Hr2 : q * sr < TS * N.succ r) by (apply N.mul_succ_div_gt; rewrite TS_val; lia).
  assert (HT0 : 0 < TS) by reflexivity.
  pose proof (N.div_mod n sr ltac:(lia)) as Hdm.
  assert (r <= n mod sr) by nia.
  assert (n mod sr <= r + 1) by nia.
  nia.
Qed.

(** Tesimals *)
Lemma sec_to_tesimals_val s : sec_normal s -> sec_to_tesimals s = Some (sec_ticks s).
Proof.
  intros [Hw Hs]. unfold sec_to_tesimals, sec_ticks. rewrite U32_val, TS_val in *.
  rewrite mul_w_some by (rewrite U64_val; lia). cbn [bind]. apply add_w_some. rewrite U64_val. lia.
Qed.
Lemma sec_from_tesimals_val x :
  x < U32 * TS -> exists s, sec_from_tesimals x = Some s /\ sec_normal s /\ sec_ticks s = x.
Proof.
  intros H. unfold sec_from_tesimals.
  assert (Hq : x / TS < U32) by (apply N.div_lt_upper_bound; [rewrite TS_val; lia|lia]).
  rewrite (as_u32_small _ Hq).
  pose proof (N.div_mod x TS ltac:(rewrite TS_val; lia)) as Hdm.
  assert (Hm : x mod TS < TS) by (apply N.mod_lt; rewrite TS_val; lia).
  rewrite mul_w_some by (rewrite U64_val; rewrite U32_val, TS_val in *; lia). cbn [bind].
  rewrite sub_w_some by lia. cbn [bind].
  eexists; split; [reflexivity|].
  assert (E : x - x / TS * TS = x mod TS) by lia. rewrite E.
  rewrite as_u32_small by (rewrite U32_val; rewrite TS_val in *; lia).
  split; [split; cbn; assumption|]. unfold sec_ticks; cbn. lia.
Qed.

Lemma sec_add_comm a b : sec_add a b = sec_add b a.
Proof.
  unfold sec_add, add_w. rewrite (N.add_comm (s_whole b)), (N.add_comm (s_sub b)). reflexivity.
Qed.

Lemma sec_add_some a b c : sec_normal a -> sec_normal b -> sec_add a b = Some c ->
  sec_normal c /\ sec_ticks c = sec_ticks a + sec_ticks b.
Proof.
  intros Ha Hb E. pose proof (sec_add_exact a b Ha Hb) as H.
  destruct (_ <? _); [|congruence]. destruct H as (c' & E' & Hn & Ht).
  rewrite E in E'. injection E' as <-. auto.
Qed.

Lemma sec_add_assoc a b c ab bc :
  sec_normal a -> sec_normal b -> sec_normal c ->
  sec_add a b = Some ab -> sec_add b c = Some bc -> sec_add ab c = sec_add a bc.
Proof.
  intros Ha Hb Hc E1 E2.
  destruct (sec_add_some _ _ _ Ha Hb E1) as [Hab Tab].
  destruct (sec_add_some _ _ _ Hb Hc E2) as [Hbc Tbc].
  pose proof (sec_add_exact ab c Hab Hc) as H1. pose proof (sec_add_exact a bc Ha Hbc) as H2.
  rewrite Tab in H1. rewrite Tbc in H2. rewrite N.add_assoc in H2.
  destruct (_ <? _).
  - destruct H1 as (x & -> & Hx & Tx). destruct H2 as (y & -> & Hy & Ty).
    f_equal. apply sec_ticks_inj; try assumption. congruence.
  - congruence.
Qed.

Lemma sec_add_mono a b c ac bc :
  sec_normal a -> sec_normal b -> sec_normal c ->
  sec_add a c = Some ac -> sec_add b c = Some bc -> sec_ltb ac bc = sec_ltb a b.
Proof.
  intros Ha Hb Hc E1 E2.
  destruct (sec_add_some _ _ _ Ha Hc E1) as [Hac Tac].
  destruct (sec_add_some _ _ _ Hb Hc E2) as [Hbc Tbc].
  destruct (sec_order ac bc Hac Hbc) as [H1 _]. destruct (sec_order a b Ha Hb) as [H2 _].
  rewrite Tac, Tbc in H1. apply eq_true_iff_eq. rewrite H1, H2. lia.
Qed.

Lemma beats_sum_zero_exact l : Forall beats_normal l ->
  fold_right (fun b s => beats_ticks b + s) 0 l < U32 * TB ->
  exists c, beats_sum beats_zero l = Some c /\ beats_normal c /\
            beats_ticks c = fold_right (fun b s => beats_ticks b + s) 0 l.
Proof.
  intros Hl Hb.
  assert (Hz : beats_ticks beats_zero = 0) by reflexivity.
  destruct (beats_sum_exact l beats_zero) as (c & E & Hn & Ht).
  - split; reflexivity.
  - exact Hl.
  - rewrite Hz. lia.
  - exists c. rewrite Hz in Ht. split; [exact E|]. split; [exact Hn|]. lia.
Qed.

Lemma beats_fraction_exact fraction whole frac :
  (fraction | TB) -> whole < U32 -> frac < fraction ->
  exists b, beats_from_fractional fraction whole frac = Some b /\ beats_normal b /\
            beats_ticks b * fraction = (whole * fraction + frac) * TB.
Proof.
  intros [k Hk] Hw Hf. unfold beats_from_fractional. rewrite (proj2 (N.ltb_lt _ _) Hf).
  rewrite div_w_some by lia. cbn [bind].
  assert (E : TB / fraction = k) by (rewrite Hk; apply N.div_mul; lia). rewrite E.
  assert (Hlt : k * frac < TB) by (assert (0 < k) by (destruct k; [rewrite TB_val in Hk; lia|lia]); nia).
  rewrite mul_w_some by (rewrite TB_val in Hlt; rewrite U32_val; lia). cbn [bind].
  eexists; split; [reflexivity|]. split; [split; cbn [b_whole b_sub]; assumption|].
  unfold beats_ticks; cbn [b_whole b_sub]. rewrite Hk. lia.
Qed.

Lemma sec_roundtrip_counterexample :
  exists sr n s, 0 < sr < U32 /\ n < U32 * sr /\
    sec_from_samples n sr = Some s /\ sec_to_samples s sr <> Some n.
Proof.
  exists 44000, 1, (mk_seconds 0 6414). repeat split; try (vm_compute; reflexivity).
  vm_compute. discriminate.
Qed.

Lemma sec_roundtrip_iff sr : 0 < sr < U32 ->
  ((forall n, n < U32 * sr ->
      exists s, sec_from_samples n sr = Some s /\ sec_to_samples s sr = Some n) <-> (sr | TS)).
Proof.
  intros H. split.
  - intros Hall. destruct (Hall 1) as (s & E1 & E2); [rewrite U32_val; lia|].
    eapply sec_roundtrip_one; eassumption.
  - intros Hd n Hn. apply sec_roundtrip_dividing; assumption.
Qed.

Lemma sec_tesimals_roundtrip s : sec_normal s ->
  exists x, sec_to_tesimals s = Some x /\ x = sec_ticks s /\ sec_from_tesimals x = Some s.
Proof.
  intros Hn. exists (sec_ticks s). split; [apply sec_to_tesimals_val; exact Hn|]. split; [reflexivity|].
  destruct (sec_from_tesimals_val (sec_ticks s)) as (s' & E & Hn' & Ht).
  - destruct Hn as [H1 H2]. unfold sec_ticks. nia.
  - rewrite E. f_equal. apply sec_ticks_inj; assumption.
Qed.
Lemma sec_ticks_roundtrip x : x < U32 * TS ->
  exists s, sec_from_tesimals x = Some s /\ sec_to_tesimals s = Some x.
Proof.
  intros H. destruct (sec_from_tesimals_val x H) as (s & E & Hn & Ht).
  exists s. split; [exact E|]. rewrite sec_to_tesimals_val by exact Hn. congruence.
Qed.
Lemma sec_tesimals_counterexample :
  (exists s x, s_whole s < U32 /\ s_sub s < U32 /\ sec_to_tesimals s = Some x /\ sec_from_tesimals x <> Some s) /\
  (exists x s y, x < U64 /\ sec_from_tesimals x = Some s /\ sec_to_tesimals s = Some y /\ y <> x).
Proof.
  split.
  - exists (mk_seconds 0 TS), TS. repeat split; try (vm_compute; reflexivity). vm_compute. discriminate.
  - exists (U32 * TS), (mk_seconds 0 0), 0. repeat split; try (vm_compute; reflexivity). vm_compute. discriminate.
Qed.

Lemma sec_mul_counterexample :
  exists a b c, sec_normal a /\ sec_normal b /\ sec_mul a b = Some c /\
    sec_ticks a * sec_ticks b / TS + 1 < sec_ticks c.
Proof.
  exists (mk_seconds 0 (TS / 2)), (mk_seconds 0 (TS / 2)), (mk_seconds 70560000 0).
  repeat split; vm_compute; reflexivity.
Qed.
Lemma sec_mul_counterexample2 :
  exists a b c, sec_normal a /\ sec_normal b /\ sec_mul a b = Some c /\
    sec_ticks c + 1 < sec_ticks a * sec_ticks b / TS.
Proof.
  exists (mk_seconds 1 (TS / 2)), (mk_seconds 2 0), (mk_seconds 2 0).
  repeat split; vm_compute; reflexivity.
Qed.
Lemma sec_mul_whole a b : sec_normal a -> sec_normal b ->
  s_sub a = 0 -> s_sub b = 0 -> s_whole a * s_whole b < U32 ->
  exists c, sec_mul a b = Some c /\ sec_ticks c * TS = sec_ticks a * sec_ticks b.
Proof.
  intros Ha Hb Ea Eb Hw. unfold sec_mul. rewrite mul_w_some by exact Hw. cbn [bind].
  rewrite Ea, Eb. cbn. eexists; split; [reflexivity|].
  unfold sec_ticks; cbn [s_whole s_sub]. rewrite Ea, Eb. lia.
Qed.
