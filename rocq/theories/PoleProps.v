(** * C79: one-pole filters pass what their names say *)
From Coq Require Import Reals Lra Lia Psatz.
From Coquelicot Require Import Complex.
From Verif Require Import Base NoiseModel PoleModel PoleSpec PoleProofs SvfRespSpec.
Local Open Scope R_scope.

(** Whatever the filter has done before, a sinusoid of any frequency comes out as a sinusoid of that frequency, with this part of
    its power. *)
Theorem C79_low : forall c sr s f, 0 < c -> set_to c sr s ->
  lets_through LowPass s sr f ((cosh (per_sample c sr) - 1) / (cosh (per_sample c sr) - cos (per_sample f sr))).
Proof.
  intros c sr s f Hc H. exists (h_low (bcoef c sr) (per_sample f sr)). split; [apply low_passes; assumption|].
  apply low_power; [assumption|exact (proj1 H)].
Qed.
Print Assumptions C79_low.

Theorem C79_high : forall c sr s f, 0 < c -> set_to c sr s ->
  lets_through HighPass s sr f (exp (- per_sample c sr) * (1 - cos (per_sample f sr)) / (cosh (per_sample c sr) - cos (per_sample f sr))).
Proof.
  intros c sr s f Hc H. exists (h_high (bcoef c sr) (per_sample f sr)). split; [apply high_passes; assumption|].
  apply high_power; [assumption|exact (proj1 H)].
Qed.
Print Assumptions C79_high.

(** A filter has only one complex gain at a frequency, so the powers above are the only ones. *)
Theorem C79_unique : forall k s sr f p q, lets_through k s sr f p -> lets_through k s sr f q -> p = q.
Proof.
  intros k s sr f p q [h [H P]] [g [G Q]]. subst p q. 
  assert (Z : forall phi, Un_cv (fun n => filtered h sr f 1 phi n - filtered g sr f 1 phi n) 0).
  { intros phi. pose proof (CV_minus _ _ _ _ (G 1 phi) (H 1 phi)) as M. rewrite Rminus_0_r in M.
    eapply Un_cv_ext'; [|exact M]. intros n. cbn. ring. }
  assert (E : forall n, Rsqr (Re h - Re g) + Rsqr (Im h - Im g) =
    Rsqr (filtered h sr f 1 0 n - filtered g sr f 1 0 n) + Rsqr (filtered h sr f 1 (PI / 2) n - filtered g sr f 1 (PI / 2) n)).
  { intros n. unfold filtered. replace (angle sr f (PI / 2) n) with (PI / 2 + angle sr f 0 n) by (unfold angle; ring).
    set (t := angle sr f 0 n). rewrite <- cos_sin. replace (cos (PI / 2 + t)) with (- sin t) by (rewrite sin_cos; ring).
    pose proof (sin2_cos2 t) as SC. unfold Rsqr in *.
    transitivity (((Re h - Re g) * (Re h - Re g) + (Im h - Im g) * (Im h - Im g)) * (sin t * sin t + cos t * cos t)); [rewrite SC; ring|ring]. }
  assert (L : Un_cv (fun _ => Rsqr (Re h - Re g) + Rsqr (Im h - Im g)) (0 * 0 + 0 * 0)).
  { eapply Un_cv_ext'; [intros n; symmetry; apply E|]. apply CV_plus; apply CV_mult; apply Z. }
  assert (V : Rsqr (Re h - Re g) + Rsqr (Im h - Im g) = 0 * 0 + 0 * 0).
  { eapply UL_sequence; [|exact L]. intros e He. exists 0%nat. intros. unfold R_dist. rewrite Rminus_diag_eq by reflexivity. rewrite Rabs_R0. exact He. }
  replace (0 * 0 + 0 * 0) with 0 in V by ring. apply Rplus_sqr_eq_0 in V. destruct V as [V1 V2]. unfold power.
  replace (Re h) with (Re g) by lra. replace (Im h) with (Im g) by lra. reflexivity.
Qed.
Print Assumptions C79_unique.

(** The low pass lets less through the higher the frequency, the high pass more. *)
Theorem C79_monotone : forall c sr s f g, 0 < c -> set_to c sr s -> 0 <= f -> f < g -> g <= sr / 2 ->
  (exists p q, lets_through LowPass s sr f p /\ lets_through LowPass s sr g q /\ 0 < q < p /\ p <= 1) /\
  (exists p q, lets_through HighPass s sr f p /\ lets_through HighPass s sr g q /\ 0 <= p < q /\ q < 1).
Proof.
  intros c sr s f g Hc H F L G. pose proof (proj1 H) as Hs. pose proof (cos_falls f g sr Hs F L G) as M.
  pose proof (cosh_gt_1 c sr Hc Hs) as K. pose proof (COS_bound (per_sample f sr)) as Bf. pose proof (COS_bound (per_sample g sr)) as Bg.
  set (k := cosh (per_sample c sr)) in *.
  pose proof (per_sample_pos c sr Hc Hs) as W.
  assert (X : 0 < exp (- per_sample c sr) < 1).
  { split; [apply exp_pos|]. rewrite <- exp_0. apply exp_increasing. lra. }
  split.
  - eexists; eexists. split; [apply (C79_low c); assumption|]. split; [apply (C79_low c); assumption|]. fold k. repeat split.
    + apply Rdiv_lt_0_compat; lra.
    + apply low_falls; lra.
    + apply (Rmult_le_reg_r (k - cos (per_sample f sr))); [lra|]. unfold Rdiv. rewrite Rmult_assoc, Rinv_l by lra. lra.
  - eexists; eexists. split; [apply (C79_high c); assumption|]. split; [apply (C79_high c); assumption|]. fold k.
    pose proof (high_rises k (cos (per_sample g sr)) (cos (per_sample f sr)) K ltac:(lra) M ltac:(lra)) as R.
    unfold Rdiv in *. rewrite !Rmult_assoc. repeat split.
    + apply Rmult_le_pos; [lra|]. apply Rmult_le_pos; [lra|]. left. apply Rinv_0_lt_compat. lra.
    + apply Rmult_lt_compat_l; lra.
    + assert ((1 - cos (per_sample g sr)) * / (k - cos (per_sample g sr)) < 1).
      { apply (Rmult_lt_reg_r (k - cos (per_sample g sr))); [lra|]. rewrite Rmult_assoc, Rinv_l by lra. lra. }
      assert (0 <= (1 - cos (per_sample g sr)) * / (k - cos (per_sample g sr))).
      { apply Rmult_le_pos; [lra|]. left. apply Rinv_0_lt_compat. lra. }
      nra.
Qed.
Print Assumptions C79_monotone.

(** Constants come through the low pass unchanged and are removed by the high pass. *)
Theorem C79_constants : forall c sr s x, 0 < c -> set_to c sr s ->
  Un_cv (heard LowPass s (fun _ => x)) x /\ Un_cv (heard HighPass s (fun _ => x)) 0.
Proof.
  intros c sr s x Hc H. pose proof (low_constant_limit c sr s x Hc H) as L. split; [exact L|].
  intros e He. destruct (L e He) as [N HN]. exists N. intros n Hn. specialize (HN n Hn). unfold R_dist in *. rewrite high_heard, Rminus_0_r.
  rewrite Rabs_minus_sym in HN. exact HN.
Qed.
Print Assumptions C79_constants.

(** The two filters split the input: their outputs add up to it. *)
Theorem C79_complement : forall s x n, heard LowPass s x n + heard HighPass s x n = x n.
Proof. intros. rewrite high_heard. ring. Qed.
Print Assumptions C79_complement.

(** At the cutoff the low pass lets more than half of the power through, always.  What is missing from "half": it is half in the limit
    of low cutoffs only, within a tenth of the square of the cutoff as an angle. *)
Theorem C79_low_cutoff_partial : forall c sr s, 0 < c -> set_to c sr s ->
  exists p, lets_through LowPass s sr c p /\ 1 / 2 < p /\ (per_sample c sr <= 2 -> p <= 1 / 2 + per_sample c sr * per_sample c sr / 10).
Proof.
  intros c sr s Hc H. eexists. split; [apply (C79_low c); assumption|].
  exact (cut_power_bounds (per_sample c sr) (per_sample_pos c sr Hc (proj1 H))).
Qed.
Print Assumptions C79_low_cutoff_partial.

(** The high pass lets less than half through, always; the same bound, less a factor. *)
Theorem C79_high_cutoff_partial : forall c sr s, 0 < c -> set_to c sr s ->
  exists p, lets_through HighPass s sr c p /\ p < exp (- per_sample c sr) / 2 /\
    (per_sample c sr <= 2 -> exp (- per_sample c sr) * (1 / 2 - per_sample c sr * per_sample c sr / 10) <= p).
Proof.
  intros c sr s Hc H. eexists. split; [apply (C79_high c); assumption|].
  pose proof (cut_power_bounds (per_sample c sr) (per_sample_pos c sr Hc (proj1 H))) as [B1 B2]. unfold cut_power in *.
  pose proof (cosh_gt c sr (per_sample c sr) Hc (proj1 H)) as G. set (w := per_sample c sr) in *. pose proof (exp_pos (- w)) as E.
  replace (exp (- w) * (1 - cos w) / (cosh w - cos w)) with (exp (- w) * (1 - (cosh w - 1) / (cosh w - cos w))) by (field; lra).
  split; [nra|]. intros W. apply Rmult_le_compat_l; [lra|]. specialize (B2 W). lra.
Qed.
Print Assumptions C79_high_cutoff_partial.

Lemma quarter : forall sr, 0 < sr -> per_sample (sr / 4) sr = PI / 2.
Proof. intros. unfold per_sample. field. lra. Qed.
Lemma half : forall sr, 0 < sr -> per_sample (sr / 2) sr = PI.
Proof. intros. unfold per_sample. field. lra. Qed.
Lemma cosh_quarter : 17 / 8 <= cosh (PI / 2) /\ 29 / 8 <= exp (PI / 2).
Proof.
  pose proof PI_RGT_0. pose proof PI2_3_2. pose proof (cosh_ge (PI / 2) ltac:(lra)) as C. pose proof (sinh_ge (PI / 2) ltac:(lra)) as S.
  assert (17 / 8 <= cosh (PI / 2)) by nra. split; [assumption|].
  replace (exp (PI / 2)) with (cosh (PI / 2) + sinh (PI / 2)) by (unfold cosh, sinh; field). lra.
Qed.
(** Not half at the cutoff: with the cutoff at a quarter of the sample rate, more than 52 of 100. *)
Theorem C79_low_cutoff_refuted : forall sr s, 0 < sr -> set_to (sr / 4) sr s ->
  exists p, lets_through LowPass s sr (sr / 4) p /\ 52 / 100 < p.
Proof.
  intros sr s Hs H. eexists. split; [apply (C79_low (sr / 4)); [lra|assumption]|]. rewrite quarter, cos_PI2, Rminus_0_r by assumption.
  destruct cosh_quarter as [C _]. apply (Rmult_lt_reg_r (cosh (PI / 2))); [lra|]. unfold Rdiv at 3. rewrite Rmult_assoc, Rinv_l by lra. lra.
Qed.
Print Assumptions C79_low_cutoff_refuted.

(** The high pass does not pass the highest frequencies unchanged: here it lets less than a fifth of the power through at half the
    sample rate, where its gain is largest. *)
Theorem C79_high_top_refuted : forall sr s, 0 < sr -> set_to (sr / 4) sr s ->
  exists p, lets_through HighPass s sr (sr / 2) p /\ p < 1 / 5.
Proof.
  intros sr s Hs H. eexists. split; [apply (C79_high (sr / 4)); [lra|assumption]|]. rewrite quarter, half, cos_PI by assumption.
  destruct cosh_quarter as [C E]. rewrite exp_Ropp. set (k := cosh (PI / 2)) in *. set (e := exp (PI / 2)) in *.
  replace (/ e * (1 - -1) / (k - -1)) with (2 / (e * (k + 1))) by (field; lra).
  assert (10 < e * (k + 1)) by nra. apply (Rmult_lt_reg_r (e * (k + 1))); [lra|]. unfold Rdiv at 1. rewrite Rmult_assoc, Rinv_l by lra. lra.
Qed.
Print Assumptions C79_high_top_refuted.

(** Whatever happens after [init], at one sample rate, a filter is set to the latest cutoff. *)
Theorem C79_settings : forall sr c l, 0 < sr -> Forall (at_rate sr) l ->
  set_to (latest c l) sr (fst (pole_run RZops (sample_of LowPass) (lpf_new RZops c) (ZInit sr :: l))) /\
  set_to (latest 0 l) sr (fst (pole_run RZops (sample_of HighPass) (hpf_new RZops) (ZInit sr :: l))).
Proof.
  intros sr c l Hs F. split; cbn [pole_run pole_step fst].
  - apply set_to_run; [|exact F]. split; [exact Hs|]. exists (lpf_new RZops c). unfold pole_init. cbn.
    destruct (Req_EM_T 1 1); [reflexivity|lra].
  - apply set_to_run; [|exact F]. split; [exact Hs|]. exists (hpf_new RZops). unfold pole_init. cbn.
    destruct (Req_EM_T 1 1); [reflexivity|lra].
Qed.
Print Assumptions C79_settings.

(** Not when the sample rate changes: a second [init] leaves the filter as it is, at half the cutoff relative to the new rate. *)
Theorem C79_second_rate_refuted :
  let s := fst (pole_run RZops (sample_of LowPass) (lpf_new RZops 1000) [ZInit 48000; ZInit 96000]) in
  ~ set_to 1000 96000 s /\ set_to 2000 96000 s.
Proof.
  cbn zeta. set (s1 := fst (pole_run RZops (sample_of LowPass) (lpf_new RZops 1000) [ZInit 48000])).
  assert (H1 : set_to 1000 48000 s1) by (apply (C79_settings 48000 1000 []); [lra|constructor]).
  replace (fst (pole_run RZops (sample_of LowPass) (lpf_new RZops 1000) [ZInit 48000; ZInit 96000])) with s1
    by (symmetry; apply (set_to_init 1000 48000 96000 s1 H1)).
  split.
  - intros H2. destruct (set_to_coeffs _ _ _ H1) as [B1 _]. destruct (set_to_coeffs _ _ _ H2) as [B2 _]. rewrite B1 in B2. unfold bcoef, per_sample in B2.
    apply exp_inv in B2. pose proof PI_RGT_0. lra.
  - destruct H1 as [_ [s0 E]]. split; [lra|]. exists s0. rewrite E. unfold set_freq. cbn. do 3 f_equal. field.
Qed.
Print Assumptions C79_second_rate_refuted.

(** ** Cases that meet the hypotheses *)
Example C79_a_filter : set_to 1000 48000 (fst (pole_run RZops (sample_of LowPass) (lpf_new RZops 500) [ZInit 48000; ZIn 1; ZCutoff 1000 48000; ZIn (-1)])).
Proof. apply (C79_settings 48000 500 [ZIn 1; ZCutoff 1000 48000; ZIn (-1)]); [lra|]. repeat constructor. Qed.
Example C79_low_angle : per_sample 1000 48000 <= 2.
Proof. unfold per_sample. pose proof PI_4. lra. Qed.
Example C79_frequencies : 0 <= 100 /\ 100 < 1000 /\ 1000 <= 48000 / 2.
Proof. lra. Qed.
