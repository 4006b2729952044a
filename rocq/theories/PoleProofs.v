From Coq Require Import Reals Lra Lia Psatz.
From Coquelicot Require Import Complex.
From Verif Require Import Base NoiseModel PoleModel PoleSpec SvfRespSpec.
Local Open Scope R_scope.

(** ** The recurrence *)
Lemma pole_run_app : forall (smp : R -> op R -> op R * R) l1 l2 s,
  pole_run RZops smp s (l1 ++ l2) = let r := pole_run RZops smp s l1 in let q := pole_run RZops smp (fst r) l2 in (fst q, snd r ++ snd q).
Proof.
  intros smp l1; induction l1 as [|o l1 IH]; intros l2 s; cbn [app pole_run].
  - cbn. destruct (pole_run RZops smp s l2); reflexivity.
  - rewrite IH. cbn. rewrite app_assoc. reflexivity.
Qed.
Definition fed (k : kind) (s : op R) (x : nat -> R) (n : nat) : op R :=
  fst (pole_run RZops (sample_of k) s (map (fun i => ZIn (x i)) (seq 0 n))).
Lemma outputs_S : forall k s x n, outputs k s x (S n) = outputs k s x n ++ [snd (sample_of k (x n) (fed k s x n))].
Proof.
  intros k s x n. unfold outputs, fed. rewrite seq_S, map_app. cbn [map Nat.add]. rewrite pole_run_app. cbn. reflexivity.
Qed.
Lemma fed_S : forall k s x n, fed k s x (S n) = fst (sample_of k (x n) (fed k s x n)).
Proof.
  intros k s x n. unfold fed. rewrite seq_S, map_app. cbn [map Nat.add]. rewrite pole_run_app. cbn. reflexivity.
Qed.
Lemma outputs_length : forall k s x n, length (outputs k s x n) = n.
Proof.
  intros k s x n; induction n; [reflexivity|]. rewrite outputs_S, app_length, IHn. cbn. lia.
Qed.
Lemma heard_eq : forall k s x n, heard k s x n = snd (sample_of k (x n) (fed k s x n)).
Proof.
  intros. unfold heard. rewrite outputs_S, app_nth2; rewrite outputs_length; [|lia]. rewrite Nat.sub_diag. reflexivity.
Qed.
Lemma sample_state : forall k x s, fst (sample_of k x s) = op_lp Rplus Rmult x s.
Proof. destruct k; reflexivity. Qed.
Lemma fed_coeffs : forall k s x n, o_a0 (fed k s x n) = o_a0 s /\ o_b1 (fed k s x n) = o_b1 s.
Proof.
  intros k s x n; induction n; [split; reflexivity|]. rewrite fed_S, sample_state. destruct IHn as [A B]. split; cbn; assumption.
Qed.
Lemma fed_last : forall k s x n, o_last (fed k s x (S n)) = x n * o_a0 s + o_last (fed k s x n) * o_b1 s.
Proof.
  intros. rewrite fed_S, sample_state. destruct (fed_coeffs k s x n) as [A B]. cbn. rewrite A, B. reflexivity.
Qed.
Lemma low_heard : forall s x n, heard LowPass s x n = o_last (fed LowPass s x (S n)).
Proof. intros. rewrite heard_eq, fed_S. reflexivity. Qed.
Lemma fed_kind : forall k s x n, fed k s x n = fed LowPass s x n.
Proof. intros k s x n; induction n; [reflexivity|]. rewrite !fed_S, !sample_state, IHn. reflexivity. Qed.
Lemma high_heard : forall s x n, heard HighPass s x n = x n - heard LowPass s x n.
Proof. intros. rewrite !heard_eq. rewrite (fed_kind HighPass). reflexivity. Qed.

(** ** The coefficients *)
Definition bcoef (c sr : R) : R := exp (- per_sample c sr).
Lemma set_to_coeffs : forall c sr s, set_to c sr s -> o_b1 s = bcoef c sr /\ o_a0 s = 1 - bcoef c sr.
Proof.
  intros c sr s [Hs [s0 E]]. subst s. unfold set_freq, op_coeff, bcoef, per_sample. cbn.
  replace (-2 * PI * (c / sr)) with (- (2 * PI * c / sr)) by (field; lra). split; reflexivity.
Qed.
Lemma per_sample_pos : forall c sr, 0 < c -> 0 < sr -> 0 < per_sample c sr.
Proof.
  intros. unfold per_sample. apply Rdiv_lt_0_compat; [|assumption]. apply Rmult_lt_0_compat; [|assumption].
  pose proof PI_RGT_0. lra.
Qed.
Lemma bcoef_range : forall c sr, 0 < c -> 0 < sr -> 0 < bcoef c sr < 1.
Proof.
  intros c sr Hc Hs. unfold bcoef. split; [apply exp_pos|]. rewrite <- exp_0. apply exp_increasing.
  pose proof (per_sample_pos c sr Hc Hs). lra.
Qed.

(** ** The response *)
Definition denom (b w : R) : R := 1 - 2 * b * cos w + b * b.
Lemma denom_pos : forall b w, 0 < b < 1 -> 0 < denom b w.
Proof.
  intros b w Hb. unfold denom. pose proof (COS_bound w). nra.
Qed.
Definition h_low (b w : R) : C := ((1 - b) * (1 - b * cos w) / denom b w, - ((1 - b) * b * sin w / denom b w)).
Definition h_high (b w : R) : C := (1 - fst (h_low b w), - snd (h_low b w)).
Lemma filtered_recurrence : forall b sr f a phi n, 0 < b < 1 ->
  filtered (h_low b (per_sample f sr)) sr f a phi (S n) =
  sinusoid sr f a phi (S n) * (1 - b) + filtered (h_low b (per_sample f sr)) sr f a phi n * b.
Proof.
  intros b sr f a phi n Hb. unfold filtered, sinusoid, Re, Im, h_low; cbn [fst snd].
  set (w := per_sample f sr).
  replace (angle sr f phi n) with (angle sr f phi (S n) - w) by (unfold angle, w, per_sample; rewrite S_INR; ring).
  set (t := angle sr f phi (S n)). rewrite cos_minus, sin_minus.
  pose proof (denom_pos b w Hb) as D. pose proof (sin2_cos2 w) as SC. unfold Rsqr in SC.
  set (R0 := (1 - b) * (1 - b * cos w) / denom b w). set (I0 := - ((1 - b) * b * sin w / denom b w)).
  assert (HR : R0 = (1 - b) + b * (R0 * cos w + I0 * sin w)).
  { unfold R0, I0. apply (Rmult_eq_reg_r (denom b w)); [|lra].
    replace (((1 - b) + b * ((1 - b) * (1 - b * cos w) / denom b w * cos w + - ((1 - b) * b * sin w / denom b w) * sin w)) * denom b w)
      with ((1 - b) * denom b w + b * (1 - b) * ((1 - b * cos w) * cos w - b * (sin w * sin w))) by (field; lra).
    replace ((1 - b) * (1 - b * cos w) / denom b w * denom b w) with ((1 - b) * (1 - b * cos w)) by (field; lra).
    replace (sin w * sin w) with (1 - cos w * cos w) by lra. unfold denom. ring. }
  assert (HI : - I0 = b * (R0 * sin w - I0 * cos w)).
  { unfold R0, I0. field. lra. }
  transitivity (a * (R0 * cos t + - I0 * sin t)); [ring|]. rewrite HI at 1. rewrite HR at 1. ring.
Qed.
Lemma low_difference : forall b s sr f a phi n, 0 < b < 1 -> o_b1 s = b -> o_a0 s = 1 - b ->
  heard LowPass s (sinusoid sr f a phi) n - filtered (h_low b (per_sample f sr)) sr f a phi n =
  b ^ n * (heard LowPass s (sinusoid sr f a phi) 0 - filtered (h_low b (per_sample f sr)) sr f a phi 0).
Proof.
  intros b s sr f a phi n Hb B A. induction n.
  - ring.
  - rewrite filtered_recurrence by assumption. rewrite low_heard, fed_last, A, B.
    rewrite low_heard in IHn at 1. cbn [pow].
    transitivity (b * (o_last (fed LowPass s (sinusoid sr f a phi) (S n)) - filtered (h_low b (per_sample f sr)) sr f a phi n)); [ring|].
    rewrite IHn. ring.
Qed.
Lemma geometric_0 : forall b k, 0 < b < 1 -> Un_cv (fun n => b ^ n * k) 0.
Proof.
  intros b k Hb. replace 0 with (0 * k) by ring. apply CV_mult.
  - intros e He. destruct (pow_lt_1_zero b ltac:(rewrite Rabs_right; lra) e He) as [N HN]. exists N. intros n Hn.
    unfold R_dist. rewrite Rminus_0_r. apply HN. exact Hn.
  - intros e He. exists 0%nat. intros. unfold R_dist. rewrite Rminus_diag_eq by reflexivity. rewrite Rabs_R0. exact He.
Qed.
Lemma Un_cv_ext' : forall u v l, (forall n, u n = v n) -> Un_cv u l -> Un_cv v l.
Proof. intros u v l E H e He. destruct (H e He) as [N HN]. exists N. intros n Hn. rewrite <- E. apply HN. exact Hn. Qed.
Lemma low_passes : forall c sr s f, 0 < c -> set_to c sr s -> passes LowPass s sr f (h_low (bcoef c sr) (per_sample f sr)).
Proof.
  intros c sr s f Hc H a phi. destruct (set_to_coeffs _ _ _ H) as [B A]. pose proof (bcoef_range c sr Hc (proj1 H)) as Hb.
  eapply Un_cv_ext'; [|apply (geometric_0 (bcoef c sr)); exact Hb]. intros n. symmetry. apply low_difference; assumption.
Qed.
Lemma high_passes : forall c sr s f, 0 < c -> set_to c sr s -> passes HighPass s sr f (h_high (bcoef c sr) (per_sample f sr)).
Proof.
  intros c sr s f Hc H a phi. pose proof (low_passes c sr s f Hc H a phi) as L. apply CV_opp in L. rewrite Ropp_0 in L.
  eapply Un_cv_ext'; [|exact L]. intros n. unfold opp_seq. rewrite high_heard. unfold filtered, sinusoid, Re, Im, h_high; cbn [fst snd]. ring.
Qed.

(** ** The power *)
Lemma bcoef_cosh : forall c sr, bcoef c sr * (2 * cosh (per_sample c sr)) = 1 + bcoef c sr * bcoef c sr.
Proof.
  intros. unfold bcoef, cosh. set (w := per_sample c sr).
  replace (exp (- w) * (2 * ((exp w + exp (- w)) / 2))) with (exp w * exp (- w) + exp (- w) * exp (- w)) by field.
  rewrite <- exp_plus, Rplus_opp_r, exp_0. reflexivity.
Qed.
Lemma cosh_gt : forall c sr w, 0 < c -> 0 < sr -> 0 < cosh (per_sample c sr) - cos w.
Proof.
  intros c sr w Hc Hs. pose proof (bcoef_range c sr Hc Hs) as Hb. pose proof (bcoef_cosh c sr) as E. pose proof (COS_bound w).
  assert (1 < cosh (per_sample c sr)) by nra. lra.
Qed.
Lemma low_power : forall c sr w, 0 < c -> 0 < sr ->
  power (h_low (bcoef c sr) w) = (cosh (per_sample c sr) - 1) / (cosh (per_sample c sr) - cos w).
Proof.
  intros c sr w Hc Hs. pose proof (bcoef_range c sr Hc Hs) as Hb. pose proof (bcoef_cosh c sr) as E.
  pose proof (cosh_gt c sr w Hc Hs) as G. pose proof (denom_pos _ w Hb) as D. pose proof (sin2_cos2 w) as SC. unfold Rsqr in SC.
  unfold power, Re, Im, h_low; cbn [fst snd]. set (b := bcoef c sr) in *. set (k := cosh (per_sample c sr)) in *.
  transitivity ((1 - b) * (1 - b) / denom b w).
  - apply (Rmult_eq_reg_r (denom b w * denom b w)); [|nra].
    replace ((1 - b) * (1 - b) / denom b w * (denom b w * denom b w)) with ((1 - b) * (1 - b) * denom b w) by (field; lra).
    replace (((1 - b) * (1 - b * cos w) / denom b w * ((1 - b) * (1 - b * cos w) / denom b w) +
       - ((1 - b) * b * sin w / denom b w) * - ((1 - b) * b * sin w / denom b w)) * (denom b w * denom b w))
      with ((1 - b) * (1 - b) * ((1 - b * cos w) * (1 - b * cos w) + b * b * (sin w * sin w))) by (field; lra).
    replace (sin w * sin w) with (1 - cos w * cos w) by lra. unfold denom. ring.
  - apply (Rmult_eq_reg_r (denom b w * (k - cos w))); [|nra].
    replace ((1 - b) * (1 - b) / denom b w * (denom b w * (k - cos w))) with ((1 - b) * (1 - b) * (k - cos w)) by (field; lra).
    replace ((k - 1) / (k - cos w) * (denom b w * (k - cos w))) with ((k - 1) * denom b w) by (field; lra).
    unfold denom. 
    assert (E2 : b * b = b * (2 * k) - 1) by lra.
    transitivity ((b * b - 2 * b + 1) * (k - cos w)); [ring|]. transitivity ((k - 1) * (1 - 2 * b * cos w + b * b)); [|ring]. rewrite E2. ring.
Qed.
Lemma high_power : forall c sr w, 0 < c -> 0 < sr ->
  power (h_high (bcoef c sr) w) = exp (- per_sample c sr) * (1 - cos w) / (cosh (per_sample c sr) - cos w).
Proof.
  intros c sr w Hc Hs. pose proof (bcoef_range c sr Hc Hs) as Hb. pose proof (bcoef_cosh c sr) as E.
  pose proof (cosh_gt c sr w Hc Hs) as G. pose proof (denom_pos _ w Hb) as D. pose proof (sin2_cos2 w) as SC. unfold Rsqr in SC.
  change (exp (- per_sample c sr)) with (bcoef c sr).
  unfold power, Re, Im, h_high, h_low; cbn [fst snd]. set (b := bcoef c sr) in *. set (k := cosh (per_sample c sr)) in *.
  transitivity (2 * b * b * (1 - cos w) / denom b w).
  - apply (Rmult_eq_reg_r (denom b w * denom b w)); [|nra].
    replace (2 * b * b * (1 - cos w) / denom b w * (denom b w * denom b w)) with (2 * b * b * (1 - cos w) * denom b w) by (field; lra).
    replace (((1 - (1 - b) * (1 - b * cos w) / denom b w) * (1 - (1 - b) * (1 - b * cos w) / denom b w) +
       - - ((1 - b) * b * sin w / denom b w) * - - ((1 - b) * b * sin w / denom b w)) * (denom b w * denom b w))
      with ((denom b w - (1 - b) * (1 - b * cos w)) * (denom b w - (1 - b) * (1 - b * cos w)) + (1 - b) * (1 - b) * (b * b) * (sin w * sin w)) by (field; lra).
    replace (sin w * sin w) with (1 - cos w * cos w) by lra. unfold denom. ring.
  - apply (Rmult_eq_reg_r (denom b w * (k - cos w))); [|nra].
    replace (2 * b * b * (1 - cos w) / denom b w * (denom b w * (k - cos w))) with (2 * b * b * (1 - cos w) * (k - cos w)) by (field; lra).
    replace (b * (1 - cos w) / (k - cos w) * (denom b w * (k - cos w))) with (b * (1 - cos w) * denom b w) by (field; lra).
    unfold denom. replace (1 - 2 * b * cos w + b * b) with (b * (2 * k) - 2 * b * cos w) by lra. ring.
Qed.

(** ** Bounds on the functions *)
Lemma grows : forall (f f' : R -> R) x, 0 <= x -> (forall t, derivable_pt_lim f t (f' t)) -> (forall t, 0 <= t <= x -> 0 <= f' t) -> f 0 <= f x.
Proof.
  intros f f' x Hx D P. destruct (Req_dec x 0) as [->|Hn]; [lra|].
  destruct (MVT_cor2 f f' 0 x ltac:(lra) ltac:(intros; apply D)) as [c [E Hc]]. specialize (P c ltac:(lra)).
  assert (0 <= f' c * (x - 0)) by (apply Rmult_le_pos; lra). lra.
Qed.
Lemma dl_sinh : forall t, derivable_pt_lim sinh t (cosh t).
Proof. exact derivable_pt_lim_sinh. Qed.
Lemma dl_cosh : forall t, derivable_pt_lim cosh t (sinh t).
Proof. exact derivable_pt_lim_cosh. Qed.
Lemma dl_pow : forall k n t, derivable_pt_lim (fun u => k * u ^ S n) t (k * (INR (S n) * t ^ n)).
Proof. intros. apply (derivable_pt_lim_scal (fun u => u ^ S n)). apply (derivable_pt_lim_pow t (S n)). Qed.
Lemma cosh_sinh2 : forall u, cosh (2 * u) = 1 + 2 * (sinh u * sinh u).
Proof.
  intros u. unfold cosh, sinh. replace (2 * u) with (u + u) by ring. rewrite Ropp_plus_distr, !exp_plus.
  assert (E : exp u * exp (- u) = 1) by (rewrite <- exp_plus, Rplus_opp_r; apply exp_0).
  apply (Rmult_eq_reg_r 2); [|lra].
  transitivity (exp u * exp u + exp (- u) * exp (- u)); [field|].
  transitivity (2 + exp u * exp u + exp (- u) * exp (- u) - 2 * (exp u * exp (- u))); [lra|field].
Qed.
Lemma cos_sin2 : forall u, cos (2 * u) = 1 - 2 * (sin u * sin u).
Proof. intros. rewrite cos_2a_sin. ring. Qed.
Lemma cosh_ge_1 : forall u, 1 <= cosh u.
Proof. intros u. replace u with (2 * (u / 2)) by field. rewrite cosh_sinh2. nra. Qed.
Lemma sinh_ge : forall u, 0 <= u -> u <= sinh u.
Proof.
  intros u Hu. enough (sinh 0 - 1 * 0 ^ 1 <= sinh u - 1 * u ^ 1) by (rewrite sinh_0 in *; lra).
  apply (grows (fun t => sinh t - 1 * t ^ 1) (fun t => cosh t - 1 * (INR 1 * t ^ 0))); [assumption| |].
  - intros t. apply (derivable_pt_lim_minus sinh); [apply dl_sinh|apply dl_pow].
  - intros t _. pose proof (cosh_ge_1 t). cbn. lra.
Qed.
Lemma cosh_ge : forall w, 0 <= w -> 1 + w * w / 2 <= cosh w.
Proof.
  intros w Hw. replace (cosh w) with (cosh (2 * (w / 2))) by (f_equal; field). rewrite cosh_sinh2.
  pose proof (sinh_ge (w / 2) ltac:(lra)). nra.
Qed.
Lemma sinh_gt : forall u, 0 < u -> u < sinh u.
Proof.
  intros u Hu. destruct (MVT_cor2 sinh cosh 0 u Hu ltac:(intros; apply dl_sinh)) as [c [E Hc]]. rewrite sinh_0 in E.
  pose proof (cosh_ge c ltac:(lra)). assert (1 < cosh c) by nra. nra.
Qed.
Lemma cosh_le_2 : forall u, 0 <= u <= 1 -> cosh u <= 2.
Proof.
  intros u Hu. unfold cosh. assert (exp u <= 3).
  { apply Rle_trans with (exp 1); [|apply exp_le_3]. destruct (Req_dec u 1) as [->|]; [lra|]. left. apply exp_increasing. lra. }
  assert (exp (- u) <= 1). { rewrite <- exp_0. destruct (Req_dec u 0) as [->|]; [rewrite Ropp_0; lra|]. left. apply exp_increasing. lra. }
  lra.
Qed.
Lemma sinh_le_2 : forall u, 0 <= u <= 1 -> sinh u <= 2 * u.
Proof.
  intros u Hu. enough (2 * 0 ^ 1 - sinh 0 <= 2 * u ^ 1 - sinh u) by (rewrite sinh_0 in *; lra).
  apply (grows (fun t => 2 * t ^ 1 - sinh t) (fun t => 2 * (INR 1 * t ^ 0) - cosh t)); [lra| |].
  - intros t. apply (derivable_pt_lim_minus (fun t => 2 * t ^ 1)); [apply dl_pow|apply dl_sinh].
  - intros t Ht. pose proof (cosh_le_2 t ltac:(lra)). cbn. lra.
Qed.
Lemma cosh_le : forall u, 0 <= u <= 1 -> cosh u <= 1 + u * u.
Proof.
  intros u Hu. enough (1 * 0 ^ 2 - cosh 0 <= 1 * u ^ 2 - cosh u) by (rewrite cosh_0 in *; lra).
  apply (grows (fun t => 1 * t ^ 2 - cosh t) (fun t => 1 * (INR 2 * t ^ 1) - sinh t)); [lra| |].
  - intros t. apply (derivable_pt_lim_minus (fun t => 1 * t ^ 2)); [apply dl_pow|apply dl_cosh].
  - intros t Ht. pose proof (sinh_le_2 t ltac:(lra)). cbn. lra.
Qed.
Lemma sinh_le : forall u, 0 <= u <= 1 -> sinh u <= u + u ^ 3 / 3.
Proof.
  intros u Hu. enough (1 * 0 ^ 1 + / 3 * 0 ^ 3 - sinh 0 <= 1 * u ^ 1 + / 3 * u ^ 3 - sinh u) by (rewrite sinh_0 in *; lra).
  apply (grows (fun t => 1 * t ^ 1 + / 3 * t ^ 3 - sinh t) (fun t => 1 * (INR 1 * t ^ 0) + / 3 * (INR 3 * t ^ 2) - cosh t)); [lra| |].
  - intros t. apply (derivable_pt_lim_minus (fun t => 1 * t ^ 1 + / 3 * t ^ 3)); [|apply dl_sinh].
    apply (derivable_pt_lim_plus (fun t => 1 * t ^ 1)); apply dl_pow.
  - intros t Ht. pose proof (cosh_le t ltac:(lra)). cbn. lra.
Qed.
Lemma sin_abs : forall u, 0 < u -> - u < sin u < u.
Proof.
  intros u Hu. split; [|apply sin_lt_x; exact Hu]. pose proof (SIN_bound u). destruct (Rlt_dec 1 u); [lra|].
  assert (0 < sin u). { apply sin_gt_0; [exact Hu|]. pose proof PI_RGT_0. pose proof PI2_1. unfold PI2 in *. lra. }
  lra.
Qed.
Lemma sin_ge : forall u, 0 <= u -> u - u ^ 3 / 6 <= sin u.
Proof.
  intros u Hu. enough (sin 0 - 1 * 0 ^ 1 + / 6 * 0 ^ 3 <= sin u - 1 * u ^ 1 + / 6 * u ^ 3) by (rewrite sin_0 in *; lra).
  apply (grows (fun t => sin t - 1 * t ^ 1 + / 6 * t ^ 3) (fun t => cos t - 1 * (INR 1 * t ^ 0) + / 6 * (INR 3 * t ^ 2))); [lra| |].
  - intros t. apply (derivable_pt_lim_plus (fun t => sin t - 1 * t ^ 1)); [|apply dl_pow].
    apply (derivable_pt_lim_minus sin); [apply derivable_pt_lim_sin|apply dl_pow].
  - intros t Ht. replace (cos t) with (cos (2 * (t / 2))) by (f_equal; field). rewrite cos_sin2.
    destruct (Req_dec t 0) as [->|]; [replace (0 / 2) with 0 by field; rewrite sin_0; cbn; lra|].
    pose proof (sin_abs (t / 2) ltac:(lra)). assert (sin (t / 2) * sin (t / 2) <= t / 2 * (t / 2)) by nra. cbn. lra.
Qed.

(** ** The power at the cutoff, and how it changes with the frequency *)
Definition cut_power (w : R) : R := (cosh w - 1) / (cosh w - cos w).
Lemma cut_power_bounds : forall w, 0 < w -> 1 / 2 < cut_power w /\ (w <= 2 -> cut_power w <= 1 / 2 + w * w / 10).
Proof.
  intros w Hw. unfold cut_power. set (u := w / 2). assert (Hu : 0 < u) by (unfold u; lra).
  replace w with (2 * u) by (unfold u; field). rewrite cosh_sinh2, cos_sin2.
  pose proof (sinh_gt u Hu) as G. pose proof (sin_abs u Hu) as A.
  set (p := sinh u) in *. set (q := sin u) in *.
  replace ((1 + 2 * (p * p) - 1) / (1 + 2 * (p * p) - (1 - 2 * (q * q)))) with (p * p / (p * p + q * q)) by (field; nra).
  assert (Pp : 0 < p * p) by nra. assert (PQ : q * q < p * p) by nra. assert (Q0 : 0 <= q * q) by nra.
  split.
  - apply (Rmult_lt_reg_r (p * p + q * q)); [lra|]. replace (p * p / (p * p + q * q) * (p * p + q * q)) with (p * p) by (field; lra). lra.
  - intros W. assert (U1 : u <= 1) by lra. pose proof (sinh_le u ltac:(lra)) as Sh. pose proof (sin_ge u ltac:(lra)) as Si.
    fold p in Sh. fold q in Si.
    apply (Rmult_le_reg_r (p * p + q * q)); [lra|]. replace (p * p / (p * p + q * q) * (p * p + q * q)) with (p * p) by (field; lra).
    assert (U2 : 0 < u * u <= 1) by nra. assert (E3 : u ^ 3 = u * (u * u)) by ring. rewrite E3 in *.
    assert (D : (p - q) * (p + q) <= u * u * (u * u) * (7 / 6)).
    { assert (p - q <= u * (u * u) / 2) by lra. assert (p + q <= u * (7 / 3)) by nra. assert (0 < p + q) by lra.
      apply Rle_trans with (u * (u * u) / 2 * (p + q)); [apply Rmult_le_compat_r; lra|].
      apply Rle_trans with (u * (u * u) / 2 * (u * (7 / 3))); [apply Rmult_le_compat_l; nra|]. apply Req_le. field. }
    assert (S1 : u * u <= p * p) by nra.
    assert (S2 : u * u * (25 / 36) <= q * q).
    { assert (u * (5 / 6) <= q) by nra. replace (u * u * (25 / 36)) with (u * (5 / 6) * (u * (5 / 6))) by field. apply Rmult_le_compat; lra. }
    assert (S3 : u * u * (61 / 36) <= p * p + q * q) by lra.
    replace ((1 / 2 + 2 * u * (2 * u) / 10) * (p * p + q * q)) with ((p * p + q * q) / 2 + u * u * (2 / 5) * (p * p + q * q)) by field.
    assert (u * u * (2 / 5) * (u * u * (61 / 36)) <= u * u * (2 / 5) * (p * p + q * q)) by (apply Rmult_le_compat_l; lra).
    assert (0 <= u * u * (u * u)) by nra.
    replace (u * u * (2 / 5) * (u * u * (61 / 36))) with (u * u * (u * u) * (61 / 90)) in * by field.
    replace ((p - q) * (p + q)) with (p * p - q * q) in * by ring. lra.
Qed.
Lemma low_falls : forall k x y, 1 < k -> -1 <= x -> x < y -> y <= 1 -> (k - 1) / (k - x) < (k - 1) / (k - y).
Proof.
  intros. unfold Rdiv. apply Rmult_lt_compat_l; [lra|]. apply Rinv_lt_contravar; [|lra]. apply Rmult_lt_0_compat; lra.
Qed.
Lemma high_rises : forall k x y, 1 < k -> -1 <= x -> x < y -> y <= 1 -> (1 - y) / (k - y) < (1 - x) / (k - x).
Proof.
  intros. replace ((1 - y) / (k - y)) with (1 - (k - 1) / (k - y)) by (field; lra). replace ((1 - x) / (k - x)) with (1 - (k - 1) / (k - x)) by (field; lra).
  pose proof (low_falls k x y). lra.
Qed.
Lemma cosh_gt_1 : forall c sr, 0 < c -> 0 < sr -> 1 < cosh (per_sample c sr).
Proof. intros. pose proof (cosh_gt c sr 0 H H0) as G. rewrite cos_0 in G. lra. Qed.
Lemma per_sample_range : forall f sr, 0 < sr -> 0 <= f <= sr / 2 -> 0 <= per_sample f sr <= PI.
Proof.
  intros f sr Hs [H1 H2]. unfold per_sample. pose proof PI_RGT_0. split.
  - apply Rmult_le_pos; [nra|]. left. apply Rinv_0_lt_compat. exact Hs.
  - apply (Rmult_le_reg_r sr); [exact Hs|]. replace (2 * PI * f / sr * sr) with (2 * PI * f) by (field; lra). nra.
Qed.
Lemma per_sample_lt : forall f g sr, 0 < sr -> f < g -> per_sample f sr < per_sample g sr.
Proof.
  intros. unfold per_sample. pose proof PI_RGT_0. apply Rmult_lt_compat_r; [apply Rinv_0_lt_compat; assumption|]. nra.
Qed.
Lemma cos_falls : forall f g sr, 0 < sr -> 0 <= f -> f < g -> g <= sr / 2 -> cos (per_sample g sr) < cos (per_sample f sr).
Proof.
  intros f g sr Hs H0 Hl Hg. pose proof (per_sample_range f sr Hs ltac:(lra)). pose proof (per_sample_range g sr Hs ltac:(lra)).
  apply cos_decreasing_1; try lra. apply per_sample_lt; assumption.
Qed.

(** ** What the events do *)
Lemma set_to_last : forall c sr s l, set_to c sr s -> set_to c sr (mk_op l (o_a0 s) (o_b1 s)).
Proof.
  intros c sr s l [Hs [s0 E]]. split; [exact Hs|]. exists (mk_op l (o_a0 s0) (o_b1 s0)). subst s. reflexivity.
Qed.
Lemma set_to_init : forall c sr r s, set_to c sr s -> pole_init RZops r s = s.
Proof.
  intros c sr r s H. destruct (set_to_coeffs _ _ _ H) as [B A]. unfold pole_init. cbn.
  destruct (Req_EM_T (o_a0 s) 1) as [E|]; [|reflexivity]. pose proof (exp_pos (- per_sample c sr)). unfold bcoef in A. lra.
Qed.
Lemma set_to_run : forall k sr l c s, set_to c sr s -> Forall (at_rate sr) l -> set_to (latest c l) sr (fst (pole_run RZops (sample_of k) s l)).
Proof.
  intros k sr l; induction l as [|o l IH]; intros c s H F; [exact H|]. inversion F as [|? ? Ho F']; subst.
  destruct o as [r|f r|x]; cbn [pole_run latest]; apply IH; try exact F'.
  - cbn [pole_step fst]. rewrite (set_to_init _ _ _ _ H). exact H.
  - cbn in Ho. subst r. cbn [pole_step fst]. split; [exact (proj1 H)|]. exists s. reflexivity.
  - cbn [pole_step fst]. rewrite sample_state. apply set_to_last. exact H.
Qed.
Lemma low_constant : forall s x n, heard LowPass s (fun _ => x) n - x = (o_last s * o_b1 s + x * o_a0 s - x) * o_b1 s ^ n \/ o_a0 s <> 1 - o_b1 s.
Proof.
  intros s x n. destruct (Req_dec (o_a0 s) (1 - o_b1 s)) as [A|]; [left|right; assumption]. induction n.
  - rewrite low_heard, fed_last. unfold fed. cbn. lra.
  - rewrite low_heard in IHn. rewrite low_heard, fed_last. cbn [pow].
    transitivity (o_b1 s * (o_last (fed LowPass s (fun _ => x) (S n)) - x)); [rewrite A; ring|]. rewrite IHn. ring.
Qed.
Lemma low_constant_limit : forall c sr s x, 0 < c -> set_to c sr s -> Un_cv (heard LowPass s (fun _ => x)) x.
Proof.
  intros c sr s x Hc H. destruct (set_to_coeffs _ _ _ H) as [B A]. pose proof (bcoef_range c sr Hc (proj1 H)) as Hb.
  pose proof (geometric_0 (bcoef c sr) (o_last s * o_b1 s + x * o_a0 s - x) Hb) as G. intros e He. destruct (G e He) as [N HN]. exists N. intros n Hn.
  specialize (HN n Hn). unfold R_dist in *. destruct (low_constant s x n) as [E|E]; [|rewrite A, B in E; lra].
  rewrite E, B. rewrite Rminus_0_r in HN. rewrite B in HN. rewrite Rmult_comm. exact HN.
Qed.
