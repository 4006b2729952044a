From Coq Require Import Reals Lra Psatz.
From Coquelicot Require Import Complex.
From Verif Require Import Base SvfModel SvfSpec SvfProofs SvfRespSpec.
Local Open Scope R_scope.

(** * Consecutive samples of a sinusoid *)
Lemma half_angle t x : cos t <> 0 ->
  cos (x + 2 * t) - cos x = - tan t * (sin (x + 2 * t) + sin x) /\
  sin (x + 2 * t) - sin x = tan t * (cos (x + 2 * t) + cos x).
Proof.
  intros H. rewrite cos_plus, sin_plus, cos_2a_cos, sin_2a. unfold tan.
  pose proof (sin2_cos2 t) as E. unfold Rsqr in E.
  assert (Es : sin t * sin t = 1 - cos t * cos t) by lra.
  assert (Ec : cos t * cos t = 1 - sin t * sin t) by lra.
  set (c := cos t) in *. set (z := sin t) in *. set (cx := cos x). set (sx := sin x). clearbody c z cx sx.
  split.
  - transitivity (- (2 * z * (z * cx + c * sx))); [replace (2 * c * c) with (2 * (1 - z * z)) by (rewrite <- Ec; ring); ring|].
    transitivity (- (z / c) * (2 * c * (z * cx + c * sx))); [field; exact H|]. f_equal. ring.
  - transitivity (2 * z * (c * cx - z * sx)); [replace (2 * c * c) with (2 * (1 - z * z)) by (rewrite <- Ec; ring); ring|].
    transitivity (z / c * (2 * c * (c * cx - z * sx))); [field; exact H|]. f_equal. ring.
Qed.
Lemma angle_S sr f phi n : angle sr f phi (S n) = angle sr f phi n + 2 * (PI * f / sr).
Proof. unfold angle. rewrite S_INR. unfold Rdiv. ring. Qed.
Lemma cos_half_pos sr f : 0 < f < sr / 2 -> 0 < cos (PI * f / sr).
Proof.
  intros [H1 H2]. pose proof PI_RGT_0. apply cos_gt_0.
  - assert (0 < PI * f / sr) by (apply Rdiv_lt_0_compat; nra). lra.
  - apply Rmult_lt_reg_r with sr; [lra|]. unfold Rdiv. rewrite Rmult_assoc, Rinv_l by lra. nra.
Qed.

(** * The steady run *)
(** The complex gain from the low pass gain [(l1, l2)] *)
Definition mix (m0 m1 m2 w l1 l2 : R) : C := (m0 - m1 * (w * l2) + m2 * l1, m1 * (w * l1) + m2 * l2).
Lemma steady_sine sr s f a phi g k w l1 l2 n : ready sr s -> 0 < f < sr / 2 ->
  gk sr s = (g, k) -> tan (PI * f / sr) = g * w ->
  l1 * (1 - w * w) - k * w * l2 = 1 -> l2 * (1 - w * w) + k * w * l1 = 0 ->
  let v2 n := a * (l1 * cos (angle sr f phi n) - l2 * sin (angle sr f phi n)) in
  let v1 n := - (a * w * (l2 * cos (angle sr f phi n) + l1 * sin (angle sr f phi n))) in
  let hp n := - (a * (w * w) * (l1 * cos (angle sr f phi n) - l2 * sin (angle sr f phi n))) in
  output (with_state s (v1 O - g * hp O) (v2 O - g * v1 O)) (sinusoid sr f a phi) n
  = filtered (mix (v_m0 s) (v_m1 s) (v_m2 s) w l1 l2) sr f a phi n.
Proof.
  intros H Hf Hgk Ht E1 E2 v2 v1 hp.
  set (t := with_state s (v1 O - g * hp O) (v2 O - g * v1 O)).
  pose proof (ready_tuned _ _ (with_state_ready sr s (v1 O - g * hp O) (v2 O - g * v1 O) H)) as T.
  fold t in T. pose proof (g_pos _ _ (proj1 T)) as Hg. pose proof (k_pos _ _ (proj1 T)) as Hk.
  assert (Eg : gk sr t = (g, k)) by exact Hgk. rewrite Eg in *. cbn [fst snd] in Hg, Hk.
  assert (Hx : forall n, hp n + k * v1 n + v2 n = sinusoid sr f a phi n).
  { intros j. unfold hp, v1, v2, sinusoid. set (c := cos (angle sr f phi j)). set (z := sin (angle sr f phi j)).
    transitivity (a * c * (l1 * (1 - w * w) - k * w * l2) - a * z * (l2 * (1 - w * w) + k * w * l1)); [ring|].
    rewrite E1, E2. ring. }
  assert (Dn : forall j, dv1 g k (v1 j - g * hp j) (v2 j - g * v1 j) (sinusoid sr f a phi j) = v1 j /\
                         dv2 g k (v1 j - g * hp j) (v2 j - g * v1 j) (sinusoid sr f a phi j) = v2 j).
  { intros j. rewrite <- Hx.
    assert (D1 : dv1 g k (v1 j - g * hp j) (v2 j - g * v1 j) (hp j + k * v1 j + v2 j) = v1 j).
    { unfold dv1. pose proof (den_pos g k Hg Hk). field. lra. }
    split; [exact D1|]. unfold dv2. rewrite D1. ring. }
  assert (Hs : forall j, v1 (S j) - g * hp (S j) = v1 j + g * hp j /\ v2 (S j) - g * v1 (S j) = v2 j + g * v1 j).
  { intros j. assert (Hc : cos (PI * f / sr) <> 0) by (pose proof (cos_half_pos sr f Hf); lra).
    destruct (half_angle (PI * f / sr) (angle sr f phi j) Hc) as [C1 C2].
    rewrite <- angle_S, Ht in C1, C2.
    unfold hp, v1, v2. set (c' := cos (angle sr f phi (S j))) in *. set (z' := sin (angle sr f phi (S j))) in *.
    set (c := cos (angle sr f phi j)) in *. set (z := sin (angle sr f phi j)) in *. clearbody c c' z z'.
    split.
    - assert (a * w * l2 * (c' - c) = a * w * l2 * (- (g * w) * (z' + z))) by (rewrite C1; reflexivity).
      assert (a * w * l1 * (z' - z) = a * w * l1 * (g * w * (c' + c))) by (rewrite C2; reflexivity). lra.
    - assert (a * l1 * (c' - c) = a * l1 * (- (g * w) * (z' + z))) by (rewrite C1; reflexivity).
      assert (a * l2 * (z' - z) = a * l2 * (g * w * (c' + c))) by (rewrite C2; reflexivity). lra. }
  assert (St : v_ic1 (after t (sinusoid sr f a phi) n) = v1 n - g * hp n /\
               v_ic2 (after t (sinusoid sr f a phi) n) = v2 n - g * v1 n).
  { induction n as [|n [I1 I2]]; [split; reflexivity|].
    destruct (after_S sr t (sinusoid sr f a phi) n T) as [A1 A2]. cbv zeta in A1, A2. rewrite Eg in A1, A2. cbn [fst snd] in A1, A2.
    rewrite A1, A2, I1, I2. unfold ds1, ds2. destruct (Dn n) as [D1 D2]. rewrite D1, D2.
    destruct (Hs n) as [S1 S2]. rewrite S1, S2. split; ring. }
  destruct St as [S1 S2]. pose proof (output_eq sr t (sinusoid sr f a phi) n T) as E. cbv zeta in E. rewrite Eg in E. cbn [fst snd] in E.
  rewrite E, S1, S2. destruct (Dn n) as [D1 D2]. rewrite D1, D2.
  change (v_m0 t) with (v_m0 s). change (v_m1 t) with (v_m1 s). change (v_m2 t) with (v_m2 s).
  unfold filtered, mix, v1, v2, sinusoid, Re, Im. cbn [fst snd]. ring.
Qed.
(** The low pass gain, [1 / (s^2 + k s + 1)] at [s = i w] *)
Definition low1 (k w : R) : R := (1 - w * w) / ((1 - w * w) * (1 - w * w) + k * w * (k * w)).
Definition low2 (k w : R) : R := - (k * w) / ((1 - w * w) * (1 - w * w) + k * w * (k * w)).
Lemma low_den k w : 0 < k -> 0 < w -> 0 < (1 - w * w) * (1 - w * w) + k * w * (k * w).
Proof. intros. assert (0 < k * w) by nra. pose proof (Rle_0_sqr (1 - w * w)). unfold Rsqr in *. nra. Qed.
Lemma low_eqs k w : 0 < k -> 0 < w ->
  low1 k w * (1 - w * w) - k * w * low2 k w = 1 /\ low2 k w * (1 - w * w) + k * w * low1 k w = 0.
Proof. intros Hk Hw. pose proof (low_den k w Hk Hw). unfold low1, low2. split; field; lra. Qed.

Lemma responds_mix sr s f g k w : ready sr s -> 0 < f < sr / 2 -> gk sr s = (g, k) ->
  tan (PI * f / sr) = g * w -> 0 < w ->
  responds sr s f (mix (v_m0 s) (v_m1 s) (v_m2 s) w (low1 k w) (low2 k w)).
Proof.
  intros H Hf Hgk Ht Hw a phi.
  assert (Hk : 0 < k) by (pose proof (k_pos sr s (proj1 H)) as P; rewrite Hgk in P; exact P).
  destruct (low_eqs k w Hk Hw) as [E1 E2].
  assert (S : exists i1 i2, forall n, output (with_state s i1 i2) (sinusoid sr f a phi) n
              = filtered (mix (v_m0 s) (v_m1 s) (v_m2 s) w (low1 k w) (low2 k w)) sr f a phi n).
  { eexists. eexists. intros n. exact (steady_sine sr s f a phi g k w _ _ n H Hf Hgk Ht E1 E2). }
  destruct S as (i1 & i2 & S).
  intros eps He.
  destruct (converge sr s (sinusoid sr f a phi) i1 i2 H eps He) as [N HN].
  exists N. intros n Hn. specialize (HN n Hn). rewrite S in HN. exact HN.
Qed.

(** * The complex gain of the mix *)
Lemma Ceq (x y : C) : fst x = fst y -> snd x = snd y -> x = y.
Proof. destruct x, y; cbn. intros; subst; reflexivity. Qed.
Lemma low_complex k w : 0 < k -> 0 < w ->
  let s := (Ci * RtoC w)%C in
  ((low1 k w, low2 k w) : C) = (RtoC 1 / (s * s + RtoC k * s + RtoC 1))%C /\ (s * s + RtoC k * s + RtoC 1)%C <> RtoC 0.
Proof.
  intros Hk Hw s. pose proof (low_den k w Hk Hw) as D.
  assert (Es : (s * s + RtoC k * s + RtoC 1)%C = (1 - w * w, k * w)).
  { unfold s. apply Ceq; cbn; ring. }
  rewrite Es. split.
  - unfold Cdiv, Cinv, Cmult, RtoC; cbn [fst snd]. unfold low1, low2. apply Ceq; cbn [fst snd]; field; lra.
  - intros E. apply (f_equal snd) in E. cbn in E. nra.
Qed.
Lemma mix_complex m0 m1 m2 k w : 0 < k -> 0 < w ->
  let s := (Ci * RtoC w)%C in
  mix m0 m1 m2 w (low1 k w) (low2 k w) =
  ((RtoC m0 * (s * s + RtoC k * s + RtoC 1) + RtoC m1 * s + RtoC m2) / (s * s + RtoC k * s + RtoC 1))%C.
Proof.
  intros Hk Hw s. destruct (low_complex k w Hk Hw) as [El Hd]. fold s in El, Hd.
  assert (Em : mix m0 m1 m2 w (low1 k w) (low2 k w) = (RtoC m0 + RtoC m1 * s * (low1 k w, low2 k w) + RtoC m2 * (low1 k w, low2 k w))%C).
  { unfold mix, s. apply Ceq; cbn [fst snd Cplus Cmult RtoC Ci]; ring. }
  rewrite Em, El. field. exact Hd.
Qed.

(** * Each type *)
Definition ampl (gain : R) : R := amp_of Rops gain.
Lemma ampl_root gain : sqrt (linear_gain gain) = ampl gain.
Proof. rewrite <- amp_sq. apply sqrt_square. apply Rlt_le, amp_pos. Qed.
(** The prototype the code implements: a bell is the prototype of the cutoff divided by the root of [A] *)
Definition built (ty : svf_type) (sr cutoff q gain f : R) : C :=
  let A := sqrt (linear_gain gain) in
  let w := relative sr cutoff f in
  prototype ty q A (Ci * RtoC (match ty with Bell => sqrt A * w | _ => w end))%C.
Lemma RtoC_neq x : x <> 0 -> RtoC x <> RtoC 0.
Proof. intros H E. apply H. apply (f_equal fst) in E. exact E. Qed.
Lemma tuned_mix sr s : tuned sr s ->
  (v_m0 s, v_m1 s, v_m2 s) = m_of Rops (v_ty s) (k_of Rops (v_ty s) (v_q s) (v_gain s)) (amp_of Rops (v_gain s)).
Proof. intros [_ (_ & _ & _ & E)]. exact E. Qed.
Definition scale_of (ty : svf_type) (r : R) : R :=
  match ty with Bell | LowShelf => r | HighShelf => / r | _ => 1 end.
Lemma shape ty q r gain (S : C) : 0 < q -> 0 < r -> ampl gain = r * r ->
  let s := (RtoC (scale_of ty r) * S)%C in
  let k := k_of Rops ty q gain in
  let '(m0, m1, m2) := m_of Rops ty k (amp_of Rops gain) in
  let D := (s * s + RtoC k * s + RtoC 1)%C in
  D <> RtoC 0 ->
  ((RtoC m0 * D + RtoC m1 * s + RtoC m2) / D)%C
  = prototype ty q (r * r) (match ty with Bell => RtoC r * S | _ => S end)%C.
Proof.
  intros Hq Hr EA. unfold ampl in EA.
  assert (Q : RtoC q <> RtoC 0) by (apply RtoC_neq; lra).
  assert (N : q * (r * r) <> 0) by (apply Rmult_integral_contrapositive_currified; [lra|nra]).
  assert (Rn : RtoC r <> RtoC 0) by (apply RtoC_neq; lra).
  destruct ty; cbv zeta; cbn [m_of k_of scale_of o_zero o_one o_two o_opp o_mul o_add o_sub o_div Rops]; rewrite ?EA;
    cbv zeta; unfold prototype; rewrite ?sqrt_square by lra; intros HD;
    unfold Rdiv in *; rewrite ?Rmult_1_l in *.
  all: rewrite ?RtoC_inv in * by first [exact N | nra].
  all: rewrite ?RtoC_mult, ?RtoC_opp, ?RtoC_minus in *.
  all: rewrite ?RtoC_mult, ?RtoC_opp, ?RtoC_minus in *.
  all: rewrite ?RtoC_inv in * by first [exact N | nra].
  all: rewrite ?RtoC_mult in *.
  all: try (replace (RtoC 2) with (RtoC 1 + RtoC 1)%C by (apply Ceq; cbn; ring)).
  all: field.
  all: repeat split; try assumption; intros E; apply HD.
  1-6: transitivity ((S * S * q + S + q) / q)%C; [field; exact Q | rewrite E; field; exact Q].
  - transitivity ((r * S * (r * S) * (r * q) + S + r * q) / (r * q))%C; [field; auto | rewrite E; field; auto].
  - transitivity ((r * r * (S * S) * q + r * S + q) / q)%C; [field; auto | rewrite E; field; auto].
  - transitivity ((S * S * q + r * S + r * r * q) / (r * r * q))%C; [field; auto | rewrite E; field; auto].
Qed.
Lemma scale_g sr s f : in_range sr (v_cutoff s) (v_q s) ->
  let r := sqrt (ampl (v_gain s)) in
  tan (PI * f / sr) = fst (gk sr s) * (scale_of (v_ty s) r * relative sr (v_cutoff s) f).
Proof.
  intros [Hc Hq] r. pose proof (tan_pos _ _ Hc) as Tc.
  assert (Hr : 0 < r) by (apply sqrt_lt_R0, amp_pos).
  unfold relative, gk, g_of. cbn [fst]. destruct (v_ty s);
    cbn [scale_of o_tan o_mul o_div o_sqrt o_pi Rops]; fold (ampl (v_gain s)); fold r; field; lra.
Qed.
Lemma responds_built sr s f : ready sr s -> 0 < f < sr / 2 ->
  responds sr s f (built (v_ty s) sr (v_cutoff s) (v_q s) (v_gain s) f).
Proof.
  intros H Hf. pose proof (ready_tuned sr s H) as T. pose proof (tuned_mix sr s T) as Em.
  destruct (proj1 H) as [Hc Hq]. pose proof (tan_pos _ _ Hc) as Tc. pose proof (tan_pos _ _ Hf) as Tf.
  assert (W : 0 < relative sr (v_cutoff s) f) by (apply Rdiv_lt_0_compat; assumption).
  pose proof (scale_g sr s f (proj1 H)) as Es. cbv zeta in Es.
  assert (HA : 0 < ampl (v_gain s)) by apply amp_pos.
  set (r := sqrt (ampl (v_gain s))) in *.
  assert (Hr : 0 < r) by (apply sqrt_lt_R0, HA).
  assert (Er : ampl (v_gain s) = r * r) by (unfold r; rewrite sqrt_sqrt; lra).
  assert (Hs : 0 < scale_of (v_ty s) r) by (destruct (v_ty s); cbn; try lra; apply Rinv_0_lt_compat; lra).
  set (k := snd (gk sr s)). pose proof (k_pos _ _ (proj1 H)) as Hk. fold k in Hk.
  set (w := scale_of (v_ty s) r * relative sr (v_cutoff s) f) in *.
  assert (Hw : 0 < w) by (apply Rmult_lt_0_compat; assumption).
  pose proof (responds_mix sr s f _ k w H Hf (surjective_pairing _) Es Hw) as R.
  replace (built (v_ty s) sr (v_cutoff s) (v_q s) (v_gain s) f)
    with (mix (v_m0 s) (v_m1 s) (v_m2 s) w (low1 k w) (low2 k w)); [exact R|]. clear R.
  rewrite mix_complex by assumption.
  pose proof (shape (v_ty s) (v_q s) r (v_gain s) (Ci * RtoC (relative sr (v_cutoff s) f))%C Hq Hr Er) as Sh. cbv zeta in Sh.
  rewrite <- Em in Sh. change (k_of Rops (v_ty s) (v_q s) (v_gain s)) with k in Sh.
  replace (RtoC (scale_of (v_ty s) r) * (Ci * RtoC (relative sr (v_cutoff s) f)))%C with (Ci * RtoC w)%C in Sh
    by (unfold w; rewrite RtoC_mult; ring).
  rewrite Sh by (exact (proj2 (low_complex k w Hk Hw))).
  unfold built. rewrite ampl_root, <- Er. fold r. f_equal. destruct (v_ty s); try reflexivity.
  rewrite RtoC_mult. ring.
Qed.

Lemma responds_wanted sr s f : ready sr s -> 0 < f < sr / 2 -> v_ty s <> Bell ->
  responds sr s f (wanted (v_ty s) sr (v_cutoff s) (v_q s) (v_gain s) f).
Proof.
  intros H Hf Hb. pose proof (responds_built sr s f H Hf) as R. unfold built, wanted in *.
  destruct (v_ty s); try exact R. contradiction.
Qed.
Lemma relative_cutoff sr c : 0 < c < sr / 2 -> relative sr c c = 1.
Proof. intros H. pose proof (tan_pos _ _ H). unfold relative. field. lra. Qed.

(** * The simple types at their cutoff *)
Lemma Cdiv_RtoC (x : C) q : q <> 0 -> (x / RtoC q)%C = (fst x / q, snd x / q).
Proof.
  intros H. unfold Cdiv, Cinv, Cmult, RtoC; cbn [fst snd]. apply Ceq; cbn [fst snd]; field; nra.
Qed.
Lemma cutoff_den q : q <> 0 -> let S := (Ci * RtoC 1)%C in (S * S + S / RtoC q + RtoC 1)%C = (0, / q).
Proof. intros H S. rewrite Cdiv_RtoC by exact H. unfold S. apply Ceq; cbn; field; exact H. Qed.
Lemma div_iq (x : C) q : 0 < q -> (x / ((0, (/ q)%R) : C))%C = (q * snd x, - (q * fst x)).
Proof.
  intros H. assert (0 < / q) by (apply Rinv_0_lt_compat; exact H).
  unfold Cdiv, Cinv, Cmult; cbn [fst snd]. apply Ceq; cbn [fst snd]; field; lra.
Qed.
Lemma wanted_cutoff ty sr c q gain h : 0 < c < sr / 2 -> 0 < q -> at_cutoff ty q = Some h -> wanted ty sr c q gain c = h.
Proof.
  intros Hc Hq E. unfold wanted. rewrite relative_cutoff by exact Hc.
  destruct ty; inversion E; clear E H0; unfold prototype; cbv zeta;
    rewrite cutoff_den, div_iq by lra; rewrite ?Cdiv_RtoC by lra; apply Ceq; cbn; field; lra.
Qed.
Lemma responds_cutoff sr s h : ready sr s -> at_cutoff (v_ty s) (v_q s) = Some h -> responds sr s (v_cutoff s) h.
Proof.
  intros H E. destruct (proj1 H) as [Hc Hq].
  rewrite <- (wanted_cutoff _ sr _ _ (v_gain s) h Hc Hq E). apply responds_wanted; try assumption.
  intros B. rewrite B in E. discriminate.
Qed.
(** An all pass changes no amplitude. *)
Lemma all_flat q A w : 0 < q -> Cmod (prototype All q A (Ci * RtoC w)%C) = 1.
Proof.
  intros Hq. unfold prototype. cbv zeta. rewrite Cdiv_RtoC by lra.
  set (d := (Ci * RtoC w * (Ci * RtoC w) + ((fst (Ci * RtoC w)%C / q)%R, (snd (Ci * RtoC w)%C / q)%R) + RtoC 1)%C).
  set (n := (Ci * RtoC w * (Ci * RtoC w) - ((fst (Ci * RtoC w)%C / q)%R, (snd (Ci * RtoC w)%C / q)%R) + RtoC 1)%C).
  assert (En : n = Cconj d) by (unfold n, d, Cconj; apply Ceq; cbn; field; lra).
  assert (Hd : d <> RtoC 0).
  { intros E. assert (E1 := f_equal fst E). assert (E2 := f_equal snd E). unfold d in E1, E2. cbn in E1, E2.
    assert (w = 0). { assert (w / q = 0) by lra. unfold Rdiv in H. apply Rmult_integral in H. destruct H as [H|H]; [exact H|].
      assert (0 < / q) by (apply Rinv_0_lt_compat; exact Hq). lra. }
    subst w. lra. }
  assert (Ec : Cmod (Cconj d) = Cmod d) by (unfold Cmod, Cconj; cbn [fst snd]; f_equal; ring).
  rewrite En, Cmod_div by exact Hd. rewrite Ec. field. intros E. apply Hd. apply Cmod_eq_0. exact E.
Qed.

(** * The bell at its cutoff *)
Lemma bell16_ready : ready 48000 bell16.
Proof. split; [unfold in_range; cbn; lra | eexists; reflexivity]. Qed.
Lemma ln10_pos : 0 < ln 10.
Proof. rewrite <- ln_1. apply ln_increasing; lra. Qed.
Lemma bell16_amp : amp_of Rops (40 * (ln 4 / ln 10)) = 4.
Proof.
  unfold amp_of. cbn [o_powf o_div o_ten o_forty Rops]. pose proof ln10_pos.
  unfold Rpower. replace (40 * (ln 4 / ln 10) / 40 * ln 10) with (ln 4) by (field; lra). apply exp_ln. lra.
Qed.
Lemma bell16_gain : linear_gain (v_gain bell16) = 16.
Proof. change (v_gain bell16) with (40 * (ln 4 / ln 10)). rewrite <- amp_sq, bell16_amp. ring. Qed.
Lemma bell16_built : built Bell 48000 12000 1 (40 * (ln 4 / ln 10)) 12000 = (52 / 37, - (90 / 37)).
Proof.
  unfold built. rewrite ampl_root. unfold ampl. rewrite bell16_amp, relative_cutoff by lra.
  replace 4 with (2 * 2) by ring. rewrite sqrt_square by lra. unfold prototype. cbv zeta.
  unfold Cdiv, Cinv, Cmult, Cplus, Ci, RtoC; cbn [fst snd]. apply Ceq; cbn [fst snd]; field.
Qed.
Lemma bell16_quiet : exists N, forall n, (N <= n)%nat -> Rabs (output bell16 (sinusoid 48000 12000 1 0) n) < 3.
Proof.
  pose proof (responds_built 48000 bell16 12000 bell16_ready ltac:(lra)) as R.
  change (v_ty bell16) with Bell in R. change (v_cutoff bell16) with 12000 in R. change (v_q bell16) with 1 in R.
  change (v_gain bell16) with (40 * (ln 4 / ln 10)) in R. rewrite bell16_built in R.
  destruct (R 1 0 (1 / 10) ltac:(lra)) as [N HN]. exists N. intros n Hn. specialize (HN n Hn).
  unfold R_dist in HN. rewrite Rminus_0_r in HN.
  set (o := output bell16 (sinusoid 48000 12000 1 0) n) in *. unfold filtered in HN. cbn [Re Im fst snd] in HN.
  set (t := angle 48000 12000 0 n) in *. pose proof (sin2_cos2 t) as E. unfold Rsqr in E.
  set (c := cos t) in *. set (z := sin t) in *. clearbody o c z.
  apply Rabs_def2 in HN. unfold Re, Im in HN. cbn [fst snd] in HN.
  assert (Q : (52 / 37 * c + 90 / 37 * z) * (52 / 37 * c + 90 / 37 * z) <= 29 / 10 * (29 / 10)).
  { assert (0 <= (90 / 37 * c - 52 / 37 * z) * (90 / 37 * c - 52 / 37 * z)) by apply Rle_0_sqr. nra. }
  assert (B : - (29 / 10) <= 52 / 37 * c + 90 / 37 * z <= 29 / 10) by (split; nra).
  apply Rabs_def1; lra.
Qed.
