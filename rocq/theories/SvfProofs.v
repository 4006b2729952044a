From Coq Require Import Reals Lra Psatz.
From Verif Require Import Base SvfModel SvfSpec.
Local Open Scope R_scope.

(** * One sample on the two integrators *)
Definition dv1 (g k s1 s2 u : R) : R := (s1 + g * (u - s2)) / (1 + g * (g + k)).
Definition dv2 (g k s1 s2 u : R) : R := s2 + g * dv1 g k s1 s2 u.
Definition ds1 g k s1 s2 u := 2 * dv1 g k s1 s2 u - s1.
Definition ds2 g k s1 s2 u := 2 * dv2 g k s1 s2 u - s2.

Lemma den_pos g k : 0 < g -> 0 < k -> 0 < 1 + g * (g + k).
Proof. intros; nra. Qed.
Lemma dv_eq g k s1 s2 u : 0 < g -> 0 < k ->
  dv1 g k s1 s2 u + g * k * dv1 g k s1 s2 u + g * dv2 g k s1 s2 u = s1 + g * u.
Proof.
  intros Hg Hk. unfold dv2, dv1. pose proof (den_pos g k Hg Hk). field. lra.
Qed.

(** Passivity: the energy changes by [4 g v1 (u - k v1)]. *)
Lemma energy_step g k s1 s2 u : 0 < g -> 0 < k ->
  ds1 g k s1 s2 u * ds1 g k s1 s2 u + ds2 g k s1 s2 u * ds2 g k s1 s2 u
  = s1 * s1 + s2 * s2 + 4 * g * (dv1 g k s1 s2 u * (u - k * dv1 g k s1 s2 u)).
Proof.
  intros Hg Hk. pose proof (dv_eq g k s1 s2 u Hg Hk) as E.
  unfold ds1, ds2. unfold dv2 in *. set (v := dv1 g k s1 s2 u) in *. clearbody v.
  assert (s1 = v + g * k * v + g * (s2 + g * v) - g * u) by lra. subst s1. ring.
Qed.
Lemma energy_bound g k s1 s2 u : 0 < g -> 0 < k ->
  ds1 g k s1 s2 u * ds1 g k s1 s2 u + ds2 g k s1 s2 u * ds2 g k s1 s2 u <= s1 * s1 + s2 * s2 + g / k * (u * u).
Proof.
  intros Hg Hk. rewrite energy_step by assumption. set (v := dv1 g k s1 s2 u).
  assert (g / k * (u * u) - 4 * g * (v * (u - k * v)) = g / k * ((u - 2 * k * v) * (u - 2 * k * v))) by (field; lra).
  assert (0 <= g / k * ((u - 2 * k * v) * (u - 2 * k * v))).
  { apply Rmult_le_pos; [apply Rlt_le, Rdiv_lt_0_compat; lra | apply Rle_0_sqr]. }
  lra.
Qed.

(** * A strict Lyapunov function *)
Definition ee (k : R) : R := 2 * k / (k * k + 4).
Definition lyap (k s1 s2 : R) : R := s1 * s1 + 2 * ee k * (s1 * s2) + s2 * s2.
Lemma ee_pos k : 0 < k -> 0 < ee k.
Proof. intros; unfold ee; apply Rdiv_lt_0_compat; nra. Qed.
Lemma ee_def k : ee k * (k * k + 4) = 2 * k.
Proof. unfold ee. field. nra. Qed.
Lemma ee_half k : 0 < k -> ee k <= 1 / 2.
Proof.
  intros. pose proof (ee_def k). pose proof (ee_pos k H).
  pose proof (Rle_0_sqr (k - 2)) as H2; unfold Rsqr in H2.
  apply Rmult_le_reg_r with (k * k + 4); [nra|]. rewrite H0. lra.
Qed.
Lemma ee_k k : 0 < k -> ee k <= k / 2.
Proof.
  intros. pose proof (ee_def k). assert (0 < k * (k * k)) by (apply Rmult_lt_0_compat; nra).
  apply Rmult_le_reg_r with (k * k + 4); [nra|]. rewrite H0. lra.
Qed.
Lemma ee_disc k : 0 < k -> ee k * (k * k) <= 2 * (k - ee k).
Proof. intros. pose proof (ee_def k). pose proof (ee_pos k H). lra. Qed.

Lemma lyap_low k s1 s2 : 0 < k -> s1 * s1 + s2 * s2 <= 2 * lyap k s1 s2.
Proof.
  intros H. pose proof (ee_half k H). pose proof (ee_pos k H). unfold lyap.
  assert (0 <= (1 - 2 * ee k) * (s1 * s1 + s2 * s2)) by (apply Rmult_le_pos; nra).
  assert (0 <= 2 * ee k * ((s1 + s2) * (s1 + s2))) by (apply Rmult_le_pos; [lra|apply Rle_0_sqr]).
  nra.
Qed.
Lemma lyap_high k s1 s2 : 0 < k -> lyap k s1 s2 <= 2 * (s1 * s1 + s2 * s2).
Proof.
  intros H. pose proof (ee_half k H). pose proof (ee_pos k H). unfold lyap.
  assert (0 <= ee k * ((s1 - s2) * (s1 - s2))) by (apply Rmult_le_pos; [lra|apply Rle_0_sqr]).
  assert (0 <= (1 - ee k) * (s1 * s1 + s2 * s2)) by (apply Rmult_le_pos; nra).
  nra.
Qed.
Lemma lyap_pos k s1 s2 : 0 < k -> 0 <= lyap k s1 s2.
Proof. intros H. pose proof (lyap_low k s1 s2 H). nra. Qed.

Definition cc (k : R) : R := Rmin (k - ee k) (ee k) / 4.
Lemma cc_pos k : 0 < k -> 0 < cc k.
Proof.
  intros H. unfold cc. pose proof (ee_k k H). pose proof (ee_pos k H).
  apply Rdiv_lt_0_compat; [|lra]. apply Rmin_glb_lt; lra.
Qed.
Lemma quad k v1 v2 : 0 < k ->
  cc k * (v1 * v1 + v2 * v2) <= (k - ee k) * (v1 * v1) + ee k * k * (v1 * v2) + ee k * (v2 * v2).
Proof.
  intros H. pose proof (ee_pos k H) as He. pose proof (ee_k k H) as Hk. pose proof (ee_disc k H) as Hd.
  set (e := ee k) in *.
  assert (Hc1 : cc k <= (k - e) / 4) by (unfold cc; pose proof (Rmin_l (k - e) e); fold e; lra).
  assert (Hc2 : cc k <= e / 4) by (unfold cc; pose proof (Rmin_r (k - e) e); fold e; lra).
  (* (3/4)(k-e) v1^2 + e k v1 v2 + (3/4) e v2^2 >= 0 *)
  assert (Hq : 0 <= 3 / 4 * (k - e) * (v1 * v1) + e * k * (v1 * v2) + 3 / 4 * e * (v2 * v2)).
  { assert (0 <= e * ((2 / 3 * k * v1 + v2) * (2 / 3 * k * v1 + v2))) by (apply Rmult_le_pos; [lra|apply Rle_0_sqr]).
    assert (0 <= (2 * (k - e) - e * (k * k)) * (v1 * v1)) by (apply Rmult_le_pos; [lra|apply Rle_0_sqr]).
    assert (0 <= (k - e) * (v1 * v1)) by (apply Rmult_le_pos; [lra|apply Rle_0_sqr]).
    nra. }
  assert (cc k * (v1 * v1) <= (k - e) / 4 * (v1 * v1)) by (apply Rmult_le_compat_r; [apply Rle_0_sqr|lra]).
  assert (cc k * (v2 * v2) <= e / 4 * (v2 * v2)) by (apply Rmult_le_compat_r; [apply Rle_0_sqr|lra]).
  lra.
Qed.

Lemma lyap_step_eq g k s1 s2 u : 0 < g -> 0 < k ->
  let v1 := dv1 g k s1 s2 u in let v2 := dv2 g k s1 s2 u in
  lyap k (ds1 g k s1 s2 u) (ds2 g k s1 s2 u) = lyap k s1 s2
   + 4 * g * (u * (v1 + ee k * v2) - ((k - ee k) * (v1 * v1) + ee k * k * (v1 * v2) + ee k * (v2 * v2))).
Proof.
  intros Hg Hk v1 v2. pose proof (dv_eq g k s1 s2 u Hg Hk) as E. fold v1 v2 in E.
  unfold lyap, ds1, ds2. fold v1 v2.
  assert (E2 : s2 = v2 - g * v1) by (unfold v2, dv2; fold v1; ring).
  assert (E1 : s1 = v1 + g * k * v1 + g * v2 - g * u) by lra.
  clearbody v1 v2. subst s1 s2. ring.
Qed.

(** Contraction with input *)
Lemma contraction_rate g k : 0 < g -> 0 < k ->
  let C1 := 3 * ((1 + g * k) * (1 + g * k)) + 5 * (g * g) + 2 in
  let C := 4 * g / cc k + 2 * g * cc k * (3 * (g * g)) / C1 in
  0 <= C /\ forall s1 s2 u,
    lyap k (ds1 g k s1 s2 u) (ds2 g k s1 s2 u) <= (1 - g * cc k / C1) * lyap k s1 s2 + C * (u * u).
Proof.
  intros Hg Hk. pose proof (cc_pos k Hk) as Hc. set (c := cc k) in *.
  set (C1 := 3 * ((1 + g * k) * (1 + g * k)) + 5 * (g * g) + 2). cbv zeta.
  set (C2 := 3 * (g * g)).
  assert (HC1 : 2 <= C1) by (unfold C1; nra).
  assert (HC2 : 0 <= C2) by (unfold C2; nra).
  set (r := 1 - g * c / C1).
  set (K := 4 * g / c + 2 * g * c * C2 / C1).
  assert (Hgc : 0 < g * c) by nra.
  assert (Hr : r < 1) by (unfold r; assert (0 < g * c / C1) by (apply Rdiv_lt_0_compat; lra); lra).
  assert (HK : 0 <= K).
  { unfold K. assert (0 <= 4 * g / c) by (apply Rlt_le, Rdiv_lt_0_compat; lra).
    assert (0 <= 2 * g * c * C2 / C1).
    { apply Rmult_le_pos; [apply Rmult_le_pos; [nra|lra]|apply Rlt_le, Rinv_0_lt_compat; lra]. }
    lra. }
  fold K. split; [exact HK|].
  intros s1 s2 u. set (v1 := dv1 g k s1 s2 u). set (v2 := dv2 g k s1 s2 u).
  pose proof (lyap_step_eq g k s1 s2 u Hg Hk) as E. cbv zeta in E. fold v1 v2 in E. rewrite E. clear E.
  pose proof (quad k v1 v2 Hk) as Q. fold c in Q.
  pose proof (dv_eq g k s1 s2 u Hg Hk) as E1. fold v1 v2 in E1.
  assert (E2 : s2 = v2 - g * v1) by (unfold v2, dv2; fold v1; ring).
  pose proof (ee_half k Hk) as He. pose proof (ee_pos k Hk) as He0. set (e := ee k) in *.
  set (W := v1 * v1 + v2 * v2).
  (* Young *)
  assert (Y : u * (v1 + e * v2) <= c / 2 * W + u * u / c).
  { assert (H1 : 0 <= (u * 2 - c * (v1 + e * v2)) * (u * 2 - c * (v1 + e * v2))) by apply Rle_0_sqr.
    assert (H2 : (v1 + e * v2) * (v1 + e * v2) <= 2 * W).
    { unfold W. pose proof (Rle_0_sqr (v1 - e * v2)) as H3. unfold Rsqr in H3.
      assert (e * e * (v2 * v2) <= 1 * (v2 * v2)) by (apply Rmult_le_compat_r; [apply Rle_0_sqr|nra]). nra. }
    assert (H4 : c * c * ((v1 + e * v2) * (v1 + e * v2)) <= c * c * (2 * W)) by (apply Rmult_le_compat_l; nra).
    apply Rmult_le_reg_l with (4 * c); [lra|].
    replace (4 * c * (c / 2 * W + u * u / c)) with (2 * (c * c) * W + 4 * (u * u)) by (field; lra).
    nra. }
  (* the state is controlled by v *)
  assert (B : s1 * s1 + s2 * s2 <= C1 * W + C2 * (u * u)).
  { assert (S1 : s1 = v1 * (1 + g * k) + g * v2 - g * u) by lra.
    assert (T1 : s1 * s1 <= 3 * ((v1 * (1 + g * k)) * (v1 * (1 + g * k))) + 3 * ((g * v2) * (g * v2)) + 3 * ((g * u) * (g * u))).
    { rewrite S1. set (A := v1 * (1 + g * k)). set (D := g * v2). set (U := g * u).
      pose proof (Rle_0_sqr (A - D)). pose proof (Rle_0_sqr (A + U)). pose proof (Rle_0_sqr (D + U)). unfold Rsqr in *. nra. }
    assert (T2 : s2 * s2 <= 2 * (v2 * v2) + 2 * ((g * v1) * (g * v1))).
    { rewrite E2. pose proof (Rle_0_sqr (v2 + g * v1)). unfold Rsqr in *. nra. }
    unfold C1, C2, W.
    assert (0 <= v1 * v1) by apply Rle_0_sqr. assert (0 <= v2 * v2) by apply Rle_0_sqr.
    assert (0 <= (1 + g * k) * (1 + g * k) * (v2 * v2)) by (apply Rmult_le_pos; [apply Rle_0_sqr|assumption]).
    assert (0 <= g * g * (v1 * v1)) by (apply Rmult_le_pos; [apply Rle_0_sqr|assumption]).
    assert (0 <= g * g * (v2 * v2)) by (apply Rmult_le_pos; [apply Rle_0_sqr|assumption]).
    nra. }
  pose proof (lyap_high k s1 s2 Hk) as L.
  (* V' <= V - 2 g c W + 4 g u^2 / c, and W >= (V/2 - C2 u^2)/C1 *)
  assert (D1 : lyap k s1 s2 + 4 * g * (u * (v1 + e * v2) - ((k - e) * (v1 * v1) + e * k * (v1 * v2) + e * (v2 * v2)))
               <= lyap k s1 s2 - 2 * g * c * W + 4 * g / c * (u * u)).
  { assert (u * (v1 + e * v2) - ((k - e) * (v1 * v1) + e * k * (v1 * v2) + e * (v2 * v2)) <= u * u / c - c / 2 * W)
      by (fold W in Q; lra).
    assert (4 * g * (u * (v1 + e * v2) - ((k - e) * (v1 * v1) + e * k * (v1 * v2) + e * (v2 * v2)))
            <= 4 * g * (u * u / c - c / 2 * W)) by (apply Rmult_le_compat_l; lra).
    replace (4 * g / c * (u * u)) with (4 * g * (u * u / c)) by (field; lra). nra. }
  assert (D2 : g * c / C1 * lyap k s1 s2 <= 2 * g * c * W + 2 * g * c * C2 / C1 * (u * u)).
  { apply Rmult_le_reg_l with C1; [lra|].
    replace (C1 * (g * c / C1 * lyap k s1 s2)) with (g * c * lyap k s1 s2) by (field; lra).
    replace (C1 * (2 * g * c * W + 2 * g * c * C2 / C1 * (u * u)))
      with (2 * (g * c) * (C1 * W + C2 * (u * u))) by (field; lra).
    assert (lyap k s1 s2 <= 2 * (C1 * W + C2 * (u * u))) by lra.
    nra. }
  assert (D3 : lyap k s1 s2 - 2 * g * c * W + 4 * g / c * (u * u) <= r * lyap k s1 s2 + K * (u * u)).
  { unfold r, K. nra. }
  lra.
Qed.
Lemma contraction g k : 0 < g -> 0 < k ->
  exists rho C, 0 <= rho < 1 /\ 0 <= C /\ forall s1 s2 u,
    lyap k (ds1 g k s1 s2 u) (ds2 g k s1 s2 u) <= rho * lyap k s1 s2 + C * (u * u).
Proof.
  intros Hg Hk. destruct (contraction_rate g k Hg Hk) as (HC & H). set (C := 4 * g / cc k + _) in *. pose proof (cc_pos k Hk) as Hc.
  set (d := g * cc k / (3 * ((1 + g * k) * (1 + g * k)) + 5 * (g * g) + 2)) in *.
  assert (Hd : 0 < d) by (apply Rdiv_lt_0_compat; nra).
  exists (Rmax 0 (1 - d)), C. split; [|split; [exact HC|]].
  { split; [apply Rmax_l|apply Rmax_lub_lt; lra]. }
  intros s1 s2 u. specialize (H s1 s2 u).
  assert ((1 - d) * lyap k s1 s2 <= Rmax 0 (1 - d) * lyap k s1 s2).
  { apply Rmult_le_compat_r; [apply lyap_pos; assumption|apply Rmax_r]. }
  lra.
Qed.

(** * The model in terms of [g] and [k] *)
Definition gk (sr : R) (s : svf R) : R * R :=
  (g_of Rops (v_ty s) (v_cutoff s) (v_q s) (v_gain s) sr, k_of Rops (v_ty s) (v_q s) (v_gain s)).
Lemma amp_pos gain : 0 < amp_of Rops gain.
Proof. unfold amp_of, Rops; cbn. unfold Rpower. apply exp_pos. Qed.
Lemma tan_pos sr c : 0 < c < sr / 2 -> 0 < tan (PI * c / sr).
Proof.
  intros [H1 H2]. pose proof PI_RGT_0. apply tan_gt_0.
  - apply Rdiv_lt_0_compat; [nra|lra].
  - apply Rmult_lt_reg_r with sr; [lra|]. replace (PI * c / sr * sr) with (PI * c) by (field; lra). nra.
Qed.
Lemma g_pos sr s : in_range sr (v_cutoff s) (v_q s) -> 0 < fst (gk sr s).
Proof.
  intros [H1 H2]. pose proof (tan_pos _ _ H1) as T. pose proof (sqrt_lt_R0 _ (amp_pos (v_gain s))) as A.
  unfold gk, fst, g_of. unfold Rops in *; cbn in *.
  destruct (v_ty s); try exact T.
  - apply Rdiv_lt_0_compat; assumption.
  - apply Rdiv_lt_0_compat; assumption.
  - apply Rmult_lt_0_compat; assumption.
Qed.
Lemma k_pos sr s : in_range sr (v_cutoff s) (v_q s) -> 0 < snd (gk sr s).
Proof.
  intros [H1 H2]. pose proof (amp_pos (v_gain s)) as A.
  unfold gk, snd, k_of. unfold Rops in *; cbn in *.
  destruct (v_ty s); apply Rdiv_lt_0_compat; try lra. apply Rmult_lt_0_compat; assumption.
Qed.

(** The coefficients of a filter, stated without [set_coeffs] *)
Definition tuned (sr : R) (s : svf R) : Prop :=
  in_range sr (v_cutoff s) (v_q s) /\
  let g := fst (gk sr s) in let k := snd (gk sr s) in
  v_a1 s = 1 / (1 + g * (g + k)) /\ v_a2 s = g * v_a1 s /\ v_a3 s = g * v_a2 s /\
  (v_m0 s, v_m1 s, v_m2 s) = m_of Rops (v_ty s) k (amp_of Rops (v_gain s)).
Lemma ready_tuned sr s : ready sr s -> tuned sr s.
Proof.
  intros [H [s0 E]]. split; [exact H|]. subst s. unfold set_coeffs in *.
  destruct (m_of Rops (v_ty s0) (k_of Rops (v_ty s0) (v_q s0) (v_gain s0)) (amp_of Rops (v_gain s0))) as [[m0 m1] m2] eqn:Em.
  cbn in *. unfold gk; cbn [fst snd v_ty v_cutoff v_q v_gain v_a1 v_a2 v_a3 v_m0 v_m1 v_m2].
  repeat split. symmetry. exact Em.
Qed.
Definition same_settings (s s' : svf R) : Prop :=
  v_ty s' = v_ty s /\ v_cutoff s' = v_cutoff s /\ v_q s' = v_q s /\ v_gain s' = v_gain s /\
  v_a1 s' = v_a1 s /\ v_a2 s' = v_a2 s /\ v_a3 s' = v_a3 s /\ v_m0 s' = v_m0 s /\ v_m1 s' = v_m1 s /\ v_m2 s' = v_m2 s.
Lemma same_tuned sr s s' : same_settings s s' -> tuned sr s -> tuned sr s'.
Proof.
  unfold same_settings, tuned, gk. intros (E1 & E2 & E3 & E4 & E5 & E6 & E7 & E8 & E9 & E10) H.
  rewrite E1, E2, E3, E4, E5, E6, E7, E8, E9, E10. exact H.
Qed.
Lemma sample_same s x : same_settings s (fst (process_sample Rops s x)).
Proof. unfold same_settings, process_sample; cbn. repeat split. Qed.
Lemma sample_state sr s x : tuned sr s ->
  let g := fst (gk sr s) in let k := snd (gk sr s) in
  v_ic1 (fst (process_sample Rops s x)) = ds1 g k (v_ic1 s) (v_ic2 s) x /\
  v_ic2 (fst (process_sample Rops s x)) = ds2 g k (v_ic1 s) (v_ic2 s) x /\
  snd (process_sample Rops s x) =
    v_m0 s * x + v_m1 s * dv1 g k (v_ic1 s) (v_ic2 s) x + v_m2 s * dv2 g k (v_ic1 s) (v_ic2 s) x.
Proof.
  intros [Hr (E1 & E2 & E3 & _)] g k.
  pose proof (g_pos sr s Hr) as Hg. pose proof (k_pos sr s Hr) as Hk. fold g k in E1, E2, E3, Hg, Hk.
  pose proof (den_pos g k Hg Hk) as Hd.
  unfold process_sample, fst, snd, v_ic1 at 1, v_ic2 at 3. cbn [o_add o_sub o_mul o_two Rops].
  rewrite E3, E2, E1. unfold ds1, ds2, dv2, dv1.
  repeat split; cbn [v_ic1 v_ic2]; field; lra.
Qed.
Lemma step_tuned sr s o : tuned sr s -> fine sr o -> tuned sr (fst (svf_step Rops sr s o)).
Proof.
  intros T Hf.
  assert (K : forall s1, in_range sr (v_cutoff s1) (v_q s1) -> tuned sr (set_coeffs Rops s1 sr)).
  { intros s1 H1. apply ready_tuned. split; [|exists s1; reflexivity].
    unfold set_coeffs. destruct (m_of Rops _ _ _) as [[? ?] ?]. exact H1. }
  pose proof (proj1 T) as [Hc Hq].
  destruct o; cbn [svf_step fst]; cbn [fine] in Hf; try (apply K; cbn; split; assumption).
  - subst. apply K. split; assumption.
  - apply same_tuned with s; [apply sample_same|exact T].
Qed.
Lemma step_energy sr s o : tuned sr s -> fine sr o -> silent o -> energy (fst (svf_step Rops sr s o)) <= energy s.
Proof.
  intros T Hf Hs.
  assert (K : forall s1 sr', energy (set_coeffs Rops s1 sr') = energy s1).
  { intros s1 sr'. unfold set_coeffs. destruct (m_of Rops _ _ _) as [[? ?] ?]. reflexivity. }
  destruct o; cbn [svf_step fst]; try (rewrite K; apply Rle_refl).
  cbn [silent] in Hs; subst.
  destruct (sample_state sr s 0 T) as (E1 & E2 & _). cbv zeta in *.
  unfold energy. rewrite E1, E2.
  pose proof (energy_bound (fst (gk sr s)) (snd (gk sr s)) (v_ic1 s) (v_ic2 s) 0
    (g_pos sr s (proj1 T)) (k_pos sr s (proj1 T))). lra.
Qed.
Lemma run_energy sr l : forall s, tuned sr s -> Forall (fine sr) l -> Forall silent l ->
  energy (fst (svf_run Rops sr s l)) <= energy s.
Proof.
  induction l as [|o l IH]; intros s T Hf Hs; cbn [svf_run fst]; [apply Rle_refl|].
  inversion Hf; inversion Hs; subst.
  apply Rle_trans with (energy (fst (svf_step Rops sr s o))).
  - apply IH; auto using step_tuned.
  - apply step_energy; assumption.
Qed.

(** * Long runs with fixed settings *)
Lemma after_same s x n : same_settings s (after s x n).
Proof.
  induction n as [|n IH]; cbn [after]; [repeat split|].
  pose proof (sample_same (after s x n) (x n)) as H. unfold same_settings in *.
  intuition congruence.
Qed.
Lemma gk_same sr s s' : same_settings s s' -> gk sr s' = gk sr s.
Proof. unfold same_settings, gk. intros (E1 & E2 & E3 & E4 & _). rewrite E1, E2, E3, E4. reflexivity. Qed.
Lemma after_tuned sr s x n : tuned sr s -> tuned sr (after s x n).
Proof. intros. apply same_tuned with s; [apply after_same|assumption]. Qed.
Lemma after_S sr s x n : tuned sr s ->
  let g := fst (gk sr s) in let k := snd (gk sr s) in
  v_ic1 (after s x (S n)) = ds1 g k (v_ic1 (after s x n)) (v_ic2 (after s x n)) (x n) /\
  v_ic2 (after s x (S n)) = ds2 g k (v_ic1 (after s x n)) (v_ic2 (after s x n)) (x n).
Proof.
  intros T g k. destruct (sample_state sr (after s x n) (x n) (after_tuned sr s x n T)) as (E1 & E2 & _).
  rewrite (gk_same sr s _ (after_same s x n)) in E1, E2. split; assumption.
Qed.
Lemma output_eq sr s x n : tuned sr s ->
  let g := fst (gk sr s) in let k := snd (gk sr s) in
  output s x n = v_m0 s * x n + v_m1 s * dv1 g k (v_ic1 (after s x n)) (v_ic2 (after s x n)) (x n)
                 + v_m2 s * dv2 g k (v_ic1 (after s x n)) (v_ic2 (after s x n)) (x n).
Proof.
  intros T g k. destruct (sample_state sr (after s x n) (x n) (after_tuned sr s x n T)) as (_ & _ & E).
  rewrite (gk_same sr s _ (after_same s x n)) in E. unfold output. rewrite E.
  destruct (after_same s x n) as (_ & _ & _ & _ & _ & _ & _ & M0 & M1 & M2). rewrite M0, M1, M2. reflexivity.
Qed.
Lemma after_lyap sr s x M : tuned sr s -> (forall n, Rabs (x n) <= M) ->
  let k := snd (gk sr s) in
  forall rho C, 0 <= rho < 1 -> 0 <= C ->
  (forall s1 s2 u, lyap k (ds1 (fst (gk sr s)) k s1 s2 u) (ds2 (fst (gk sr s)) k s1 s2 u) <= rho * lyap k s1 s2 + C * (u * u)) ->
  forall n, lyap k (v_ic1 (after s x n)) (v_ic2 (after s x n))
            <= rho ^ n * lyap k (v_ic1 s) (v_ic2 s) + C * (M * M) / (1 - rho).
Proof.
  intros T HM k rho C Hr HC Hs n. pose proof (k_pos sr s (proj1 T)) as Hk. fold k in Hk.
  assert (HM0 : 0 <= M) by (pose proof (HM O); pose proof (Rabs_pos (x O)); lra).
  assert (HB : 0 <= C * (M * M) / (1 - rho)).
  { apply Rmult_le_pos; [apply Rmult_le_pos; [assumption|nra]|apply Rlt_le, Rinv_0_lt_compat; lra]. }
  induction n as [|n IH].
  - cbn [pow after]. lra.
  - destruct (after_S sr s x n T) as [E1 E2]. cbv zeta in E1, E2. fold k in E1, E2. rewrite E1, E2.
    eapply Rle_trans; [apply Hs|].
    assert (Hx : x n * x n <= M * M).
    { pose proof (HM n). pose proof (Rabs_pos (x n)). rewrite <- (Rabs_right (x n * x n)) by (apply Rle_ge, Rle_0_sqr).
      rewrite Rabs_mult. apply Rmult_le_compat; lra. }
    assert (C * (x n * x n) <= C * (M * M)) by (apply Rmult_le_compat_l; assumption).
    assert (rho * lyap k (v_ic1 (after s x n)) (v_ic2 (after s x n))
            <= rho * (rho ^ n * lyap k (v_ic1 s) (v_ic2 s) + C * (M * M) / (1 - rho))) by (apply Rmult_le_compat_l; lra).
    cbn [pow].
    assert (rho * (C * (M * M) / (1 - rho)) + C * (M * M) = C * (M * M) / (1 - rho)) by (field; lra).
    lra.
Qed.
(** Outputs are controlled by the state and the input. *)
Lemma dv_bound g k s1 s2 u : 0 < g -> 0 < k ->
  Rabs (dv1 g k s1 s2 u) <= Rabs s1 + g * Rabs s2 + g * Rabs u /\
  Rabs (dv2 g k s1 s2 u) <= Rabs s2 + g * (Rabs s1 + g * Rabs s2 + g * Rabs u).
Proof.
  intros Hg Hk. pose proof (den_pos g k Hg Hk) as Hd.
  assert (H1 : Rabs (dv1 g k s1 s2 u) <= Rabs s1 + g * Rabs s2 + g * Rabs u).
  { unfold dv1. unfold Rdiv. rewrite Rabs_mult.
    assert (Hi : Rabs (/ (1 + g * (g + k))) <= 1).
    { rewrite Rabs_right by (apply Rle_ge, Rlt_le, Rinv_0_lt_compat; exact Hd).
      rewrite <- Rinv_1. apply Rinv_le_contravar; nra. }
    assert (Ha : Rabs (s1 + g * (u - s2)) <= Rabs s1 + g * Rabs s2 + g * Rabs u).
    { eapply Rle_trans; [apply Rabs_triang|]. rewrite Rabs_mult, (Rabs_right g) by lra.
      assert (Rabs (u - s2) <= Rabs u + Rabs s2).
      { unfold Rminus. eapply Rle_trans; [apply Rabs_triang|]. rewrite Rabs_Ropp. lra. }
      nra. }
    assert (0 <= Rabs (s1 + g * (u - s2))) by apply Rabs_pos.
    nra. }
  split; [exact H1|]. unfold dv2. eapply Rle_trans; [apply Rabs_triang|].
  rewrite Rabs_mult, (Rabs_right g) by lra.
  assert (g * Rabs (dv1 g k s1 s2 u) <= g * (Rabs s1 + g * Rabs s2 + g * Rabs u)) by (apply Rmult_le_compat_l; lra).
  lra.
Qed.
Lemma abs_le_sqrt2 a B : 0 <= B -> a * a <= B * B -> Rabs a <= B.
Proof.
  intros HB H. apply Rsqr_incr_0_var; [|exact HB]. unfold Rsqr.
  rewrite <- Rabs_mult. rewrite Rabs_right by (apply Rle_ge, Rle_0_sqr). exact H.
Qed.
Definition gain_const (g : R) (m0 m1 m2 : R) : R :=
  Rabs m0 + Rabs m1 * (1 + 2 * g) + Rabs m2 * (1 + g * (1 + 2 * g)).
Lemma out_bound g k m0 m1 m2 s1 s2 u B : 0 < g -> 0 < k ->
  Rabs s1 <= B -> Rabs s2 <= B -> Rabs u <= B ->
  Rabs (m0 * u + m1 * dv1 g k s1 s2 u + m2 * dv2 g k s1 s2 u) <= gain_const g m0 m1 m2 * B.
Proof.
  intros Hg Hk H1 H2 H3. destruct (dv_bound g k s1 s2 u Hg Hk) as [D1 D2].
  assert (E1 : Rabs (dv1 g k s1 s2 u) <= (1 + 2 * g) * B) by nra.
  assert (E2 : Rabs (dv2 g k s1 s2 u) <= (1 + g * (1 + 2 * g)) * B).
  { eapply Rle_trans; [exact D2|]. assert (Rabs s1 + g * Rabs s2 + g * Rabs u <= (1 + 2 * g) * B) by nra. nra. }
  eapply Rle_trans; [apply Rabs_triang|]. eapply Rle_trans; [apply Rplus_le_compat_r, Rabs_triang|].
  rewrite !Rabs_mult. unfold gain_const.
  pose proof (Rabs_pos m0). pose proof (Rabs_pos m1). pose proof (Rabs_pos m2).
  assert (Rabs m0 * Rabs u <= Rabs m0 * B) by (apply Rmult_le_compat_l; assumption).
  assert (Rabs m1 * Rabs (dv1 g k s1 s2 u) <= Rabs m1 * ((1 + 2 * g) * B)) by (apply Rmult_le_compat_l; assumption).
  assert (Rabs m2 * Rabs (dv2 g k s1 s2 u) <= Rabs m2 * ((1 + g * (1 + 2 * g)) * B)) by (apply Rmult_le_compat_l; assumption).
  lra.
Qed.
Lemma gain_const_pos g m0 m1 m2 : 0 < g -> 0 <= gain_const g m0 m1 m2.
Proof.
  intros. unfold gain_const. pose proof (Rabs_pos m0). pose proof (Rabs_pos m1). pose proof (Rabs_pos m2).
  assert (0 <= Rabs m1 * (1 + 2 * g)) by (apply Rmult_le_pos; lra).
  assert (0 <= Rabs m2 * (1 + g * (1 + 2 * g))) by (apply Rmult_le_pos; nra). lra.
Qed.

Theorem bibo sr s : ready sr s -> exists K, 0 <= K /\
  forall x M, (forall n, Rabs (x n) <= M) ->
  forall n, Rabs (output s x n) <= K * (M + Rabs (v_ic1 s) + Rabs (v_ic2 s)).
Proof.
  intros R. pose proof (ready_tuned sr s R) as T. clear R.
  pose proof (g_pos sr s (proj1 T)) as Hg. pose proof (k_pos sr s (proj1 T)) as Hk.
  destruct (contraction _ _ Hg Hk) as (rho & C & Hr & HC & Hstep).
  set (g := fst (gk sr s)) in *. set (k := snd (gk sr s)) in *.
  set (Q := sqrt (4 + 2 * C / (1 - rho) + 1)).
  assert (HCr : 0 <= C / (1 - rho)) by (apply Rmult_le_pos; [assumption|apply Rlt_le, Rinv_0_lt_compat; lra]).
  assert (HQ0 : 0 <= 4 + 2 * C / (1 - rho) + 1) by (unfold Rdiv in *; lra).
  assert (HQ : 1 <= Q).
  { unfold Q. rewrite <- sqrt_1 at 1. apply sqrt_le_1; unfold Rdiv in *; lra. }
  assert (HQ2 : Q * Q = 4 + 2 * C / (1 - rho) + 1) by (apply sqrt_sqrt; exact HQ0).
  exists (gain_const g (v_m0 s) (v_m1 s) (v_m2 s) * Q). split.
  { apply Rmult_le_pos; [apply gain_const_pos; assumption|lra]. }
  intros x M HM n.
  pose proof (HM O) as HM0. pose proof (Rabs_pos (x O)) as HM1.
  pose proof (Rabs_pos (v_ic1 s)) as HA. pose proof (Rabs_pos (v_ic2 s)) as HB.
  set (A := M + Rabs (v_ic1 s) + Rabs (v_ic2 s)).
  assert (HA0 : 0 <= A) by (unfold A; lra).
  pose proof (after_lyap sr s x M T HM rho C Hr HC) as L. cbv zeta in L. fold g k in L. specialize (L Hstep n).
  assert (L0 : lyap k (v_ic1 s) (v_ic2 s) <= 2 * (A * A)).
  { eapply Rle_trans; [apply lyap_high; assumption|].
    assert (v_ic1 s * v_ic1 s + v_ic2 s * v_ic2 s <= A * A).
    { rewrite <- (Rabs_right (v_ic1 s * v_ic1 s)) by (apply Rle_ge, Rle_0_sqr).
      rewrite <- (Rabs_right (v_ic2 s * v_ic2 s)) by (apply Rle_ge, Rle_0_sqr).
      rewrite !Rabs_mult. unfold A. nra. }
    lra. }
  assert (Hp : 0 <= rho ^ n <= 1).
  { split; [apply pow_le; lra|]. rewrite <- (pow1 n). apply pow_incr. lra. }
  assert (L1 : rho ^ n * lyap k (v_ic1 s) (v_ic2 s) <= 2 * (A * A)).
  { pose proof (lyap_pos k (v_ic1 s) (v_ic2 s) Hk). nra. }
  assert (L2 : C * (M * M) / (1 - rho) <= C / (1 - rho) * (A * A)).
  { replace (C * (M * M) / (1 - rho)) with (C / (1 - rho) * (M * M)) by (field; lra).
    apply Rmult_le_compat_l; [assumption|]. unfold A. nra. }
  pose proof (lyap_low k (v_ic1 (after s x n)) (v_ic2 (after s x n)) Hk) as L3.
  assert (L4 : v_ic1 (after s x n) * v_ic1 (after s x n) + v_ic2 (after s x n) * v_ic2 (after s x n) <= (Q * A) * (Q * A)).
  { replace (Q * A * (Q * A)) with (Q * Q * (A * A)) by ring. rewrite HQ2. 
    replace (2 * C / (1 - rho)) with (2 * (C / (1 - rho))) by (field; lra).
    assert (0 <= A * A) by nra. nra. }
  assert (HQA : 0 <= Q * A) by (apply Rmult_le_pos; lra).
  assert (B1 : Rabs (v_ic1 (after s x n)) <= Q * A).
  { apply abs_le_sqrt2; [assumption|]. pose proof (Rle_0_sqr (v_ic2 (after s x n))). unfold Rsqr in *. lra. }
  assert (B2 : Rabs (v_ic2 (after s x n)) <= Q * A).
  { apply abs_le_sqrt2; [assumption|]. pose proof (Rle_0_sqr (v_ic1 (after s x n))). unfold Rsqr in *. lra. }
  assert (B3 : Rabs (x n) <= Q * A).
  { apply Rle_trans with M; [apply HM|]. unfold A. nra. }
  pose proof (output_eq sr s x n T) as Eo. cbv zeta in Eo. fold g k in Eo. rewrite Eo.
  rewrite Rmult_assoc. apply out_bound; assumption.
Qed.

Theorem ring_out sr s : ready sr s -> exists K rho, 0 <= K /\ 0 <= rho < 1 /\
  forall n, Rabs (output s (fun _ => 0) n) <= K * rho ^ n * (Rabs (v_ic1 s) + Rabs (v_ic2 s)).
Proof.
  intros R. pose proof (ready_tuned sr s R) as T. clear R.
  pose proof (g_pos sr s (proj1 T)) as Hg. pose proof (k_pos sr s (proj1 T)) as Hk.
  destruct (contraction _ _ Hg Hk) as (rho & C & Hr & HC & Hstep).
  set (g := fst (gk sr s)) in *. set (k := snd (gk sr s)) in *.
  exists (gain_const g (v_m0 s) (v_m1 s) (v_m2 s) * 2), (sqrt rho).
  pose proof (gain_const_pos g (v_m0 s) (v_m1 s) (v_m2 s) Hg) as HG.
  assert (Hq : 0 <= sqrt rho < 1).
  { split; [apply sqrt_pos|]. rewrite <- sqrt_1. apply sqrt_lt_1; lra. }
  split; [lra|]. split; [exact Hq|]. intros n.
  pose proof (Rabs_pos (v_ic1 s)) as HA. pose proof (Rabs_pos (v_ic2 s)) as HB.
  set (A := Rabs (v_ic1 s) + Rabs (v_ic2 s)). assert (HA0 : 0 <= A) by (unfold A; lra).
  assert (HM : forall n, Rabs ((fun _ : nat => 0) n) <= 0) by (intros; rewrite Rabs_R0; lra).
  pose proof (after_lyap sr s (fun _ => 0) 0 T HM rho C Hr HC) as L. cbv zeta in L. fold g k in L. specialize (L Hstep n).
  replace (C * (0 * 0) / (1 - rho)) with 0 in L by (field; lra).
  set (x := fun _ : nat => 0) in *.
  set (p := sqrt rho ^ n). assert (Hp : 0 <= p) by (apply pow_le; lra).
  assert (Hpp : rho ^ n = p * p).
  { unfold p. rewrite <- Rpow_mult_distr. rewrite sqrt_sqrt by lra. reflexivity. }
  rewrite Hpp in L.
  assert (L0 : lyap k (v_ic1 s) (v_ic2 s) <= 2 * (A * A)).
  { eapply Rle_trans; [apply lyap_high; assumption|].
    assert (v_ic1 s * v_ic1 s + v_ic2 s * v_ic2 s <= A * A).
    { rewrite <- (Rabs_right (v_ic1 s * v_ic1 s)) by (apply Rle_ge, Rle_0_sqr).
      rewrite <- (Rabs_right (v_ic2 s * v_ic2 s)) by (apply Rle_ge, Rle_0_sqr).
      rewrite !Rabs_mult. unfold A. nra. }
    lra. }
  assert (Hppp : 0 <= p * p) by nra.
  assert (L1 : p * p * lyap k (v_ic1 s) (v_ic2 s) <= p * p * (2 * (A * A))) by (apply Rmult_le_compat_l; assumption).
  pose proof (lyap_low k (v_ic1 (after s x n)) (v_ic2 (after s x n)) Hk) as L3.
  assert (L4 : v_ic1 (after s x n) * v_ic1 (after s x n) + v_ic2 (after s x n) * v_ic2 (after s x n)
               <= (2 * (p * A)) * (2 * (p * A))) by nra.
  assert (HpA : 0 <= 2 * (p * A)) by (assert (0 <= p * A) by (apply Rmult_le_pos; assumption); lra).
  assert (B1 : Rabs (v_ic1 (after s x n)) <= 2 * (p * A)).
  { apply abs_le_sqrt2; [assumption|]. pose proof (Rle_0_sqr (v_ic2 (after s x n))). unfold Rsqr in *. lra. }
  assert (B2 : Rabs (v_ic2 (after s x n)) <= 2 * (p * A)).
  { apply abs_le_sqrt2; [assumption|]. pose proof (Rle_0_sqr (v_ic1 (after s x n))). unfold Rsqr in *. lra. }
  assert (B3 : Rabs (x n) <= 2 * (p * A)) by (unfold x; rewrite Rabs_R0; assumption).
  pose proof (output_eq sr s x n T) as Eo. cbv zeta in Eo. fold g k in Eo. rewrite Eo.
  replace (gain_const g (v_m0 s) (v_m1 s) (v_m2 s) * 2 * p * A)
    with (gain_const g (v_m0 s) (v_m1 s) (v_m2 s) * (2 * (p * A))) by ring.
  apply out_bound; assumption.
Qed.

(** * Superposition and steady states *)
Definition with_state (s : svf R) (i1 i2 : R) : svf R :=
  mk_svf (v_ty s) (v_cutoff s) (v_q s) (v_gain s) i1 i2 (v_a1 s) (v_a2 s) (v_a3 s) (v_m0 s) (v_m1 s) (v_m2 s).
Lemma superpose s i1 i2 x z n :
  let d := with_state s (v_ic1 s - i1) (v_ic2 s - i2) in let t := with_state s i1 i2 in
  v_ic1 (after s x n) = v_ic1 (after d (fun j => x j - z j) n) + v_ic1 (after t z n) /\
  v_ic2 (after s x n) = v_ic2 (after d (fun j => x j - z j) n) + v_ic2 (after t z n).
Proof.
  intros d t. induction n as [|n [I1 I2]]; [cbn; lra|].
  pose proof (after_same s x n) as (_ & _ & _ & _ & A1 & A2 & A3 & _).
  pose proof (after_same d (fun j => x j - z j) n) as (_ & _ & _ & _ & B1 & B2 & B3 & _).
  pose proof (after_same t z n) as (_ & _ & _ & _ & C1 & C2 & C3 & _).
  cbn [after]. unfold process_sample. cbn [fst v_ic1 v_ic2 o_add o_sub o_mul o_two Rops].
  rewrite I1, I2, A1, A2, A3, B1, B2, B3, C1, C2, C3. cbn [d t with_state v_a1 v_a2 v_a3]. split; ring.
Qed.
Lemma superpose_out s i1 i2 x z n :
  output s x n = output (with_state s (v_ic1 s - i1) (v_ic2 s - i2)) (fun j => x j - z j) n
                 + output (with_state s i1 i2) z n.
Proof.
  destruct (superpose s i1 i2 x z n) as [I1 I2].
  pose proof (after_same s x n) as (_ & _ & _ & _ & A1 & A2 & A3 & A4 & A5 & A6).
  pose proof (after_same (with_state s (v_ic1 s - i1) (v_ic2 s - i2)) (fun j => x j - z j) n) as (_ & _ & _ & _ & B1 & B2 & B3 & B4 & B5 & B6).
  pose proof (after_same (with_state s i1 i2) z n) as (_ & _ & _ & _ & C1 & C2 & C3 & C4 & C5 & C6).
  unfold output, process_sample. cbn [snd o_add o_sub o_mul o_two Rops].
  rewrite I1, I2, A1, A2, A3, A4, A5, A6, B1, B2, B3, B4, B5, B6, C1, C2, C3, C4, C5, C6.
  cbn [with_state v_a1 v_a2 v_a3 v_m0 v_m1 v_m2]. ring.
Qed.
Lemma tuned_ready sr s : tuned sr s -> ready sr s.
Proof.
  intros [H (E1 & E2 & E3 & E4)]. split; [exact H|]. exists s. unfold set_coeffs.
  unfold gk in E1, E2, E3, E4. cbn [fst snd] in E1, E2, E3, E4.
  rewrite <- E4. destruct s; cbn in *. f_equal; [exact E1| |].
  - rewrite E2, E1. reflexivity.
  - rewrite E3, E2, E1. reflexivity.
Qed.
Lemma with_state_ready sr s i1 i2 : ready sr s -> ready sr (with_state s i1 i2).
Proof.
  intros H. apply tuned_ready. apply same_tuned with s; [repeat split|apply ready_tuned; exact H].
Qed.
Lemma quiet_out_cv sr s : ready sr s -> Un_cv (output s (fun _ => 0)) 0.
Proof.
  intros H. destruct (ring_out sr s H) as (K & rho & HK & Hr & Hb).
  set (A := Rabs (v_ic1 s) + Rabs (v_ic2 s)) in *.
  assert (HA : 0 <= A) by (unfold A; pose proof (Rabs_pos (v_ic1 s)); pose proof (Rabs_pos (v_ic2 s)); lra).
  intros eps Heps.
  assert (Hp : 0 < eps / (K * A + 1)) by (apply Rdiv_lt_0_compat; [lra|assert (0 <= K * A) by (apply Rmult_le_pos; assumption); lra]).
  destruct (pow_lt_1_zero rho ltac:(rewrite Rabs_right; lra) _ Hp) as [N HN].
  exists N. intros n Hn. specialize (HN n Hn). unfold R_dist. rewrite Rminus_0_r.
  rewrite Rabs_right in HN by (apply Rle_ge, pow_le; lra).
  eapply Rle_lt_trans; [apply Hb|].
  assert (0 <= K * A) by (apply Rmult_le_pos; assumption).
  assert (0 <= rho ^ n) by (apply pow_le; lra).
  replace (K * rho ^ n * A) with ((K * A) * rho ^ n) by ring.
  assert ((K * A) * rho ^ n <= (K * A + 1) * rho ^ n) by nra.
  assert ((K * A + 1) * rho ^ n < (K * A + 1) * (eps / (K * A + 1))) by (apply Rmult_lt_compat_l; lra).
  replace ((K * A + 1) * (eps / (K * A + 1))) with eps in * by (field; lra). lra.
Qed.
Lemma after_ext s x y n : (forall j, x j = y j) -> after s x n = after s y n.
Proof. intros H. induction n as [|n IH]; cbn [after]; [reflexivity|]. rewrite IH, H. reflexivity. Qed.
Lemma output_ext s x y n : (forall j, x j = y j) -> output s x n = output s y n.
Proof. intros H. unfold output. rewrite (after_ext s x y n H), H. reflexivity. Qed.

(** Any run whose input has a known steady run converges to it. *)
Lemma converge sr s x i1 i2 : ready sr s ->
  Un_cv (fun n => output s x n - output (with_state s i1 i2) x n) 0.
Proof.
  intros H.
  pose proof (quiet_out_cv sr (with_state s (v_ic1 s - i1) (v_ic2 s - i2)) (with_state_ready sr s _ _ H)) as C.
  intros eps He. destruct (C eps He) as [N HN]. exists N. intros n Hn. specialize (HN n Hn).
  rewrite (superpose_out s i1 i2 x x n).
  rewrite (output_ext _ (fun j => x j - x j) (fun _ => 0)) by (intros; ring).
  replace (output (with_state s (v_ic1 s - i1) (v_ic2 s - i2)) (fun _ => 0) n + output (with_state s i1 i2) x n
           - output (with_state s i1 i2) x n) with (output (with_state s (v_ic1 s - i1) (v_ic2 s - i2)) (fun _ => 0) n) by ring.
  exact HN.
Qed.

Lemma amp_sq gain : amp_of Rops gain * amp_of Rops gain = linear_gain gain.
Proof.
  unfold amp_of, linear_gain. cbn [o_powf o_div o_ten o_forty Rops].
  rewrite <- Rpower_plus. f_equal. field.
Qed.
Lemma steady_dc sr s x n : ready sr s ->
  output (with_state s 0 x) (fun _ => x) n = dc_gain (v_ty s) (linear_gain (v_gain s)) * x.
Proof.
  intros H. pose proof (ready_tuned _ _ (with_state_ready sr s 0 x H)) as T.
  pose proof (g_pos _ _ (proj1 T)) as Hg. pose proof (k_pos _ _ (proj1 T)) as Hk.
  set (t := with_state s 0 x) in *.
  assert (Dn : forall g k, 0 < g -> 0 < k -> dv1 g k 0 x x = 0 /\ dv2 g k 0 x x = x).
  { intros g k H1 H2. assert (dv1 g k 0 x x = 0) by (unfold dv1; pose proof (den_pos g k H1 H2); field; lra).
    split; [assumption|]. unfold dv2. rewrite H0. ring. }
  assert (St : v_ic1 (after t (fun _ => x) n) = 0 /\ v_ic2 (after t (fun _ => x) n) = x).
  { induction n as [|n [I1 I2]]; [split; reflexivity|].
    destruct (after_S sr t (fun _ => x) n T) as [E1 E2]. cbv zeta in E1, E2. rewrite E1, E2, I1, I2.
    unfold ds1, ds2. destruct (Dn _ _ Hg Hk) as [D1 D2]. rewrite D1, D2. split; ring. }
  destruct St as [S1 S2]. pose proof (output_eq sr t (fun _ => x) n T) as E. cbv zeta in E. rewrite E, S1, S2.
  destruct (Dn _ _ Hg Hk) as [D1 D2]. rewrite D1, D2.
  destruct T as [_ (_ & _ & _ & Em)]. 
  pose proof (amp_sq (v_gain s)) as Ea. rewrite <- Ea. clear Ea.
  change (v_ty t) with (v_ty s) in Em. change (v_gain t) with (v_gain s) in Em.
  change (v_m0 t) with (v_m0 s) in *. change (v_m1 t) with (v_m1 s) in *. change (v_m2 t) with (v_m2 s) in *.
  set (amp := amp_of Rops (v_gain s)) in *. clearbody amp.
  destruct (v_ty s); cbn [m_of dc_gain o_zero o_one o_two o_opp o_mul o_add o_sub Rops] in *;
    injection Em as M0 M1 M2; rewrite M0, M2; ring.
Qed.
Lemma steady_top sr s x n : ready sr s ->
  output (with_state s (- (fst (gk sr s) * x)) 0) (alternating x) n
  = top_gain (v_ty s) (linear_gain (v_gain s)) * alternating x n.
Proof.
  intros H. set (i := - (fst (gk sr s) * x)).
  pose proof (ready_tuned _ _ (with_state_ready sr s i 0 H)) as T.
  pose proof (g_pos _ _ (proj1 T)) as Hg. pose proof (k_pos _ _ (proj1 T)) as Hk.
  set (t := with_state s i 0) in *.
  assert (Eg : gk sr t = gk sr s) by reflexivity. rewrite Eg in *.
  set (g := fst (gk sr s)) in *. set (k := snd (gk sr s)) in *.
  assert (Dn : forall u, dv1 g k (- (g * u)) 0 u = 0 /\ dv2 g k (- (g * u)) 0 u = 0).
  { intros u. assert (dv1 g k (- (g * u)) 0 u = 0) by (unfold dv1; pose proof (den_pos g k Hg Hk); field; lra).
    split; [assumption|]. unfold dv2. rewrite H0. ring. }
  assert (Al : forall j, alternating x (S j) = - alternating x j).
  { intros j. unfold alternating. rewrite Nat.even_succ, <- Nat.negb_even. destruct (Nat.even j); cbn; ring. }
  assert (St : v_ic1 (after t (alternating x) n) = - (g * alternating x n) /\ v_ic2 (after t (alternating x) n) = 0).
  { induction n as [|n [I1 I2]]; [split; reflexivity|].
    destruct (after_S sr t (alternating x) n T) as [E1 E2]. cbv zeta in E1, E2. rewrite Eg in E1, E2. fold g k in E1, E2.
    rewrite E1, E2, I1, I2, Al. unfold ds1, ds2. destruct (Dn (alternating x n)) as [D1 D2]. rewrite D1, D2. split; ring. }
  destruct St as [S1 S2]. pose proof (output_eq sr t (alternating x) n T) as E. cbv zeta in E. rewrite Eg in E. fold g k in E.
  rewrite E, S1, S2. destruct (Dn (alternating x n)) as [D1 D2]. rewrite D1, D2.
  destruct T as [_ (_ & _ & _ & Em)].
  pose proof (amp_sq (v_gain s)) as Ea. rewrite <- Ea. clear Ea.
  change (v_ty t) with (v_ty s) in Em. change (v_gain t) with (v_gain s) in Em.
  change (v_m0 t) with (v_m0 s) in *. change (v_m1 t) with (v_m1 s) in *. change (v_m2 t) with (v_m2 s) in *.
  set (amp := amp_of Rops (v_gain s)) in *. clearbody amp.
  destruct (v_ty s); cbn [m_of top_gain o_zero o_one o_two o_opp o_mul o_add o_sub Rops] in *;
    injection Em as M0 M1 M2; rewrite M0; ring.
Qed.
Theorem dc_cv sr s x : ready sr s ->
  Un_cv (output s (fun _ => x)) (dc_gain (v_ty s) (linear_gain (v_gain s)) * x).
Proof.
  intros H eps He. destruct (converge sr s (fun _ => x) 0 x H eps He) as [N HN].
  exists N. intros n Hn. specialize (HN n Hn). unfold R_dist in *. rewrite Rminus_0_r in HN.
  rewrite (steady_dc sr s x n H) in HN. exact HN.
Qed.
Theorem top_cv sr s x : ready sr s ->
  Un_cv (fun n => output s (alternating x) n - top_gain (v_ty s) (linear_gain (v_gain s)) * alternating x n) 0.
Proof.
  intros H eps He. destruct (converge sr s (alternating x) (- (fst (gk sr s) * x)) 0 H eps He) as [N HN].
  exists N. intros n Hn. specialize (HN n Hn). unfold R_dist in *.
  rewrite (steady_top sr s x n H) in HN. exact HN.
Qed.

(** * Above half the sample rate *)
Lemma tan_3PI4 : tan (3 * (PI / 4)) = -1.
Proof.
  unfold tan. rewrite sin_3PI4, cos_3PI4. pose proof sqrt2_neq_0. field. exact H.
Qed.
Lemma over_coeffs sr : 0 < sr -> v_a1 (over sr) = 1 /\ v_a2 (over sr) = -1 /\ v_a3 (over sr) = 1 /\
  v_m0 (over sr) = 0 /\ v_m1 (over sr) = 0 /\ v_m2 (over sr) = 1.
Proof.
  intros H. unfold over, set_coeffs, svf_new. cbn [v_ty v_cutoff v_q v_gain m_of g_of k_of
    o_tan o_mul o_div o_add o_pi o_one o_zero Rops v_a1 v_a2 v_a3 v_m0 v_m1 v_m2].
  replace (PI * (3 / 4 * sr) / sr) with (3 * (PI / 4)) by (field; lra). rewrite tan_3PI4.
  replace (1 + -1 * (-1 + 1 / 1)) with 1 by field. repeat split; lra.
Qed.
Lemma over_state sr : 0 < sr -> forall n,
  v_ic1 (after (over sr) impulse (2 * n + 1)) = - 2 * (-3) ^ n /\ v_ic2 (after (over sr) impulse (2 * n + 1)) = 2 * (-3) ^ n.
Proof.
  intros H. destruct (over_coeffs sr H) as (A1 & A2 & A3 & _).
  assert (Z : v_ic1 (over sr) = 0 /\ v_ic2 (over sr) = 0) by (split; reflexivity). destruct Z as [Z1 Z2].
  assert (St : forall n x, v_ic1 (after (over sr) x (S n)) =
      2 * (v_ic1 (after (over sr) x n) - (x n - v_ic2 (after (over sr) x n))) - v_ic1 (after (over sr) x n) /\
      v_ic2 (after (over sr) x (S n)) =
      2 * (v_ic2 (after (over sr) x n) - v_ic1 (after (over sr) x n) + (x n - v_ic2 (after (over sr) x n))) - v_ic2 (after (over sr) x n)).
  { intros n x. pose proof (after_same (over sr) x n) as (_ & _ & _ & _ & B1 & B2 & B3 & _).
    cbn [after]. unfold process_sample. cbn [fst v_ic1 v_ic2 o_add o_sub o_mul o_two Rops].
    rewrite B1, B2, B3, A1, A2, A3. split; ring. }
  induction n as [|n [I1 I2]].
  - change (2 * 0 + 1)%nat with 1%nat. destruct (St O impulse) as [E1 E2]. rewrite E1, E2.
    cbn [after impulse pow]. rewrite Z1, Z2. lra.
  - replace (2 * S n + 1)%nat with (S (S (2 * n + 1))) by lia.
    destruct (St (S (2 * n + 1)) impulse) as [E1 E2]. destruct (St (2 * n + 1)%nat impulse) as [F1 F2].
    rewrite E1, E2, F1, F2, I1, I2. replace (impulse (S (2 * n + 1))) with 0 by reflexivity.
    replace (impulse (2 * n + 1)) with 0 by (replace (2 * n + 1)%nat with (S (2 * n)) by lia; reflexivity).
    cbn [pow]. lra.
Qed.
Lemma over_unbounded sr : 0 < sr -> forall B, exists n, B < Rabs (output (over sr) impulse n).
Proof.
  intros H B. destruct (over_coeffs sr H) as (A1 & A2 & A3 & M0 & M1 & M2).
  assert (Eo : forall n, output (over sr) impulse (2 * n + 1) = 2 * (-3) ^ n).
  { intros n. destruct (over_state sr H n) as [I1 I2].
    pose proof (after_same (over sr) impulse (2 * n + 1)) as (_ & _ & _ & _ & B1 & B2 & B3 & B4 & B5 & B6).
    unfold output, process_sample. cbn [snd o_add o_sub o_mul o_two Rops].
    rewrite B1, B2, B3, B4, B5, B6, A1, A2, A3, M0, M1, M2, I1, I2.
    replace (impulse (2 * n + 1)) with 0 by (replace (2 * n + 1)%nat with (S (2 * n)) by lia; reflexivity). ring. }
  destruct (Pow_x_infinity (-3) ltac:(rewrite Rabs_left; lra) B) as [N HN].
  exists (2 * N + 1)%nat. rewrite Eo, Rabs_mult, (Rabs_right 2) by lra.
  pose proof (HN N (Nat.le_refl N)). assert (0 < Rabs ((-3) ^ N)) by (apply Rabs_pos_lt, pow_nonzero; lra). lra.
Qed.
