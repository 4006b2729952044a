From Coq Require Import Reals Lra Psatz.
From Flocq Require Import Core BinarySingleNaN Mult_error.
From Verif Require Import Base FloatBase SvfModel SvfSpec SvfProofs SvfFloatSpec SvfFloatProofs SvfErrSpec.
Local Open Scope R_scope.

(** * The exact filter *)
Definition plain (g k : R) (s : svf R) : Prop :=
  v_a1 s = 1 / (1 + g * (g + k)) /\ v_a2 s = g * v_a1 s /\ v_a3 s = g * v_a2 s.
Lemma den_nz g k : 0 < g -> 0 < k -> 1 + g * (g + k) <> 0.
Proof. intros. assert (0 < g * k) by nra. nra. Qed.
Lemma plain_step g k s x : 0 < g -> 0 < k -> plain g k s ->
  v_ic1 (fst (process_sample Rops s x)) = ds1 g k (v_ic1 s) (v_ic2 s) x /\
  v_ic2 (fst (process_sample Rops s x)) = ds2 g k (v_ic1 s) (v_ic2 s) x /\
  snd (process_sample Rops s x) =
    v_m0 s * x + v_m1 s * dv1 g k (v_ic1 s) (v_ic2 s) x + v_m2 s * dv2 g k (v_ic1 s) (v_ic2 s) x.
Proof.
  intros Hg Hk (E1 & E2 & E3). pose proof (den_nz g k Hg Hk) as Hd.
  unfold process_sample, fst, snd, v_ic1 at 1, v_ic2 at 3. cbn [o_add o_sub o_mul o_two Rops].
  rewrite E3, E2, E1. unfold ds1, ds2, dv2, dv1.
  repeat split; cbn [v_ic1 v_ic2]; field; lra.
Qed.
Lemma plain_after g k s x n : plain g k s -> plain g k (after s x n).
Proof.
  intros H. destruct (after_same s x n) as (_ & _ & _ & _ & E1 & E2 & E3 & _). unfold plain in *. rewrite E1, E2, E3. exact H.
Qed.
Lemma ds1_lin g k s1 s2 x t1 t2 y : 0 < g -> 0 < k -> ds1 g k s1 s2 x - ds1 g k t1 t2 y = ds1 g k (s1 - t1) (s2 - t2) (x - y).
Proof. intros Hg Hk. pose proof (den_nz g k Hg Hk). unfold ds1, dv1. field. nra. Qed.
Lemma ds2_lin g k s1 s2 x t1 t2 y : 0 < g -> 0 < k -> ds2 g k s1 s2 x - ds2 g k t1 t2 y = ds2 g k (s1 - t1) (s2 - t2) (x - y).
Proof. intros Hg Hk. pose proof (den_nz g k Hg Hk). unfold ds2, dv2, dv1. field. nra. Qed.
Lemma dv1_lin g k s1 s2 x t1 t2 y : 0 < g -> 0 < k -> dv1 g k s1 s2 x - dv1 g k t1 t2 y = dv1 g k (s1 - t1) (s2 - t2) (x - y).
Proof. intros Hg Hk. pose proof (den_nz g k Hg Hk). unfold dv1. field. nra. Qed.
Lemma dv2_lin g k s1 s2 x t1 t2 y : 0 < g -> 0 < k -> dv2 g k s1 s2 x - dv2 g k t1 t2 y = dv2 g k (s1 - t1) (s2 - t2) (x - y).
Proof. intros Hg Hk. pose proof (den_nz g k Hg Hk). unfold dv2, dv1. field. nra. Qed.
Lemma dv_small g k s1 s2 x : 0 < g -> 0 < k ->
  Rabs (dv1 g k s1 s2 x) <= Rabs s1 + Rabs s2 + Rabs x /\ Rabs (dv2 g k s1 s2 x) <= Rabs s1 + Rabs s2 + Rabs x.
Proof.
  intros Hg Hk. destruct (dv_F g k s1 s2 x Hg Hk) as [-> ->].
  assert (US : 0 < / 1000 <= / 1000) by lra. destruct (F_ok (/ 1000) g k US Hg Hk) as (O1 & O2 & O3).
  assert (MA : forall A y Y, 0 <= A <= 1 -> Rabs y <= Y -> Rabs (A * y) <= Y).
  { intros A y Y HA Hy. rewrite Rabs_mult, (Rabs_pos_eq A) by lra. pose proof (Rabs_pos y). nra. }
  unfold V1, V2. split.
  - eapply Rle_trans; [apply abs_2; [apply MA with (Y := Rabs s1); [lra | apply Rle_refl] | apply MA with (Y := Rabs x + Rabs s2); [lra |]] |].
    + apply abs_m; apply Rle_refl.
    + lra.
  - replace (s2 + F2 g k * s1 + F3 g k * (x - s2)) with ((1 - F3 g k) * s2 + (F2 g k * s1 + F3 g k * x)) by ring.
    eapply Rle_trans; [apply abs_2; [apply MA with (Y := Rabs s2); [lra | apply Rle_refl] | apply abs_2; [apply MA with (Y := Rabs s1) | apply MA with (Y := Rabs x)]; try (apply Rle_refl); lra] |]. lra.
Qed.
(** One step of the difference of two filters *)
Lemma err_step g k e1 e2 x r1 r2 L D del : 0 < g -> 0 < k -> 0 <= D -> 0 <= del ->
  lyap k e1 e2 <= L -> Rabs x <= del -> Rabs r1 <= D -> Rabs r2 <= D ->
  L = 2 / damping g k * (2 * gain_ g k * (del * del) + 16 / damping g k * (D * D)) ->
  lyap k (ds1 g k e1 e2 x + r1) (ds2 g k e1 e2 x + r2) <= L.
Proof.
  intros Hg Hk HD Hdel HL Hx H1 H2 EL.
  pose proof (damping_pos g k Hg Hk) as Hd. pose proof (damping_small g k Hg Hk) as Hs. pose proof (gain_pos g k Hg Hk) as HG.
  set (d := damping g k) in *. set (G := gain_ g k) in *.
  assert (Ht : 0 < d / 2) by lra.
  pose proof (lyap_add k (ds1 g k e1 e2 x) (ds2 g k e1 e2 x) r1 r2 (d / 2) Hk Ht) as A.
  pose proof (rate_eq g k e1 e2 x Hg Hk) as B. fold d G in B.
  pose proof (lyap_high k r1 r2 Hk) as C. pose proof (lyap_pos k e1 e2 Hk) as P. pose proof (lyap_pos k r1 r2 Hk) as P'.
  assert (Sq : forall a b, Rabs a <= b -> a * a <= b * b).
  { intros a b Hab. assert (E : Rabs a * Rabs a = a * a) by (rewrite <- Rabs_mult; apply Rabs_pos_eq; apply Rle_0_sqr).
    rewrite <- E. pose proof (Rabs_pos a). apply Rmult_le_compat; assumption. }
  pose proof (Sq _ _ Hx) as X2. pose proof (Sq _ _ H1) as R1. pose proof (Sq _ _ H2) as R2.
  assert (C' : lyap k r1 r2 <= 4 * (D * D)) by lra.
  set (Lr := lyap k r1 r2) in *. set (Le := lyap k e1 e2) in *. set (Ln := lyap k (ds1 g k e1 e2 x) (ds2 g k e1 e2 x)) in *.
  assert (i1 : 48 <= / d) by (rewrite <- (Rinv_inv 48); apply Rinv_le_contravar; lra).
  assert (A1 : (1 + d / 2) * Ln <= (1 + d / 2) * ((1 - d) * L + G * (del * del))).
  { apply Rmult_le_compat_l; [lra |]. assert ((1 - d) * Le <= (1 - d) * L) by (apply Rmult_le_compat_l; lra).
    assert (G * (x * x) <= G * (del * del)) by (apply Rmult_le_compat_l; lra). lra. }
  assert (L0 : 0 <= L) by lra.
  assert (A2 : (1 + d / 2) * ((1 - d) * L + G * (del * del)) <= (1 - d / 2) * L + 2 * G * (del * del)).
  { assert (0 <= G * (del * del)) by (apply Rmult_le_pos; [exact HG | nra]). assert (0 <= d * L) by (apply Rmult_le_pos; lra). nra. }
  assert (A3 : (1 + / (d / 2)) * Lr <= 16 / d * (D * D)).
  { replace (/ (d / 2)) with (2 * / d) by (field; lra). replace (16 / d * (D * D)) with (4 * / d * (4 * (D * D))) by (field; lra).
    apply Rmult_le_compat; lra. }
  set (B_ := 2 * G * (del * del) + 16 / d * (D * D)) in *.
  assert (EB : d * L = 2 * B_) by (rewrite EL; field; lra).
  assert (B_ = 2 * G * (del * del) + 16 / d * (D * D)) by reflexivity. lra.
Qed.

Section Fl.
Context {prec emax : Z} {I : ieee prec emax}.
Notation fl := (binary_float prec emax).
Notation u := (@unit_roundoff prec).
Notation eta := (@tiny prec emax).
Context (pi_ : fl) (tan_ sqrt_ : fl -> fl) (powf_ : fl -> fl -> fl).
Notation O_ := (ieee_ops pi_ tan_ sqrt_ powf_).

Lemma twin_plain sr g k (s : svf fl) : plain g k (exact_twin sr g k s).
Proof. repeat split. Qed.

Lemma twin_close sr g k s x y M del : 0 < g -> 0 < k -> 1400 * u <= damping g k -> tuned_f g k s -> fin (v_ic1 s) -> fin (v_ic2 s) ->
  (forall n, fin (x n) /\ Rabs (val (x n)) <= M) -> (forall n, Rabs (val (x n) - y n) <= del) ->
  let A0 := Rabs (val (v_ic1 s)) + Rabs (val (v_ic2 s)) in
  40 * swing g k * mix s * (A0 + M + eta) <= bpow radix2 (emax - 1) ->
  forall n, Rabs (val (f_output O_ s x n) - output (exact_twin sr g k s) y n)
    <= 2500 * (loudness g k / damping g k) * mix s * (u * (A0 + M) + eta) + 3 * loudness g k * mix s * del.
Proof.
  intros Hg Hk Hm Ht Hf1 Hf2 Hx Hy A0 Hb.
  pose proof (run_float_full pi_ tan_ sqrt_ powf_ g k s x M Hg Hk Hm Ht Hf1 Hf2 Hx Hb) as Run. fold A0 in Run.
  pose proof (@u_small prec emax I) as US. pose proof (@eta_pos prec emax) as EP.
  pose proof (damping_pos g k Hg Hk) as Hd. pose proof (damping_small g k Hg Hk) as Hs. pose proof (gain_pos g k Hg Hk) as HG.
  assert (M0 : 0 <= M) by (destruct (Hx O) as [_ Q]; pose proof (Rabs_pos (val (x O))); lra).
  assert (del0 : 0 <= del) by (pose proof (Hy O) as Q; pose proof (Rabs_pos (val (x O) - y O)); lra).
  assert (A0p : 0 <= A0) by (unfold A0; pose proof (Rabs_pos (val (v_ic1 s))); pose proof (Rabs_pos (val (v_ic2 s))); lra).
  pose proof (swing_eq g k) as SE.
  assert (LE : loudness g k = sqrt (4 + 8 * (2 * gain_ g k + 1) / damping g k)) by reflexivity.
  set (d := damping g k) in *. set (G := gain_ g k) in *. set (Sw := swing g k) in *. set (Q := loudness g k) in *.
  assert (t1 : 0 <= 8 * (2 * G + 1) / d) by (apply Rlt_le, Rdiv_lt_0_compat; lra).
  assert (t2 : 0 <= 160000 / (d * d)) by (apply Rlt_le, Rdiv_lt_0_compat; [lra | apply Rmult_lt_0_compat; assumption]).
  assert (SS : Sw * Sw = 4 + 8 * (2 * G + 1) / d + 160000 / (d * d)).
  { rewrite SE. apply sqrt_sqrt. change (0 <= 4 + 8 * (2 * G + 1) / d + 160000 / (d * d)). lra. }
  assert (Sw0 : 0 <= Sw) by apply sqrt_pos. assert (Sw2 : 2 <= Sw) by nra.
  assert (QQ : Q * Q = 4 + 8 * (2 * G + 1) / d) by (rewrite LE; apply sqrt_sqrt; lra).
  assert (Q0 : 0 <= Q) by apply sqrt_pos. assert (Q2 : 2 <= Q) by nra.
  assert (i1 : 48 <= / d) by (rewrite <- (Rinv_inv 48); apply Rinv_le_contravar; lra).
  set (W := A0 + M + eta) in *. assert (W0 : 0 < W) by (unfold W; lra).
  assert (Mx : 1 <= mix s) by (unfold mix; pose proof (Rabs_pos (val (v_m0 s))); pose proof (Rabs_pos (val (v_m1 s))); pose proof (Rabs_pos (val (v_m2 s))); lra).
  set (q := decay g k) in *.
  assert (qn : forall n, 0 <= q ^ n <= 1).
  { assert (q0 : 0 <= q) by apply sqrt_pos.
    assert (q1 : q <= 1). { unfold q, decay. fold d. apply Rle_trans with (sqrt 1); [apply sqrt_le_1; lra | rewrite sqrt_1; lra]. }
    intros n; split; [apply pow_le; exact q0 | rewrite <- (pow1 n); apply pow_incr; lra]. }
  assert (QW2 : 2 * W <= Sw * W) by (apply Rmult_le_compat_r; lra).
  assert (Bd : forall n, let s' := f_after O_ s x n in Rabs (val (v_ic1 s')) <= Sw * W /\ Rabs (val (v_ic2 s')) <= Sw * W).
  { intros n s'. destruct (Run n) as (_ & _ & _ & R1 & R2 & _). destruct (qn n).
    assert (Sw * (q ^ n * A0 + M + eta) <= Sw * W) by (apply Rmult_le_compat_l; [exact Sw0 | unfold W; nra]). fold s' in R1, R2. split; lra. }
  set (V := A0 + M). assert (V0 : 0 <= V) by (unfold V; lra).
  assert (QVp : 0 <= Q * V) by (apply Rmult_le_pos; lra). assert (QV2 : 2 * V <= Q * V) by (apply Rmult_le_compat_r; lra).
  assert (ed : 0 <= eta * / d) by (apply Rmult_le_pos; lra).
  assert (Bv : forall n, let s' := f_after O_ s x n in Rabs (val (v_ic1 s')) <= Q * V + 400 * (eta * / d) /\ Rabs (val (v_ic2 s')) <= Q * V + 400 * (eta * / d)).
  { intros n s'. destruct (Run n) as (_ & _ & _ & _ & _ & _ & Ra). fold s' in Ra. destruct (qn n) as [p0 p1].
    set (c := Q * V + 400 * (eta * / d)). assert (c0 : 0 <= c) by (unfold c; lra).
    assert (Sc : val (v_ic1 s') * val (v_ic1 s') + val (v_ic2 s') * val (v_ic2 s') <= c * c).
    { eapply Rle_trans; [exact Ra |].
      assert (a1 : 0 <= q ^ n * A0 <= V) by (unfold V; split; [apply Rmult_le_pos; lra | nra]).
      assert (a2 : q ^ n * A0 * (q ^ n * A0) <= V * V) by (apply Rmult_le_compat; lra).
      assert (a3 : M * M <= V * V) by (unfold V; apply Rmult_le_compat; lra).
      assert (a4 : 8 * (2 * G + 1) / d * (M * M) <= 8 * (2 * G + 1) / d * (V * V)) by (apply Rmult_le_compat_l; assumption).
      assert (a5 : 160000 / (d * d) * (eta * eta) = 400 * (eta * / d) * (400 * (eta * / d))) by (field; lra).
      assert (a6 : Q * V * (Q * V) = (4 + 8 * (2 * G + 1) / d) * (V * V)) by (rewrite <- QQ; ring).
      assert (0 <= Q * V * (eta * / d)) by (apply Rmult_le_pos; assumption). unfold c. rewrite a5. nra. }
    pose proof (Rle_0_sqr (val (v_ic1 s'))) as z1. pose proof (Rle_0_sqr (val (v_ic2 s'))) as z2. unfold Rsqr in z1, z2.
    split; apply abs_sq; lra. }
  assert (uQV : 0 <= u * (Q * V)) by (apply Rmult_le_pos; lra).
  assert (ude : u * (800 * (eta * / d)) <= 6 / 10 * eta).
  { replace (6 / 10 * eta) with (6 / 10 * d * (eta * / d)) by (field; lra). 
    replace (u * (800 * (eta * / d))) with (800 * u * (eta * / d)) by ring. apply Rmult_le_compat_r; lra. }
  assert (ue4 : u * (4 * eta) <= / 250 * eta) by (replace (u * (4 * eta)) with (4 * u * eta) by ring; apply Rmult_le_compat_r; lra).
  set (D := 150 * (u * (Q * V)) + 55 * eta).
  assert (D0 : 0 <= D) by (unfold D; lra).
  set (L := 2 / d * (2 * G * (del * del) + 16 / d * (D * D))).
  set (tw := exact_twin sr g k s).
  (* one sample *)
  assert (Step : forall n, let s' := f_after O_ s x n in
    let s1 := val (v_ic1 s') in let s2 := val (v_ic2 s') in let p := process_sample O_ s' (x n) in
    Rabs (val (v_ic1 (fst p)) - ds1 g k s1 s2 (val (x n))) <= D /\ Rabs (val (v_ic2 (fst p)) - ds2 g k s1 s2 (val (x n))) <= D
    /\ Rabs (val (snd p) - (val (v_m0 s) * val (x n) + val (v_m1 s) * dv1 g k s1 s2 (val (x n)) + val (v_m2 s) * dv2 g k s1 s2 (val (x n))))
       <= mix s * (120 * (u * (Q * V)) + 45 * eta)).
  { intros n s' s1 s2 p. destruct (Run n) as (I1 & I2 & _). destruct (Bd n) as [R1 R2]. destruct (Hx n) as [Fx Xn].
    fold s' in I1, I2, R1, R2. fold s1 in R1. fold s2 in R2.
    destruct (Bv n) as [R1' R2']. fold s' in R1', R2'. fold s1 in R1'. fold s2 in R2'.
    assert (MW : M + eta <= W) by (unfold W; lra). assert (MV : M <= V) by (unfold V; lra).
    assert (Tz : Rabs s1 + Rabs s2 + Rabs (val (x n)) + 4 * eta <= 5 * (Sw * W)) by lra.
    assert (Tz' : Rabs s1 + Rabs s2 + Rabs (val (x n)) <= 3 * (Q * V) + 800 * (eta * / d)) by lra.
    pose proof (Rabs_pos s1). pose proof (Rabs_pos s2). pose proof (Rabs_pos (val (x n))).
    destruct (step_float_full pi_ tan_ sqrt_ powf_ g k s' (x n) Hg Hk (tuned_after pi_ tan_ sqrt_ powf_ g k s x n Ht) I1 I2 Fx) as (_ & E1 & E2 & _ & E3).
    { unfold s' at 1. rewrite mix_after. fold s1 s2. apply Rle_trans with (2 := Hb).
      replace (40 * Sw * mix s * W) with (8 * mix s * (5 * (Sw * W))) by ring. apply Rmult_le_compat_l; lra. }
    fold s1 s2 p in E1, E2, E3. unfold s' in E3 at 4. rewrite mix_after in E3.
    destruct (after_coeffs pi_ tan_ sqrt_ powf_ s x n) as (_ & _ & _ & M0' & M1' & M2'). fold s' in M0', M1', M2'. rewrite M0', M1', M2' in E3.
    set (Tt := Rabs s1 + Rabs s2 + Rabs (val (x n))) in *.
    assert (uT : u * Tt <= u * (3 * (Q * V) + 800 * (eta * / d))) by (apply Rmult_le_compat_l; lra).
    rewrite Rmult_plus_distr_l in uT. rewrite (Rmult_plus_distr_l u Tt) in E3.
    split; [unfold D; lra |]. split; [unfold D; lra |].
    eapply Rle_trans; [exact E3 |]. apply Rmult_le_compat_l; lra. }
  assert (Inv : forall n, lyap k (val (v_ic1 (f_after O_ s x n)) - v_ic1 (after tw y n)) (val (v_ic2 (f_after O_ s x n)) - v_ic2 (after tw y n)) <= L).
  { induction n as [|n IH].
    - cbn [f_after after]. change (v_ic1 tw) with (val (v_ic1 s)). change (v_ic2 tw) with (val (v_ic2 s)).
      rewrite !Rminus_diag_eq by reflexivity. replace (lyap k 0 0) with 0 by (unfold lyap; ring).
      unfold L. apply Rmult_le_pos; [apply Rlt_le, Rdiv_lt_0_compat; lra |].
      assert (0 <= G * (del * del)) by (apply Rmult_le_pos; [exact HG | nra]).
      assert (0 <= 16 / d * (D * D)) by (apply Rmult_le_pos; [apply Rlt_le, Rdiv_lt_0_compat; lra | nra]). lra.
    - destruct (Step n) as (E1 & E2 & _). cbv zeta in E1, E2. cbn [f_after after].
      destruct (plain_step g k (after tw y n) (y n) Hg Hk (plain_after g k tw y n (twin_plain sr g k s))) as (P1 & P2 & _). rewrite P1, P2.
      set (a1 := val (v_ic1 (f_after O_ s x n))) in *. set (a2 := val (v_ic2 (f_after O_ s x n))) in *.
      set (b1 := v_ic1 (after tw y n)) in *. set (b2 := v_ic2 (after tw y n)) in *.
      match goal with |- lyap k (?p - _) (?p' - _) <= _ =>
        replace (p - ds1 g k b1 b2 (y n)) with (ds1 g k (a1 - b1) (a2 - b2) (val (x n) - y n) + (p - ds1 g k a1 a2 (val (x n))))
          by (rewrite <- ds1_lin by assumption; ring);
        replace (p' - ds2 g k b1 b2 (y n)) with (ds2 g k (a1 - b1) (a2 - b2) (val (x n) - y n) + (p' - ds2 g k a1 a2 (val (x n))))
          by (rewrite <- ds2_lin by assumption; ring) end.
      apply err_step with (D := D) (del := del); try assumption; [apply Hy | reflexivity]. }
  intros n. destruct (Step n) as (_ & _ & E3). cbv zeta in E3. unfold f_output, output.
  destruct (plain_step g k (after tw y n) (y n) Hg Hk (plain_after g k tw y n (twin_plain sr g k s))) as (_ & _ & P3). rewrite P3.
  destruct (after_same tw y n) as (_ & _ & _ & _ & _ & _ & _ & N0 & N1 & N2). rewrite N0, N1, N2.
  change (v_m0 tw) with (val (v_m0 s)). change (v_m1 tw) with (val (v_m1 s)). change (v_m2 tw) with (val (v_m2 s)).
  specialize (Inv n).
  set (a1 := val (v_ic1 (f_after O_ s x n))) in *. set (a2 := val (v_ic2 (f_after O_ s x n))) in *.
  set (b1 := v_ic1 (after tw y n)) in *. set (b2 := v_ic2 (after tw y n)) in *.
  set (Re := Q * del + 8 * (D / d)).
  assert (Dd : 0 <= D / d) by (apply Rmult_le_pos; lra). assert (Qd : 0 <= Q * del) by (apply Rmult_le_pos; lra).
  assert (Rp : 0 <= Re) by (unfold Re; lra).
  assert (Sq : (a1 - b1) * (a1 - b1) + (a2 - b2) * (a2 - b2) <= Re * Re).
  { pose proof (lyap_low k (a1 - b1) (a2 - b2) Hk) as Lo.
    assert (L2 : 2 * L = 8 * G / d * (del * del) + 64 * (D / d) * (D / d)) by (unfold L; field; lra).
    assert (g8 : 8 * G / d * (del * del) <= Q * del * (Q * del)).
    { replace (Q * del * (Q * del)) with (Q * Q * (del * del)) by ring. apply Rmult_le_compat_r; [nra |]. rewrite QQ.
      replace (8 * (2 * G + 1) / d) with (8 * G / d + (8 * G / d + 8 / d)) by (field; lra).
      assert (0 <= 8 * G / d) by (apply Rmult_le_pos; lra). assert (0 <= 8 / d) by (apply Rmult_le_pos; lra). lra. }
    assert (0 <= Q * del * (D / d)) by (apply Rmult_le_pos; assumption). unfold Re. nra. }
  pose proof (Rle_0_sqr (a1 - b1)) as z1. pose proof (Rle_0_sqr (a2 - b2)) as z2. unfold Rsqr in z1, z2.
  assert (S1 : Rabs (a1 - b1) <= Re) by (apply abs_sq; lra). assert (S2 : Rabs (a2 - b2) <= Re) by (apply abs_sq; lra).
  destruct (dv_small g k (a1 - b1) (a2 - b2) (val (x n) - y n) Hg Hk) as [V1' V2']. pose proof (Hy n) as Hyn.
  set (m0 := Rabs (val (v_m0 s))). set (m1 := Rabs (val (v_m1 s))). set (m2 := Rabs (val (v_m2 s))).
  assert (m0p : 0 <= m0) by apply Rabs_pos. assert (m1p : 0 <= m1) by apply Rabs_pos. assert (m2p : 0 <= m2) by apply Rabs_pos.
  assert (T1 : Rabs (val (v_m0 s) * (val (x n) - y n)) <= m0 * (2 * Re + del)) by (apply abs_mul; [apply Rle_refl | lra]).
  assert (T2 : Rabs (val (v_m1 s) * dv1 g k (a1 - b1) (a2 - b2) (val (x n) - y n)) <= m1 * (2 * Re + del)) by (apply abs_mul; [apply Rle_refl | lra]).
  assert (T3 : Rabs (val (v_m2 s) * dv2 g k (a1 - b1) (a2 - b2) (val (x n) - y n)) <= m2 * (2 * Re + del)) by (apply abs_mul; [apply Rle_refl | lra]).
  assert (T4 : m0 * (2 * Re + del) + m1 * (2 * Re + del) + m2 * (2 * Re + del) <= mix s * (2 * Re + del)).
  { unfold mix. fold m0 m1 m2. nra. }
  match goal with |- Rabs (?p - ?q) <= _ =>
    replace (p - q) with ((p - (val (v_m0 s) * val (x n) + val (v_m1 s) * dv1 g k a1 a2 (val (x n)) + val (v_m2 s) * dv2 g k a1 a2 (val (x n))))
      + (val (v_m0 s) * (val (x n) - y n) + val (v_m1 s) * dv1 g k (a1 - b1) (a2 - b2) (val (x n) - y n) + val (v_m2 s) * dv2 g k (a1 - b1) (a2 - b2) (val (x n) - y n)))
      by (rewrite <- dv1_lin, <- dv2_lin by assumption; ring) end.
  eapply Rle_trans; [apply abs_2; [exact E3 | apply abs_2; [apply abs_2; eassumption | eassumption]] |].
  apply Rle_trans with (mix s * (120 * (u * (Q * V)) + 45 * eta + (2 * Re + del))); [lra |].
  replace (2500 * (Q / d) * mix s * (u * V + eta) + 3 * Q * mix s * del)
    with (mix s * (2500 * (Q / d * (u * V)) + 2500 * (Q / d * eta) + 3 * (Q * del))) by ring.
  apply Rmult_le_compat_l; [lra |].
  assert (Qdel : 2 * del <= Q * del) by (apply Rmult_le_compat_r; lra).
  set (P := Q / d).
  assert (Pp : 0 <= P) by (apply Rmult_le_pos; lra).
  assert (u1 : 0 <= P * (u * V)) by (apply Rmult_le_pos; [exact Pp | apply Rmult_le_pos; lra]).
  assert (u2 : 0 <= P * eta) by (apply Rmult_le_pos; lra).
  assert (eW : u * (Q * V) * / d = P * (u * V)) by (unfold P; field; lra).
  assert (eD : D / d = 150 * (u * (Q * V) * / d) + 55 * (eta * / d)) by (unfold D; field; lra).
  assert (eE : 2 * (eta * / d) <= P * eta).
  { unfold P. replace (Q / d * eta) with (Q * (eta * / d)) by (field; lra). apply Rmult_le_compat_r; [apply Rmult_le_pos; lra | lra]. }
  assert (eX : 48 * (u * (Q * V)) <= u * (Q * V) * / d) by (rewrite (Rmult_comm 48); apply Rmult_le_compat_l; assumption).
  assert (eY : 48 * eta <= eta * / d) by (rewrite (Rmult_comm 48); apply Rmult_le_compat_l; lra).
  unfold Re. lra.
Qed.
End Fl.

(** * The exact filter is one of those of C58 and C63 *)
Section Twin.
Context {prec emax : Z} {I : ieee prec emax}.
Notation fl := (binary_float prec emax).
Context (pi_ : fl) (tan_ sqrt_ : fl -> fl) (powf_ : fl -> fl -> fl).
Notation O_ := (ieee_ops pi_ tan_ sqrt_ powf_).
Lemma double_exact (k : fl) : fin k -> Rabs (val k) <= bpow radix2 24 -> val (fmul (fneg (fz 2)) k) = - 2 * val k.
Proof.
  intros Fk Hk. destruct (fz_small (prec := prec) (emax := emax) 2 ltac:(lia)) as [V F].
  assert (P : (24 <= prec /\ 128 <= emax)%Z) by (destruct I; lia).
  assert (E : rnd (prec := prec) (emax := emax) (- 2 * val k) = - 2 * val k).
  { replace (- 2 * val k) with (- (val k * bpow radix2 1)) by (cbn; ring). rewrite rnd_opp. f_equal. apply rnd_format.
    assert (Q : Prec_gt_0 prec) by (unfold Prec_gt_0; lia).
    apply (mult_bpow_pos_exact_FLT radix2 (SpecFloat.emin prec emax) prec); [apply generic_format_B2R | lia]. }
  destruct (fmul_ok (fneg (fz 2)) k (fin_fneg _ F) Fk) as [W _].
  - rewrite val_fneg, V. change (- (2)) with (- 2). rewrite E. apply below_top with 25%Z; [lia |]. rewrite Rabs_mult, (Rabs_left (-2)) by lra.
    replace (bpow radix2 25) with (2 * bpow radix2 24) by (cbn; lra). lra.
  - rewrite W, val_fneg, V. exact E.
Qed.
Lemma twin_ready sr s0 srf : 0 < sr -> sturdy O_ s0 srf -> simple (v_ty s0) ->
  ready sr (exact_twin sr (g_val O_ s0 srf) (k_val O_ s0) (set_coeffs O_ s0 srf)).
Proof.
  intros Hsr H Hs.
  assert (B : 0 < g_val O_ s0 srf /\ 0 < k_val O_ s0 /\ k_val O_ s0 <= bpow radix2 24 /\ fin (k_of O_ (v_ty s0) (v_q s0) (v_gain s0))).
  { unfold sturdy in H. cbv zeta in H. destruct (m_of _ _ _ _) as [[m0 m1] m2].
    destruct H as (_ & Fk & Rg & Rk & _). pose proof (bpow_gt_0 radix2 (-24)). unfold g_val, k_val. split; [lra |]. split; [lra |]. split; [lra | exact Fk]. }
  destruct B as (Hg & Hk & Hk24 & Fk). set (g := g_val O_ s0 srf) in *. set (k := k_val O_ s0) in *.
  pose proof PI_RGT_0 as HP. assert (At : 0 < atan g < PI / 2) by (split; [rewrite <- atan_0; apply atan_increasing; exact Hg | apply atan_bound]).
  assert (Ec : PI * (sr * atan g / PI) / sr = atan g) by (field; lra).
  assert (D2 : val (fmul (fneg (fz 2)) (k_of O_ (v_ty s0) (v_q s0) (v_gain s0))) = - 2 * k).
  { apply double_exact; [exact Fk |]. fold k. unfold k in *. unfold k_val in Hk, Hk24. rewrite Rabs_pos_eq; lra. }
  destruct (fz_small (prec := prec) (emax := emax) 2 ltac:(lia)) as [V2_ _].
  split.
  - unfold in_range, exact_twin. cbn [v_cutoff v_q]. split; [| apply Rinv_0_lt_compat; exact Hk].
    assert (Ci : 0 < / PI) by (apply Rinv_0_lt_compat; exact HP). split.
    + apply Rmult_lt_0_compat; [nra | exact Ci].
    + apply Rmult_lt_reg_r with PI; [exact HP |]. replace (sr * atan g / PI * PI) with (sr * atan g) by (field; lra). nra.
  - eexists. symmetry. instantiate (1 := exact_twin sr g k (set_coeffs O_ s0 srf)).
    assert (Eg : g_of Rops (v_ty s0) (sr * atan g / PI) (/ k) 0 sr = g).
    { unfold g_of. destruct (v_ty s0); try destruct Hs; cbn [o_tan o_div o_mul o_pi Rops]; rewrite Ec; apply tan_atan. }
    assert (Ek : k_of Rops (v_ty s0) (/ k) 0 = k).
    { unfold k_of. destruct (v_ty s0); try destruct Hs; cbn [o_div o_one Rops]; unfold Rdiv; rewrite Rmult_1_l; apply Rinv_inv. }
    assert (Et : v_ty (set_coeffs O_ s0 srf) = v_ty s0) by (unfold set_coeffs; destruct (m_of _ _ _ _) as [[? ?] ?]; reflexivity).
    assert (Em : m_of Rops (v_ty s0) k (amp_of Rops 0) =
       (val (v_m0 (set_coeffs O_ s0 srf)), val (v_m1 (set_coeffs O_ s0 srf)), val (v_m2 (set_coeffs O_ s0 srf)))).
    { unfold set_coeffs, k, k_val. unfold k, k_val in D2.
      destruct (v_ty s0) eqn:Ety; try destruct Hs; cbn [m_of v_m0 v_m1 v_m2 o_zero o_one o_two o_opp o_mul Rops ieee_ops] in *;
        rewrite ?val_fneg, ?val_fone, ?val_fzero, ?V2_, ?D2; reflexivity. }
    set (sc := set_coeffs O_ s0 srf) in *. clearbody sc. unfold set_coeffs, exact_twin. cbn [v_ty v_cutoff v_q v_gain v_ic1 v_ic2].
    rewrite !Et, Eg, Ek, Em. reflexivity.
Qed.
End Twin.
