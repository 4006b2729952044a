From Coq Require Import Reals Lra Psatz.
From Flocq Require Import Core BinarySingleNaN Relative.
From Verif Require Import Base FloatBase SvfModel SvfSpec SvfProofs SvfFloatSpec.
Local Open Scope R_scope.

Lemma abs_mul a b A B : Rabs a <= A -> Rabs b <= B -> Rabs (a * b) <= A * B.
Proof. intros. rewrite Rabs_mult. apply Rmult_le_compat; try apply Rabs_pos; assumption. Qed.
Lemma abs_2 a b A B : Rabs a <= A -> Rabs b <= B -> Rabs (a + b) <= A + B.
Proof. intros. pose proof (Rabs_triang a b). lra. Qed.
Lemma abs_m a b A B : Rabs a <= A -> Rabs b <= B -> Rabs (a - b) <= A + B.
Proof. intros. unfold Rminus. apply abs_2; [assumption |]. rewrite Rabs_Ropp. assumption. Qed.

(** * One sample with rounding, over the reals *)
Section Step.
Context (r : R -> R) (u eta : R).
Hypothesis u_ok : 0 < u <= / 1000.
Hypothesis eta_ok : 0 < eta.
Hypothesis r_ok : forall x, Rabs (r x - x) <= u * Rabs x + eta.
Lemma r_err x X y E : Rabs x <= X -> Rabs (x - y) <= E -> Rabs (r x - y) <= E + u * X + eta.
Proof.
  intros HX HE. replace (r x - y) with ((r x - x) + (x - y)) by ring.
  pose proof (Rabs_triang (r x - x) (x - y)). pose proof (r_ok x).
  assert (u * Rabs x <= u * X) by (apply Rmult_le_compat_l; lra). lra.
Qed.
Lemma abs_near x y Y E : Rabs y <= Y -> Rabs (x - y) <= E -> Rabs x <= Y + E.
Proof. intros. replace x with (y + (x - y)) by ring. apply abs_2; assumption. Qed.

Context (a1 a2 a3 A1 A2 A3 s1 s2 x : R).
Hypothesis A1_ok : 0 <= A1 <= 1. Hypothesis A2_ok : 0 <= A2 <= 1. Hypothesis A3_ok : 0 <= A3 <= 1.
Hypothesis a1_ok : Rabs (a1 - A1) <= 7 * u. Hypothesis a2_ok : Rabs (a2 - A2) <= 7 * u. Hypothesis a3_ok : Rabs (a3 - A3) <= 7 * u.
Definition w3 := r (x - s2).
Definition p1 := r (a1 * s1).
Definition q1 := r (a2 * w3).
Definition w1 := r (p1 + q1).
Definition r1 := r (a2 * s1).
Definition t1 := r (s2 + r1).
Definition z1 := r (a3 * w3).
Definition w2 := r (t1 + z1).
Definition d1 := r (2 * w1).
Definition d2 := r (2 * w2).
Definition n1 := r (d1 - s1).
Definition n2 := r (d2 - s2).
Definition V1 := A1 * s1 + A2 * (x - s2).
Definition V2 := s2 + A2 * s1 + A3 * (x - s2).
Definition T := Rabs s1 + Rabs s2 + Rabs x.
Definition sized (y : R) : Prop := Rabs y <= 8 * (T + 4 * eta).

Lemma step_err :
  (sized w3 /\ sized p1 /\ sized q1 /\ sized w1 /\ sized r1 /\ sized t1 /\ sized z1 /\ sized w2 /\ sized d1 /\ sized d2)
  /\ (Rabs w1 <= 2 * (T + 4 * eta) /\ Rabs w2 <= 2 * (T + 4 * eta))
  /\ (Rabs (w1 - V1) <= 20 * u * T + 8 * eta /\ Rabs (w2 - V2) <= 20 * u * T + 8 * eta)
  /\ Rabs (n1 - (2 * V1 - s1)) <= 50 * u * T + 25 * eta /\ Rabs (n2 - (2 * V2 - s2)) <= 50 * u * T + 25 * eta.
Proof.
  pose proof (Rabs_pos s1) as P1. pose proof (Rabs_pos s2) as P2. pose proof (Rabs_pos x) as P3.
  assert (T0 : 0 <= T) by (unfold T; lra).
  set (U := u * T). set (N := u * eta).
  assert (U0 : 0 <= U) by (apply Rmult_le_pos; lra).
  assert (U1 : U <= / 1000 * T) by (apply Rmult_le_compat_r; lra).
  assert (N0 : 0 <= N) by (apply Rmult_le_pos; lra).
  assert (N1 : N <= / 1000 * eta) by (apply Rmult_le_compat_r; lra).
  assert (UU : u * U <= / 1000 * U) by (apply Rmult_le_compat_r; lra).
  assert (UN : u * N <= / 1000 * N) by (apply Rmult_le_compat_r; lra).
  assert (UU0 : 0 <= u * U) by (apply Rmult_le_pos; lra).
  assert (UN0 : 0 <= u * N) by (apply Rmult_le_pos; lra).
  assert (UUU : u * (u * U) <= / 1000 * (u * U)) by (apply Rmult_le_compat_r; lra).
  assert (UUN : u * (u * N) <= / 1000 * (u * N)) by (apply Rmult_le_compat_r; lra).
  assert (Tx : Rabs x + Rabs s2 <= T) by (unfold T; lra).
  assert (T1 : Rabs s1 <= T) by (unfold T; lra). assert (T2 : Rabs s2 <= T) by (unfold T; lra).
  assert (Mx : Rabs (x - s2) <= T) by (eapply Rle_trans; [apply abs_m; apply Rle_refl | exact Tx]).
  assert (B1 : Rabs a1 <= 1 + 7 * u) by (apply abs_near with A1; [rewrite Rabs_pos_eq by lra; lra | exact a1_ok]).
  assert (B2 : Rabs a2 <= 1 + 7 * u) by (apply abs_near with A2; [rewrite Rabs_pos_eq by lra; lra | exact a2_ok]).
  assert (B3 : Rabs a3 <= 1 + 7 * u) by (apply abs_near with A3; [rewrite Rabs_pos_eq by lra; lra | exact a3_ok]).
  (* w3 *)
  assert (E3 : Rabs (w3 - (x - s2)) <= U + eta).
  { pose proof (r_err (x - s2) T (x - s2) 0 Mx) as H. unfold w3. rewrite Rminus_diag_eq, Rabs_R0 in H by reflexivity. specialize (H (Rle_refl 0)). unfold U. lra. }
  assert (M3 : Rabs w3 <= T + U + eta) by (pose proof (abs_near _ _ _ _ Mx E3); lra).
  (* p1 *)
  assert (Ep : Rabs (p1 - A1 * s1) <= 81 / 10 * U + eta).
  { assert (H1 : Rabs (a1 * s1) <= (1 + 7 * u) * T) by (apply abs_mul; assumption).
    assert (H2 : Rabs (a1 * s1 - A1 * s1) <= 7 * u * T).
    { replace (a1 * s1 - A1 * s1) with ((a1 - A1) * s1) by ring. apply abs_mul; assumption. }
    pose proof (r_err _ _ _ _ H1 H2) as H. unfold p1. replace (u * ((1 + 7 * u) * T)) with (U + 7 * (u * U)) in H by (unfold U; ring).
    replace (7 * u * T) with (7 * U) in H by (unfold U; ring). lra. }
  assert (Er : Rabs (r1 - A2 * s1) <= 81 / 10 * U + eta).
  { assert (H1 : Rabs (a2 * s1) <= (1 + 7 * u) * T) by (apply abs_mul; assumption).
    assert (H2 : Rabs (a2 * s1 - A2 * s1) <= 7 * u * T).
    { replace (a2 * s1 - A2 * s1) with ((a2 - A2) * s1) by ring. apply abs_mul; assumption. }
    pose proof (r_err _ _ _ _ H1 H2) as H. unfold r1. replace (u * ((1 + 7 * u) * T)) with (U + 7 * (u * U)) in H by (unfold U; ring).
    replace (7 * u * T) with (7 * U) in H by (unfold U; ring). lra. }
  assert (Eqz : forall a A, 0 <= A <= 1 -> Rabs (a - A) <= 7 * u -> Rabs (r (a * w3) - A * (x - s2)) <= 92 / 10 * U + 3 * eta).
  { intros a A HA Ha.
    assert (Ba : Rabs a <= 1 + 7 * u) by (apply abs_near with A; [rewrite Rabs_pos_eq by lra; lra | exact Ha]).
    assert (H1 : Rabs (a * w3) <= (1 + 7 * u) * (T + U + eta)) by (apply abs_mul; assumption).
    assert (H2 : Rabs (a * w3 - A * (x - s2)) <= (1 + 7 * u) * (U + eta) + 7 * u * T).
    { replace (a * w3 - A * (x - s2)) with (a * (w3 - (x - s2)) + (a - A) * (x - s2)) by ring.
      apply abs_2; apply abs_mul; assumption. }
    pose proof (r_err _ _ _ _ H1 H2) as H.
    replace (u * ((1 + 7 * u) * (T + U + eta))) with (U + u * U + N + 7 * (u * U) + 7 * (u * (u * U)) + 7 * (u * N)) in H by (unfold U, N; ring).
    replace ((1 + 7 * u) * (U + eta)) with (U + eta + 7 * (u * U) + 7 * N) in H by (unfold U, N; ring).
    replace (7 * u * T) with (7 * U) in H by (unfold U; ring). lra. }
  assert (Eq : Rabs (q1 - A2 * (x - s2)) <= 92 / 10 * U + 3 * eta) by (apply Eqz; assumption).
  assert (Ez : Rabs (z1 - A3 * (x - s2)) <= 92 / 10 * U + 3 * eta) by (apply Eqz; assumption).
  assert (MA : forall A y Y, 0 <= A <= 1 -> Rabs y <= Y -> Rabs (A * y) <= Y).
  { intros A y Y HA Hy. rewrite Rabs_mult, (Rabs_pos_eq A) by lra. pose proof (Rabs_pos y). nra. }
  (* w1 *)
  assert (MV1 : Rabs V1 <= T).
  { unfold V1. eapply Rle_trans; [apply abs_2; [apply MA with (Y := Rabs s1) | apply MA with (Y := Rabs x + Rabs s2)]; try assumption; [apply Rle_refl |] |].
    - apply abs_m; apply Rle_refl.
    - unfold T. lra. }
  assert (H1 : Rabs (p1 + q1 - V1) <= 173 / 10 * U + 4 * eta).
  { replace (p1 + q1 - V1) with ((p1 - A1 * s1) + (q1 - A2 * (x - s2))) by (unfold V1; ring).
    eapply Rle_trans; [apply abs_2; eassumption |]. lra. }
  pose proof (abs_near _ _ _ _ MV1 H1) as H2.
  pose proof (r_err _ _ _ _ H2 H1) as E1. fold w1 in E1.
  replace (u * (T + (173 / 10 * U + 4 * eta))) with (U + 173 / 10 * (u * U) + 4 * N) in E1 by (unfold U, N; ring).
  assert (E1' : Rabs (w1 - V1) <= 184 / 10 * U + 6 * eta) by lra. clear E1.
  pose proof (abs_near _ _ _ _ MV1 E1') as M1.
  (* t1 *)
  assert (Mt : Rabs (s2 + A2 * s1) <= T).
  { eapply Rle_trans; [apply abs_2; [apply Rle_refl | apply MA with (Y := Rabs s1); [assumption | apply Rle_refl]] |]. unfold T. lra. }
  assert (H3 : Rabs (s2 + r1 - (s2 + A2 * s1)) <= 81 / 10 * U + eta) by (replace (s2 + r1 - (s2 + A2 * s1)) with (r1 - A2 * s1) by ring; exact Er).
  pose proof (abs_near _ _ _ _ Mt H3) as H4. pose proof (r_err _ _ _ _ H4 H3) as Et. fold t1 in Et.
  replace (u * (T + (81 / 10 * U + eta))) with (U + 81 / 10 * (u * U) + N) in Et by (unfold U, N; ring).
  pose proof (abs_near _ _ _ _ Mt Et) as Mt1.
  assert (MV2 : Rabs V2 <= T).
  { unfold V2. replace (s2 + A2 * s1 + A3 * (x - s2)) with ((1 - A3) * s2 + (A2 * s1 + A3 * x)) by ring.
    eapply Rle_trans; [apply abs_2; [apply MA with (Y := Rabs s2); [lra | apply Rle_refl] | apply abs_2; [apply MA with (Y := Rabs s1) | apply MA with (Y := Rabs x)]; [assumption | apply Rle_refl | assumption | apply Rle_refl]] |].
    unfold T. lra. }
  assert (H5 : Rabs (t1 + z1 - V2) <= 184 / 10 * U + 6 * eta).
  { replace (t1 + z1 - V2) with ((t1 - (s2 + A2 * s1)) + (z1 - A3 * (x - s2))) by (unfold V2; ring).
    eapply Rle_trans; [apply abs_2; eassumption |]. lra. }
  pose proof (abs_near _ _ _ _ MV2 H5) as H6. pose proof (r_err _ _ _ _ H6 H5) as E2. fold w2 in E2.
  replace (u * (T + (184 / 10 * U + 6 * eta))) with (U + 184 / 10 * (u * U) + 6 * N) in E2 by (unfold U, N; ring).
  pose proof (abs_near _ _ _ _ MV2 E2) as M2.
  assert (E2' : Rabs (w2 - V2) <= 195 / 10 * U + 8 * eta) by lra. clear E2.
  (* the new state *)
  assert (Last : forall v w s E Ne, Rabs s <= T -> Rabs v <= T -> 0 <= E <= 20 -> 0 <= Ne <= 8 -> Rabs (w - v) <= E * U + Ne * eta ->
     Rabs (r (2 * w)) <= 3 * (T + eta) + 16 * eta /\ Rabs (r (r (2 * w) - s) - (2 * v - s)) <= (2 * E + 6) * U + (2 * Ne + 3) * eta).
  { intros v w s E Ne Hs Hv HE HN Hw.
    assert (EU : E * U <= 20 * U) by (apply Rmult_le_compat_r; lra). assert (Ee : Ne * eta <= 8 * eta) by (apply Rmult_le_compat_r; lra).
    assert (EU0 : 0 <= E * U) by (apply Rmult_le_pos; lra). assert (Ee0 : 0 <= Ne * eta) by (apply Rmult_le_pos; lra).
    assert (K1 : Rabs (2 * w - 2 * v) <= 2 * (E * U + Ne * eta)).
    { replace (2 * w - 2 * v) with (2 * (w - v)) by ring. apply abs_mul; [rewrite Rabs_pos_eq; lra | exact Hw]. }
    assert (K2 : Rabs (2 * v) <= 2 * T) by (apply abs_mul; [rewrite Rabs_pos_eq; lra | exact Hv]).
    pose proof (abs_near _ _ _ _ K2 K1) as K3. pose proof (r_err _ _ _ _ K3 K1) as K4.
    assert (K5 : u * (2 * T + 2 * (E * U + Ne * eta)) <= 2 * U + 40 * (u * U) + 16 * N).
    { assert (u * (E * U + Ne * eta) <= u * (20 * U + 8 * eta)) by (apply Rmult_le_compat_l; lra). unfold N. unfold U at 2. nra. }
    pose proof (abs_near _ _ _ _ K2 K4) as K6.
    split; [lra |].
    assert (K7 : Rabs (r (2 * w) - s - (2 * v - s)) <= 2 * (E * U + Ne * eta) + (2 * U + 40 * (u * U) + 16 * N) + eta).
    { replace (r (2 * w) - s - (2 * v - s)) with (r (2 * w) - 2 * v) by ring. lra. }
    assert (K8 : Rabs (2 * v - s) <= 3 * T) by (eapply Rle_trans; [apply abs_m; eassumption |]; lra).
    pose proof (abs_near _ _ _ _ K8 K7) as K9. pose proof (r_err _ _ _ _ K9 K7) as K10.
    assert (K11 : u * (3 * T + (2 * (E * U + Ne * eta) + (2 * U + 40 * (u * U) + 16 * N) + eta)) <= u * (3 * T + 43 * U + 18 * eta)).
    { apply Rmult_le_compat_l; lra. }
    replace (u * (3 * T + 43 * U + 18 * eta)) with (3 * U + 43 * (u * U) + 18 * N) in K11 by (unfold U, N; ring).
    eapply Rle_trans; [exact K10 |]. lra. }
  destruct (Last V1 w1 s1 (184 / 10) 6 T1 MV1 ltac:(lra) ltac:(lra) E1') as [D1 F1].
  destruct (Last V2 w2 s2 (195 / 10) 8 T2 MV2 ltac:(lra) ltac:(lra) E2') as [D2 F2].
  assert (Mp : Rabs (A1 * s1) <= T) by (apply MA; assumption). pose proof (abs_near _ _ _ _ Mp Ep) as Mp1.
  assert (Mr : Rabs (A2 * s1) <= T) by (apply MA; assumption). pose proof (abs_near _ _ _ _ Mr Er) as Mr1.
  assert (Mq : Rabs (A2 * (x - s2)) <= T) by (apply MA; assumption). pose proof (abs_near _ _ _ _ Mq Eq) as Mq1.
  assert (Mz : Rabs (A3 * (x - s2)) <= T) by (apply MA; assumption). pose proof (abs_near _ _ _ _ Mz Ez) as Mz1.
  pose proof (abs_near _ _ _ _ MV2 E2') as M2'.
  fold d1 n1 in D1, F1. fold d2 n2 in D2, F2.
  replace (50 * u * T) with (50 * U) by (unfold U; ring). replace (20 * u * T) with (20 * U) by (unfold U; ring). unfold sized.
  repeat split; lra.
Qed.
End Step.

(** * The stored energy with rounding *)
Lemma cc_eq k : 0 < k -> cc k = k / (2 * (k * k + 4)).
Proof.
  intros H. unfold cc. pose proof (ee_k k H). rewrite Rmin_right by lra. unfold ee. field. nra.
Qed.
Lemma lyap_add k s1 s2 e1 e2 t : 0 < k -> 0 < t ->
  lyap k (s1 + e1) (s2 + e2) <= (1 + t) * lyap k s1 s2 + (1 + / t) * lyap k e1 e2.
Proof.
  intros Hk Ht. pose proof (lyap_pos k (t * s1 - e1) (t * s2 - e2) Hk) as P.
  assert (E : t * ((1 + t) * lyap k s1 s2 + (1 + / t) * lyap k e1 e2 - lyap k (s1 + e1) (s2 + e2)) = lyap k (t * s1 - e1) (t * s2 - e2)).
  { unfold lyap. field. lra. }
  apply Rnot_lt_le. intros C. assert (t * ((1 + t) * lyap k s1 s2 + (1 + / t) * lyap k e1 e2 - lyap k (s1 + e1) (s2 + e2)) < 0) by nra. lra.
Qed.
Definition gain_ (g k : R) : R :=
  4 * g / (k / (2 * (k * k + 4))) + 6 * (g * g * g) * (k / (2 * (k * k + 4))) / (3 * ((1 + g * k) * (1 + g * k)) + 5 * (g * g) + 2).
Lemma den1_pos g k : 0 < g -> 0 < k -> 5 + 6 * (g * k) + 5 * (g * g) <= 3 * ((1 + g * k) * (1 + g * k)) + 5 * (g * g) + 2.
Proof. intros. nra. Qed.
Lemma damping_pos g k : 0 < g -> 0 < k -> 0 < damping g k.
Proof. intros. pose proof (den1_pos g k H H0). unfold damping. apply Rdiv_lt_0_compat; [nra |]. apply Rmult_lt_0_compat; nra. Qed.
Lemma damping_small g k : 0 < g -> 0 < k -> damping g k <= / 48.
Proof.
  intros Hg Hk. pose proof (den1_pos g k Hg Hk) as D. unfold damping. set (C1 := 3 * _ + _ + _) in *.
  assert (P : 0 < 2 * (k * k + 4) * C1) by (apply Rmult_lt_0_compat; nra).
  apply Rmult_le_reg_r with (1 := P). unfold Rdiv. rewrite Rmult_assoc, Rinv_l, Rmult_1_r by lra.
  assert (0 < k * k) by nra. assert (0 < g * k) by nra.
  assert (48 * (g * k) <= 2 * (k * k + 4) * (5 + 6 * (g * k) + 5 * (g * g))) by nra.
  assert (2 * (k * k + 4) * (5 + 6 * (g * k) + 5 * (g * g)) <= 2 * (k * k + 4) * C1) by (apply Rmult_le_compat_l; lra).
  lra.
Qed.
Lemma rate_eq g k s1 s2 x : 0 < g -> 0 < k ->
  lyap k (ds1 g k s1 s2 x) (ds2 g k s1 s2 x) <= (1 - damping g k) * lyap k s1 s2 + gain_ g k * (x * x).
Proof.
  intros Hg Hk. pose proof (den1_pos g k Hg Hk) as D. destruct (contraction_rate g k Hg Hk) as [_ H]. specialize (H s1 s2 x).
  rewrite (cc_eq k Hk) in H. unfold damping, gain_.
  assert (0 < g * k) by nra. assert (0 < k * k) by nra.
  assert (N1 : 3 * ((1 + g * k) * (1 + g * k)) + 5 * (g * g) + 2 <> 0) by nra.
  assert (N2 : k * k + 4 <> 0) by nra. assert (N3 : k <> 0) by lra.
  set (C1 := 3 * ((1 + g * k) * (1 + g * k)) + 5 * (g * g) + 2) in *.
  replace (g * k / (2 * (k * k + 4) * C1)) with (g * (k / (2 * (k * k + 4))) / C1) by (field; auto).
  replace (6 * (g * g * g) * (k / (2 * (k * k + 4))) / C1) with (2 * g * (k / (2 * (k * k + 4))) * (3 * (g * g)) / C1) by (field; auto).
  exact H.
Qed.
Lemma gain_pos g k : 0 < g -> 0 < k -> 0 <= gain_ g k.
Proof.
  intros Hg Hk. pose proof (den1_pos g k Hg Hk) as D. unfold gain_. assert (0 < g * k) by nra. assert (0 < k / (2 * (k * k + 4))) by (apply Rdiv_lt_0_compat; nra).
  assert (0 < g * g * g) by (apply Rmult_lt_0_compat; nra).
  assert (0 < 4 * g / (k / (2 * (k * k + 4)))) by (apply Rdiv_lt_0_compat; lra).
  assert (0 < 6 * (g * g * g) * (k / (2 * (k * k + 4))) / (3 * ((1 + g * k) * (1 + g * k)) + 5 * (g * g) + 2)).
  { apply Rdiv_lt_0_compat; [| nra]. apply Rmult_lt_0_compat; lra. }
  lra.
Qed.
Lemma rough_step g k u eta s1 s2 x e1 e2 : 0 < g -> 0 < k -> 0 < u -> 0 < eta -> 1400 * u <= damping g k ->
  Rabs e1 <= 50 * u * (Rabs s1 + Rabs s2 + Rabs x) + 25 * eta -> Rabs e2 <= 50 * u * (Rabs s1 + Rabs s2 + Rabs x) + 25 * eta ->
  lyap k (ds1 g k s1 s2 x + e1) (ds2 g k s1 s2 x + e2)
  <= (1 - damping g k / 4) * lyap k s1 s2 + (2 * gain_ g k + 1) * (x * x) + 20000 / damping g k * (eta * eta).
Proof.
  intros Hg Hk Hu He Hm H1 H2. pose proof (damping_pos g k Hg Hk) as Hd. pose proof (damping_small g k Hg Hk) as Hs.
  pose proof (rate_eq g k s1 s2 x Hg Hk) as Hr. pose proof (gain_pos g k Hg Hk) as HG. set (d := damping g k) in *. set (G := gain_ g k) in *.
  pose proof (lyap_add k (ds1 g k s1 s2 x) (ds2 g k s1 s2 x) e1 e2 (d / 2) Hk ltac:(lra)) as Ha.
  pose proof (lyap_high k e1 e2 Hk) as Hh. pose proof (lyap_pos k e1 e2 Hk) as Hp. pose proof (lyap_low k s1 s2 Hk) as Hl.
  pose proof (lyap_pos k s1 s2 Hk) as HL.
  set (L' := lyap k (ds1 g k s1 s2 x) (ds2 g k s1 s2 x)) in *. set (Le := lyap k e1 e2) in *. set (L := lyap k s1 s2) in *.
  set (Tt := Rabs s1 + Rabs s2 + Rabs x) in *.
  pose proof (Rabs_pos s1) as P1. pose proof (Rabs_pos s2) as P2. pose proof (Rabs_pos x) as P3.
  assert (Q : forall y, Rabs y * Rabs y = y * y) by (intros y; rewrite <- Rabs_mult; apply Rabs_pos_eq; apply Rle_0_sqr).
  assert (TT : Tt * Tt <= 6 * L + 3 * (x * x)).
  { pose proof (Q s1). pose proof (Q s2). pose proof (Q x). unfold Tt.
    assert (0 <= (Rabs s1 - Rabs s2) * (Rabs s1 - Rabs s2)) by apply Rle_0_sqr.
    assert (0 <= (Rabs s1 - Rabs x) * (Rabs s1 - Rabs x)) by apply Rle_0_sqr.
    assert (0 <= (Rabs x - Rabs s2) * (Rabs x - Rabs s2)) by apply Rle_0_sqr. nra. }
  assert (T0 : 0 <= Tt) by (unfold Tt; lra).
  set (E := 50 * u * Tt + 25 * eta) in *.
  assert (EE : E * E <= 5000 * (u * u) * (Tt * Tt) + 1250 * (eta * eta)).
  { assert (0 <= (50 * u * Tt - 25 * eta) * (50 * u * Tt - 25 * eta)) by apply Rle_0_sqr. unfold E. nra. }
  assert (E1 : e1 * e1 <= E * E) by (rewrite <- (Q e1); apply Rmult_le_compat; try apply Rabs_pos; assumption).
  assert (E2 : e2 * e2 <= E * E) by (rewrite <- (Q e2); apply Rmult_le_compat; try apply Rabs_pos; assumption).
  assert (LE : Le <= 20000 * (u * u) * (6 * L + 3 * (x * x)) + 5000 * (eta * eta)).
  { assert (20000 * (u * u) * (Tt * Tt) <= 20000 * (u * u) * (6 * L + 3 * (x * x))) by (apply Rmult_le_compat_l; [nra | exact TT]). lra. }
  assert (UU : 1400 * 1400 * (u * u) <= d * d) by nra.
  assert (X0 : 0 <= x * x) by apply Rle_0_sqr. assert (N0 : 0 < eta * eta) by nra.
  assert (LE2 : Le <= d * d / 96 * (6 * L + 3 * (x * x)) + 5000 * (eta * eta)).
  { assert (20000 * (u * u) * (6 * L + 3 * (x * x)) <= d * d / 96 * (6 * L + 3 * (x * x))) by (apply Rmult_le_compat_r; nra). lra. }
  assert (I1 : 1 + / (d / 2) <= 4 / d).
  { replace (/ (d / 2)) with (2 / d) by (field; lra). assert (1 <= 2 / d); [| replace (4 / d) with (2 / d + 2 / d) by (field; lra); lra].
    apply Rmult_le_reg_r with d; [lra |]. unfold Rdiv. rewrite Rmult_assoc, Rinv_l by lra. lra. }
  assert (I2 : (1 + / (d / 2)) * Le <= 4 / d * (d * d / 96 * (6 * L + 3 * (x * x)) + 5000 * (eta * eta))).
  { apply Rmult_le_compat; try lra. assert (0 < / (d / 2)) by (apply Rinv_0_lt_compat; lra). lra. }
  replace (4 / d * (d * d / 96 * (6 * L + 3 * (x * x)) + 5000 * (eta * eta)))
    with (d / 4 * L + d / 8 * (x * x) + 20000 / d * (eta * eta)) in I2 by (field; lra).
  assert (I3 : (1 + d / 2) * L' <= (1 + d / 2) * ((1 - d) * L + G * (x * x))) by (apply Rmult_le_compat_l; lra).
  assert (I4 : (1 + d / 2) * ((1 - d) * L) <= (1 - d / 2) * L) by (rewrite <- Rmult_assoc; apply Rmult_le_compat_r; nra).
  assert (I5 : (1 + d / 2) * (G * (x * x)) <= 2 * G * (x * x)) by (rewrite <- Rmult_assoc; apply Rmult_le_compat_r; nra).
  assert (I6 : d / 8 * (x * x) <= 1 * (x * x)) by (apply Rmult_le_compat_r; lra).
  lra.
Qed.

(** * The coefficients with rounding *)
Section Coef.
Context (r : R -> R) (u lo g k : R).
Hypothesis u_ok : 0 < u <= / 1000.
Hypothesis r_ok : forall x, lo <= x -> x * (1 - u) <= r x <= x * (1 + u).
Hypothesis g_ok : 0 < g. Hypothesis k_ok : 0 < k.
Definition y1 := r (g + k).
Definition y2 := r (g * y1).
Definition y3 := r (1 + y2).
Definition b1 := r (1 / y3).
Definition b2 := r (g * b1).
Definition b3 := r (g * b2).
Hypothesis L1 : lo <= g + k. Hypothesis L2 : lo <= g * y1. Hypothesis L3 : lo <= 1 + y2.
Hypothesis L4 : lo <= 1 / y3. Hypothesis L5 : lo <= g * b1. Hypothesis L6 : lo <= g * b2.
Definition F1 := / (1 + g * (g + k)).
Definition F2 := g * F1.
Definition F3 := g * F2.
Lemma F_ok : (0 < F1 <= 1) /\ (0 < F2 <= 1) /\ (0 < F3 <= 1).
Proof.
  unfold F3, F2, F1. assert (P : 0 < 1 + g * (g + k)) by nra. assert (Q : 0 < / (1 + g * (g + k))) by (apply Rinv_0_lt_compat; lra).
  assert (E : / (1 + g * (g + k)) * (1 + g * (g + k)) = 1) by (apply Rinv_l; lra). set (f := / _) in *.
  assert (0 < g * k) by nra. assert (0 < g * f) by nra. assert (0 < f * (g * k)) by nra.
  assert (0 <= f * ((1 - g) * (1 - g))) by (apply Rmult_le_pos; [lra | apply Rle_0_sqr]).
  repeat split; try nra.
Qed.
Lemma y1_ok : (g + k) * (1 - u) <= y1 <= (g + k) * (1 + u).
Proof. apply r_ok. exact L1. Qed.
Lemma y2_ok : g * (g + k) * ((1 - u) * (1 - u)) <= y2 <= g * (g + k) * ((1 + u) * (1 + u)).
Proof.
  pose proof y1_ok as [A B]. destruct (r_ok _ L2) as [C D]. fold y2 in C, D.
  assert (g * ((g + k) * (1 - u)) <= g * y1) by (apply Rmult_le_compat_l; lra).
  assert (g * y1 <= g * ((g + k) * (1 + u))) by (apply Rmult_le_compat_l; lra).
  assert (g * ((g + k) * (1 - u)) * (1 - u) <= g * y1 * (1 - u)) by (apply Rmult_le_compat_r; lra).
  assert (g * y1 * (1 + u) <= g * ((g + k) * (1 + u)) * (1 + u)) by (apply Rmult_le_compat_r; lra). lra.
Qed.
Lemma y3_ok : (1 + g * (g + k)) * ((1 - u) * (1 - u) * (1 - u)) <= y3 <= (1 + g * (g + k)) * ((1 + u) * (1 + u) * (1 + u)).
Proof.
  pose proof y2_ok as [A B]. destruct (r_ok _ L3) as [C D]. fold y3 in C, D.
  assert (P : 0 < g * (g + k)) by nra. set (p := g * (g + k)) in *. clearbody p.
  assert (Ua : 0 <= (1 - u) * (1 - u) <= 1) by nra. assert (Ub : 1 <= (1 + u) * (1 + u)) by nra.
  assert ((1 + p) * ((1 - u) * (1 - u)) <= 1 + y2) by lra. assert (1 + y2 <= (1 + p) * ((1 + u) * (1 + u))) by lra.
  assert ((1 + p) * ((1 - u) * (1 - u)) * (1 - u) <= (1 + y2) * (1 - u)) by (apply Rmult_le_compat_r; lra).
  assert ((1 + y2) * (1 + u) <= (1 + p) * ((1 + u) * (1 + u)) * (1 + u)) by (apply Rmult_le_compat_r; lra). lra.
Qed.
Lemma cubes : 0 < (1 - u) * (1 - u) * (1 - u) <= 1 /\ 1 <= (1 + u) * (1 + u) * (1 + u)
  /\ (1 - 7 * u) * ((1 + u) * (1 + u) * (1 + u)) <= (1 - u) * (1 - u) * (1 - u)
  /\ (1 + u) * (1 + u) * (1 + u) <= (1 + 7 * u) * ((1 - u) * (1 - u) * (1 - u)).
Proof.
  assert (Q : 0 < u * u <= / 1000 * u) by nra. assert (Q3 : 0 < u * u * u <= / 1000 * (u * u)) by nra.
  assert (Q4 : 0 < u * u * u * u <= / 1000 * (u * u * u)) by nra.
  repeat split; nra.
Qed.
Lemma b1_ok : F1 * ((1 - u) / ((1 + u) * (1 + u) * (1 + u))) <= b1 <= F1 * ((1 + u) / ((1 - u) * (1 - u) * (1 - u))).
Proof.
  pose proof y3_ok as [A B]. destruct (r_ok _ L4) as [C D]. fold b1 in C, D. destruct cubes as (c1 & c2 & _ & _).
  assert (P : 0 < 1 + g * (g + k)) by nra. unfold F1. set (p := 1 + g * (g + k)) in *. clearbody p.
  set (v := (1 - u) * (1 - u) * (1 - u)) in *. set (w := (1 + u) * (1 + u) * (1 + u)) in *.
  assert (0 < p * v) by (apply Rmult_lt_0_compat; lra). assert (0 < p * w) by (apply Rmult_lt_0_compat; lra).
  assert (J1 : / y3 <= / (p * v)) by (apply Rinv_le; lra). assert (J2 : / (p * w) <= / y3) by (apply Rinv_le; lra).
  rewrite Rinv_mult in J1, J2. unfold Rdiv in *. rewrite Rmult_1_l in C, D.
  assert (/ p * / w * (1 - u) <= / y3 * (1 - u)) by (apply Rmult_le_compat_r; lra).
  assert (/ y3 * (1 + u) <= / p * / v * (1 + u)) by (apply Rmult_le_compat_r; lra). lra.
Qed.
Lemma up F b l h : 0 < F -> lo <= g * b -> F * l <= b <= F * h -> 
  g * F * (l * (1 - u)) <= r (g * b) <= g * F * (h * (1 + u)).
Proof.
  intros HF HL [A B]. destruct (r_ok _ HL) as [C D].
  assert (g * (F * l) <= g * b) by (apply Rmult_le_compat_l; lra). assert (g * b <= g * (F * h)) by (apply Rmult_le_compat_l; lra).
  assert (g * (F * l) * (1 - u) <= g * b * (1 - u)) by (apply Rmult_le_compat_r; lra).
  assert (g * b * (1 + u) <= g * (F * h) * (1 + u)) by (apply Rmult_le_compat_r; lra). lra.
Qed.
Lemma near F b l h : 0 < F <= 1 -> 1 - 7 * u <= l -> h <= 1 + 7 * u -> F * l <= b <= F * h -> Rabs (b - F) <= 7 * u.
Proof.
  intros HF HL HH [A B]. assert (F * (1 - 7 * u) <= F * l) by (apply Rmult_le_compat_l; lra).
  assert (F * h <= F * (1 + 7 * u)) by (apply Rmult_le_compat_l; lra). assert (F * (7 * u) <= 1 * (7 * u)) by (apply Rmult_le_compat_r; lra).
  apply Rabs_le. lra.
Qed.
Lemma coef_err : Rabs (b1 - F1) <= 7 * u /\ Rabs (b2 - F2) <= 7 * u /\ Rabs (b3 - F3) <= 7 * u.
Proof.
  destruct F_ok as (O1 & O2 & O3). pose proof b1_ok as B1. 
  pose proof (up F1 b1 _ _ (proj1 O1) L5 B1) as B2. fold b2 F2 in B2.
  pose proof (up F2 b2 _ _ (proj1 O2) L6 B2) as B3. fold b3 F3 in B3.
  destruct cubes as (c1 & c2 & c3 & c4).
  set (v := (1 - u) * (1 - u) * (1 - u)) in *. set (w := (1 + u) * (1 + u) * (1 + u)) in *.
  assert (W : 0 < / w) by (apply Rinv_0_lt_compat; lra). assert (Vv : 0 < / v) by (apply Rinv_0_lt_compat; lra).
  assert (l3 : 1 - 7 * u <= v / w) by (apply Rmult_le_reg_r with w; [lra |]; unfold Rdiv; rewrite Rmult_assoc, Rinv_l by lra; lra).
  assert (h3 : w / v <= 1 + 7 * u) by (apply Rmult_le_reg_r with v; [lra |]; unfold Rdiv; rewrite Rmult_assoc, Rinv_l by lra; lra).
  assert (S1 : v <= (1 - u) * (1 - u) <= 1 - u) by (unfold v; nra). assert (S2 : 1 + u <= (1 + u) * (1 + u) <= w) by (unfold w; nra).
  assert (M1 : forall t, v <= t -> 1 - 7 * u <= t / w).
  { intros t Ht. eapply Rle_trans; [exact l3 |]. apply Rmult_le_compat_r; lra. }
  assert (M2 : forall t, t <= w -> t / v <= 1 + 7 * u).
  { intros t Ht. eapply Rle_trans; [| exact h3]. apply Rmult_le_compat_r; lra. }
  repeat split.
  - apply near with (4 := B1); [exact O1 | apply M1; lra | apply M2; lra].
  - apply near with (4 := B2); [exact O2 | |].
    + replace ((1 - u) / w * (1 - u)) with ((1 - u) * (1 - u) / w) by (unfold Rdiv; ring). apply M1; lra.
    + replace ((1 + u) / v * (1 + u)) with ((1 + u) * (1 + u) / v) by (unfold Rdiv; ring). apply M2; lra.
  - apply near with (4 := B3); [exact O3 | |].
    + replace ((1 - u) / w * (1 - u) * (1 - u)) with (v / w) by (unfold Rdiv, v; ring). exact l3.
    + replace ((1 + u) / v * (1 + u) * (1 + u)) with (w / v) by (unfold Rdiv, w; ring). exact h3.
Qed.
End Coef.

(** * In a format *)
Section Fl.
Context {prec emax : Z} {I : ieee prec emax}.
Notation fl := (binary_float prec emax).
Notation rnd := (@rnd prec emax).
Notation u := (@unit_roundoff prec).
Notation eta := (@tiny prec emax).
Notation top := (@top emax).

Lemma u_small : 0 < u <= / 1000.
Proof.
  split; [apply bpow_gt_0 |]. apply Rle_trans with (bpow radix2 (-24)); [apply bpow_le; destruct I; lia |]. cbn. lra.
Qed.
Lemma eta_pos : 0 < eta. Proof. apply bpow_gt_0. Qed.
Lemma half_u : / 2 * bpow radix2 (- prec + 1) = u.
Proof. unfold unit_roundoff. rewrite bpow_plus. cbn. field. Qed.
Lemma rnd_near : forall x, Rabs (rnd x - x) <= u * Rabs x + eta.
Proof.
  intros x. assert (P : (0 < prec)%Z) by (destruct I; lia).
  destruct (error_N_FLT radix2 (SpecFloat.emin prec emax) prec P (fun z => negb (Z.even z)) x) as (e & h & He & Hh & _ & E).
  rewrite half_u in He. replace (/ 2 * bpow radix2 (SpecFloat.emin prec emax)) with eta in Hh.
  2:{ unfold tiny, SpecFloat.emin. replace (3 - emax - prec)%Z with (2 - emax - prec + 1)%Z by ring. rewrite (bpow_plus radix2 (2 - emax - prec) 1). cbn. field. }
  change (rnd x = x * (1 + e) + h) in E. rewrite E. replace (x * (1 + e) + h - x) with (e * x + h) by ring.
  apply abs_2; [| exact Hh]. apply abs_mul; [exact He | apply Rle_refl].
Qed.
Lemma rnd_rel : forall x, bpow radix2 (-126) <= x -> x * (1 - u) <= rnd x <= x * (1 + u).
Proof.
  intros x H. pose proof (bpow_gt_0 radix2 (-126)) as B0. assert (P : (0 < prec)%Z) by (destruct I; lia).
  pose proof (relative_error_N_FLT radix2 (SpecFloat.emin prec emax) prec P (fun z => negb (Z.even z)) x) as Q.
  assert (L : bpow radix2 (SpecFloat.emin prec emax + prec - 1) <= Rabs x).
  { rewrite Rabs_pos_eq by lra. apply Rle_trans with (2 := H). apply bpow_le. unfold SpecFloat.emin. destruct I. lia. }
  specialize (Q L). rewrite half_u, (Rabs_pos_eq x) in Q by lra. apply Rabs_le_inv in Q.
  change (- (u * x) <= rnd x - x <= u * x) in Q. lra.
Qed.
Lemma pos_op : forall x l h, (-126 <= l)%Z -> (-126 <= h < emax)%Z -> bpow radix2 l <= x <= bpow radix2 h ->
  bpow radix2 l <= rnd x <= bpow radix2 h /\ Rabs (rnd x) < top.
Proof.
  intros x l h Hl Hh [A B]. assert (R1 : bpow radix2 l <= rnd x <= bpow radix2 h).
  { apply rnd_between; [apply rnd_bpow; lia | apply rnd_bpow; lia | split; assumption]. }
  split; [exact R1 |]. pose proof (bpow_gt_0 radix2 l). apply below_top with h; [lia |]. rewrite Rabs_pos_eq by lra. lra.
Qed.
Lemma prod_in a b l h l' h' : bpow radix2 l <= a <= bpow radix2 h -> bpow radix2 l' <= b <= bpow radix2 h' ->
  bpow radix2 (l + l') <= a * b <= bpow radix2 (h + h').
Proof.
  intros [A B] [C D]. pose proof (bpow_gt_0 radix2 l). pose proof (bpow_gt_0 radix2 l'). rewrite !bpow_plus.
  split; apply Rmult_le_compat; lra.
Qed.
Lemma coef_float : forall g k : fl, fin g -> fin k ->
  bpow radix2 (-24) <= val g <= bpow radix2 24 -> bpow radix2 (-24) <= val k <= bpow radix2 24 ->
  let a1 := fdiv fone (fadd fone (fmul g (fadd g k))) in let a2 := fmul g a1 in let a3 := fmul g a2 in
  (fin a1 /\ fin a2 /\ fin a3) /\ Rabs (val a1 - F1 (val g) (val k)) <= 7 * u /\ Rabs (val a2 - F2 (val g) (val k)) <= 7 * u
  /\ Rabs (val a3 - F3 (val g) (val k)) <= 7 * u.
Proof.
  intros g k Fg Fk Rg Rk a1 a2 a3. assert (EM : (128 <= emax)%Z) by (destruct I; assumption).
  pose proof (bpow_gt_0 radix2 (-24)) as B0. pose proof u_small as US.
  assert (S1 : bpow radix2 (-24) <= val g + val k <= bpow radix2 25).
  { replace (bpow radix2 25) with (bpow radix2 24 + bpow radix2 24) by (cbn; lra). lra. }
  destruct (pos_op _ (-24) 25 ltac:(lia) ltac:(lia) S1) as [T1 O1].
  destruct (fadd_ok g k Fg Fk O1) as [Va Fa]. rewrite <- Va in T1.
  pose proof (prod_in _ _ _ _ _ _ Rg T1) as S2. change (-24 + -24)%Z with (-48)%Z in S2. change (24 + 25)%Z with 49%Z in S2.
  destruct (pos_op _ (-48) 49 ltac:(lia) ltac:(lia) S2) as [T2 O2].
  destruct (fmul_ok g (fadd g k) Fg Fa O2) as [Vm Fm]. rewrite <- Vm in T2.
  assert (S3 : bpow radix2 0 <= 1 + val (fmul g (fadd g k)) <= bpow radix2 50).
  { pose proof (bpow_gt_0 radix2 (-48)). change (bpow radix2 0) with 1. replace (bpow radix2 50) with (2 * bpow radix2 49) by (cbn; lra).
    assert (1 <= bpow radix2 49) by (change 1 with (bpow radix2 0); apply bpow_le; lia). lra. }
  destruct (pos_op _ 0 50 ltac:(lia) ltac:(lia) S3) as [T3 O3].
  rewrite <- (val_fone (prec := prec) (emax := emax)) in S3, T3, O3 at 1.
  destruct (fadd_ok fone (fmul g (fadd g k)) fin_fone Fm O3) as [V3 F3']. 
  rewrite (val_fone (prec := prec) (emax := emax)) in T3.
  set (d := fadd fone (fmul g (fadd g k))) in *. rewrite val_fone in V3. rewrite <- V3 in T3. clear O3.
  assert (D0 : 0 < val d) by (pose proof (bpow_gt_0 radix2 0); lra).
  assert (S4 : bpow radix2 (-50) <= 1 / val d <= bpow radix2 0).
  { unfold Rdiv. rewrite Rmult_1_l. change (-50)%Z with (- (50))%Z. rewrite bpow_opp. change (bpow radix2 0) with 1 in *. split.
    - apply Rinv_le; lra.
    - rewrite <- Rinv_1. apply Rinv_le; lra. }
  destruct (pos_op _ (-50) 0 ltac:(lia) ltac:(lia) S4) as [T4 O4].
  rewrite <- (val_fone (prec := prec) (emax := emax)) in O4.
  destruct (fdiv_ok fone d fin_fone ltac:(lra) O4) as [V4 F4]. fold a1 in V4, F4. rewrite val_fone in V4. rewrite <- V4 in T4. clear O4.
  pose proof (prod_in _ _ _ _ _ _ Rg T4) as S5. change (-24 + -50)%Z with (-74)%Z in S5. change (24 + 0)%Z with 24%Z in S5. destruct (pos_op _ (-74) 24 ltac:(lia) ltac:(lia) S5) as [T5 O5].
  destruct (fmul_ok g a1 Fg F4 O5) as [V5 F5]. fold a2 in V5, F5. rewrite <- V5 in T5.
  pose proof (prod_in _ _ _ _ _ _ Rg T5) as S6. change (-24 + -74)%Z with (-98)%Z in S6. change (24 + 24)%Z with 48%Z in S6. destruct (pos_op _ (-98) 48 ltac:(lia) ltac:(lia) S6) as [T6 O6].
  destruct (fmul_ok g a2 Fg F5 O6) as [V6 F6]. fold a3 in V6, F6.
  split; [repeat split; assumption |].
  assert (lo : forall z, (-126 <= z)%Z -> forall x, bpow radix2 z <= x -> bpow radix2 (-126) <= x).
  { intros z Hz x Hx. apply Rle_trans with (2 := Hx). apply bpow_le. lia. }
  pose proof (coef_err rnd u (bpow radix2 (-126)) (val g) (val k) US rnd_rel ltac:(lra) ltac:(lra)) as C.
  unfold b3, b2, b1, y3, y2, y1 in C. rewrite <- Va, <- Vm, <- V3, <- V4, <- V5, <- V6 in C.
  apply C; first [apply (lo (-24)%Z ltac:(lia)); lra | idtac].
  - apply (lo (-48)%Z ltac:(lia) _ (proj1 S2)).
  - apply (lo 0%Z ltac:(lia)). rewrite val_fone in S3. apply S3.
  - apply (lo (-50)%Z ltac:(lia) _ (proj1 S4)).
  - apply (lo (-74)%Z ltac:(lia) _ (proj1 S5)).
  - apply (lo (-98)%Z ltac:(lia) _ (proj1 S6)).
Qed.

(** One sample *)
Context (pi_ : fl) (tan_ sqrt_ : fl -> fl) (powf_ : fl -> fl -> fl).
Notation O_ := (ieee_ops pi_ tan_ sqrt_ powf_).
Definition tuned_f (g k : R) (s : svf fl) : Prop :=
  (fin (v_a1 s) /\ fin (v_a2 s) /\ fin (v_a3 s)) /\ (fin (v_m0 s) /\ fin (v_m1 s) /\ fin (v_m2 s))
  /\ Rabs (val (v_a1 s) - F1 g k) <= 7 * u /\ Rabs (val (v_a2 s) - F2 g k) <= 7 * u /\ Rabs (val (v_a3 s) - F3 g k) <= 7 * u.
Definition mix (s : svf fl) : R := 1 + Rabs (val (v_m0 s)) + Rabs (val (v_m1 s)) + Rabs (val (v_m2 s)).
Lemma top_half y : Rabs y <= bpow radix2 (emax - 1) -> Rabs y < top.
Proof. intros H. apply below_top with (emax - 1)%Z; [lia | exact H]. Qed.
Lemma dv_F g k s1 s2 x : 0 < g -> 0 < k ->
  dv1 g k s1 s2 x = V1 (F1 g k) (F2 g k) s1 s2 x /\ dv2 g k s1 s2 x = V2 (F2 g k) (F3 g k) s1 s2 x.
Proof.
  intros Hg Hk. unfold dv2, dv1, V1, V2, F3, F2, F1. assert (0 < g * k) by nra. split; field; nra.
Qed.
Lemma step_float_full g k s (x : fl) : 0 < g -> 0 < k -> tuned_f g k s -> fin (v_ic1 s) -> fin (v_ic2 s) -> fin x ->
  let s1 := val (v_ic1 s) in let s2 := val (v_ic2 s) in let Tt := Rabs s1 + Rabs s2 + Rabs (val x) in
  8 * mix s * (Tt + 4 * eta) <= bpow radix2 (emax - 1) ->
  let p := process_sample O_ s x in
  (fin (v_ic1 (fst p)) /\ fin (v_ic2 (fst p)) /\ fin (snd p))
  /\ Rabs (val (v_ic1 (fst p)) - ds1 g k s1 s2 (val x)) <= 50 * u * Tt + 25 * eta
  /\ Rabs (val (v_ic2 (fst p)) - ds2 g k s1 s2 (val x)) <= 50 * u * Tt + 25 * eta
  /\ Rabs (val (snd p)) <= 3 * mix s * (Tt + 4 * eta)
  /\ Rabs (val (snd p) - (val (v_m0 s) * val x + val (v_m1 s) * dv1 g k s1 s2 (val x) + val (v_m2 s) * dv2 g k s1 s2 (val x)))
     <= mix s * (40 * (u * (Tt + 4 * eta)) + 20 * eta).
Proof.
  intros Hg Hk ((Fa1 & Fa2 & Fa3) & (Fm0 & Fm1 & Fm2) & N1 & N2 & N3) Fi1 Fi2 Fx s1 s2 Tt Hb p.
  pose proof u_small as US. pose proof eta_pos as EP. destruct (F_ok u g k US Hg Hk) as (O1 & O2 & O3).
  destruct (step_err rnd u eta US EP rnd_near (val (v_a1 s)) (val (v_a2 s)) (val (v_a3 s)) (F1 g k) (F2 g k) (F3 g k) s1 s2 (val x)
    ltac:(lra) ltac:(lra) ltac:(lra) N1 N2 N3) as ((Z3 & Zp & Zq & Zw1 & Zr & Zt & Zz & Zw2 & Zd1 & Zd2) & (Y1 & Y2) & (H1 & H2) & E1 & E2).
  change (T s1 s2 (val x)) with Tt in *. unfold sized in *. change (T s1 s2 (val x)) with Tt in *.
  set (Z := Tt + 4 * eta) in *.
  assert (T0 : 0 <= Tt) by (unfold Tt; pose proof (Rabs_pos s1); pose proof (Rabs_pos s2); pose proof (Rabs_pos (val x)); lra).
  assert (Z0 : 0 < Z) by (unfold Z; lra). set (e := 4 * eta) in *. assert (e0 : 0 < e) by (unfold e; lra).
  pose proof (Rabs_pos (val (v_m0 s))) as q0. pose proof (Rabs_pos (val (v_m1 s))) as q1'. pose proof (Rabs_pos (val (v_m2 s))) as q2.
  assert (M1 : 1 <= mix s) by (unfold mix; lra).
  assert (MZ : Z <= mix s * Z) by nra.
  assert (H8 : forall y, Rabs y <= 8 * Z -> Rabs y < top) by (intros y Hy; apply top_half; lra).
  destruct (dv_F g k s1 s2 (val x) Hg Hk) as [D1 D2].
  destruct (fz_small (prec := prec) (emax := emax) 2 ltac:(lia)) as [V2' Ft]. 
  set (a1 := val (v_a1 s)) in *. set (a2 := val (v_a2 s)) in *. set (a3 := val (v_a3 s)) in *.
  destruct (fsub_ok x (v_ic2 s) Fx Fi2 (H8 _ Z3)) as [W3 F3_]. set (c3 := fsub x (v_ic2 s)) in *. change (val c3 = w3 rnd s2 (val x)) in W3.
  destruct (fmul_ok (v_a1 s) (v_ic1 s) Fa1 Fi1 (H8 _ Zp)) as [Wp Fp]. set (cp := fmul (v_a1 s) (v_ic1 s)) in *. change (val cp = p1 rnd a1 s1) in Wp.
  assert (Zq' := H8 _ Zq). unfold q1 in Zq'. rewrite <- W3 in Zq'.
  destruct (fmul_ok (v_a2 s) c3 Fa2 F3_ Zq') as [Wq Fq]. set (cq := fmul (v_a2 s) c3) in *. rewrite W3 in Wq. change (val cq = q1 rnd a2 s2 (val x)) in Wq.
  assert (Zw1' := H8 _ Zw1). unfold w1 in Zw1'. rewrite <- Wq, <- Wp in Zw1'.
  destruct (fadd_ok cp cq Fp Fq Zw1') as [W1 Fw1]. set (c1 := fadd cp cq) in *. rewrite Wp, Wq in W1. change (val c1 = w1 rnd a1 a2 s1 s2 (val x)) in W1.
  destruct (fmul_ok (v_a2 s) (v_ic1 s) Fa2 Fi1 (H8 _ Zr)) as [Wr Fr]. set (cr := fmul (v_a2 s) (v_ic1 s)) in *. change (val cr = r1 rnd a2 s1) in Wr.
  assert (Zt' := H8 _ Zt). unfold t1 in Zt'. rewrite <- Wr in Zt'.
  destruct (fadd_ok (v_ic2 s) cr Fi2 Fr Zt') as [Wt Fct]. set (ct := fadd (v_ic2 s) cr) in *. rewrite Wr in Wt. change (val ct = t1 rnd a2 s1 s2) in Wt.
  assert (Zz' := H8 _ Zz). unfold z1 in Zz'. rewrite <- W3 in Zz'.
  destruct (fmul_ok (v_a3 s) c3 Fa3 F3_ Zz') as [Wz Fz]. set (cz := fmul (v_a3 s) c3) in *. rewrite W3 in Wz. change (val cz = z1 rnd a3 s2 (val x)) in Wz.
  assert (Zw2' := H8 _ Zw2). unfold w2 in Zw2'. rewrite <- Wz, <- Wt in Zw2'.
  destruct (fadd_ok ct cz Fct Fz Zw2') as [W2 Fw2]. set (c2 := fadd ct cz) in *. rewrite Wt, Wz in W2. change (val c2 = w2 rnd a2 a3 s1 s2 (val x)) in W2.
  rewrite <- W1 in Y1. rewrite <- W2 in Y2.
  assert (Zd1' := H8 _ Zd1). unfold d1 in Zd1'. rewrite <- W1, <- V2' in Zd1'.
  destruct (fmul_ok (fz 2) c1 Ft Fw1 Zd1') as [Wd1 Fd1]. set (cd1 := fmul (fz 2) c1) in *. rewrite V2', W1 in Wd1. change (val cd1 = d1 rnd a1 a2 s1 s2 (val x)) in Wd1.
  assert (Zd2' := H8 _ Zd2). unfold d2 in Zd2'. rewrite <- W2, <- V2' in Zd2'.
  destruct (fmul_ok (fz 2) c2 Ft Fw2 Zd2') as [Wd2 Fd2]. set (cd2 := fmul (fz 2) c2) in *. rewrite V2', W2 in Wd2. change (val cd2 = d2 rnd a2 a3 s1 s2 (val x)) in Wd2.
  rewrite <- D1 in E1, H1. rewrite <- D2 in E2, H2. rewrite <- W1 in H1. rewrite <- W2 in H2. fold (ds1 g k s1 s2 (val x)) in E1. fold (ds2 g k s1 s2 (val x)) in E2.
  (* the new state *)
  assert (UT : 0 <= u * Tt <= / 1000 * Tt) by (split; [apply Rmult_le_pos; lra | apply Rmult_le_compat_r; lra]).
  assert (MV : forall A y Y, 0 <= A <= 1 -> Rabs y <= Y -> Rabs (A * y) <= Y).
  { intros A y Y HA Hy. rewrite Rabs_mult, (Rabs_pos_eq A) by lra. pose proof (Rabs_pos y). nra. }
  assert (L1 : Rabs s1 <= Tt) by (unfold Tt; pose proof (Rabs_pos s2); pose proof (Rabs_pos (val x)); lra).
  assert (L2 : Rabs s2 <= Tt) by (unfold Tt; pose proof (Rabs_pos s1); pose proof (Rabs_pos (val x)); lra).
  assert (L3 : Rabs (val x) <= Tt) by (unfold Tt; pose proof (Rabs_pos s1); pose proof (Rabs_pos s2); lra).
  assert (L4 : Rabs (val x - s2) <= Tt).
  { eapply Rle_trans; [apply abs_m; apply Rle_refl |]. unfold Tt. pose proof (Rabs_pos s1). lra. }
  assert (S1 : Rabs (ds1 g k s1 s2 (val x)) <= 5 * Tt).
  { unfold ds1. rewrite D1. unfold V1. eapply Rle_trans; [apply abs_m; [apply abs_mul; [rewrite Rabs_pos_eq; [apply Rle_refl | lra] | apply abs_2; apply MV; [| exact L1 | | exact L4]; lra] | exact L1] |]. lra. }
  assert (S2 : Rabs (ds2 g k s1 s2 (val x)) <= 7 * Tt).
  { unfold ds2. rewrite D2. unfold V2. eapply Rle_trans; [apply abs_m; [apply abs_mul; [rewrite Rabs_pos_eq; [apply Rle_refl | lra] | apply abs_2; [apply abs_2; [exact L2 | apply MV; [| exact L1]; lra] | apply MV; [| exact L4]; lra]] | exact L2] |]. lra. }
  assert (Zn1 : Rabs (n1 rnd a1 a2 s1 s2 (val x)) <= 8 * Z) by (pose proof (abs_near _ _ _ _ S1 E1); unfold Z, e; lra).
  assert (Zn2 : Rabs (n2 rnd a2 a3 s1 s2 (val x)) <= 8 * Z) by (pose proof (abs_near _ _ _ _ S2 E2); unfold Z, e; lra).
  assert (Zn1' := H8 _ Zn1). unfold n1 in Zn1'. rewrite <- Wd1 in Zn1'.
  destruct (fsub_ok cd1 (v_ic1 s) Fd1 Fi1 Zn1') as [Wn1 Fn1]. set (cn1 := fsub cd1 (v_ic1 s)) in *. rewrite Wd1 in Wn1. change (val cn1 = n1 rnd a1 a2 s1 s2 (val x)) in Wn1.
  assert (Zn2' := H8 _ Zn2). unfold n2 in Zn2'. rewrite <- Wd2 in Zn2'.
  destruct (fsub_ok cd2 (v_ic2 s) Fd2 Fi2 Zn2') as [Wn2 Fn2]. set (cn2 := fsub cd2 (v_ic2 s)) in *. rewrite Wd2 in Wn2. change (val cn2 = n2 rnd a2 a3 s1 s2 (val x)) in Wn2.
  (* the output *)
  assert (G : forall y Y, Rabs y <= Y -> Rabs (rnd y) <= 1001 / 1000 * Y + eta).
  { intros y Y Hy. pose proof (rnd_near y) as Q. pose proof (Rabs_pos y). assert (u * Rabs y <= / 1000 * Y) by (apply Rmult_le_compat; lra).
    replace (rnd y) with (y + (rnd y - y)) by ring. eapply Rle_trans; [apply abs_2; [exact Hy | exact Q] |]. lra. }
  set (m0 := Rabs (val (v_m0 s))) in *. set (m1 := Rabs (val (v_m1 s))) in *. set (m2 := Rabs (val (v_m2 s))) in *.
  assert (X0 : Rabs (val (v_m0 s) * val x) <= m0 * Z) by (apply abs_mul; [apply Rle_refl | unfold Z; lra]).
  assert (X1 : Rabs (val (v_m1 s) * val c1) <= m1 * (2 * Z)) by (apply abs_mul; [apply Rle_refl | exact Y1]).
  assert (X2 : Rabs (val (v_m2 s) * val c2) <= m2 * (2 * Z)) by (apply abs_mul; [apply Rle_refl | exact Y2]).
  assert (e4 : eta <= / 4 * Z) by (unfold Z, e; lra).
  assert (MZ' : mix s * Z = Z + m0 * Z + m1 * Z + m2 * Z) by (unfold mix; fold m0 m1 m2; ring).
  assert (g0 : 0 <= m0 * Z) by (apply Rmult_le_pos; lra). assert (g1 : 0 <= m1 * Z) by (apply Rmult_le_pos; lra). assert (g2 : 0 <= m2 * Z) by (apply Rmult_le_pos; lra).
  assert (H8' : forall y, Rabs y <= 8 * (mix s * Z) -> Rabs y < top) by (intros y Hy; apply top_half; lra).
  pose proof X0 as X0'. pose proof X1 as X1'. pose proof X2 as X2'. apply G in X0, X1, X2.
  assert (H9 : forall y Y, Rabs y <= Y -> Y <= 8 * (mix s * Z) -> Rabs y < top) by (intros y Y P Q; apply H8'; lra).
  assert (K0 : 1001 / 1000 * (m0 * Z) + eta <= 8 * (mix s * Z)) by lra.
  assert (K1 : 1001 / 1000 * (m1 * (2 * Z)) + eta <= 8 * (mix s * Z)) by lra.
  assert (K2 : 1001 / 1000 * (m2 * (2 * Z)) + eta <= 8 * (mix s * Z)) by lra.
  destruct (fmul_ok (v_m0 s) x Fm0 Fx (H9 _ _ X0 K0)) as [U0 G0]. destruct (fmul_ok (v_m1 s) c1 Fm1 Fw1 (H9 _ _ X1 K1)) as [U1 G1].
  destruct (fmul_ok (v_m2 s) c2 Fm2 Fw2 (H9 _ _ X2 K2)) as [U2 G2]. rewrite <- U0 in X0. rewrite <- U1 in X1. rewrite <- U2 in X2.
  pose proof (abs_2 _ _ _ _ X0 X1) as X3'.
  pose proof (G _ _ (abs_2 _ _ _ _ X0 X1)) as X3.
  destruct (fadd_ok _ _ G0 G1 (H9 _ _ X3 ltac:(lra))) as [U3 G3]. rewrite <- U3 in X3.
  pose proof (abs_2 _ _ _ _ X3 X2) as X4'.
  pose proof (G _ _ (abs_2 _ _ _ _ X3 X2)) as X4.
  destruct (fadd_ok _ _ G3 G2 (H9 _ _ X4 ltac:(lra))) as [U4 G4]. rewrite <- U4 in X4.
  rewrite <- Wn1 in E1. rewrite <- Wn2 in E2.
  split; [split; [exact Fn1 | split; [exact Fn2 | exact G4]] |]. split; [exact E1 |]. split; [exact E2 |].
  split; [eapply Rle_trans; [exact X4 |]; lra |].
  (* the error of the output *)
  set (U := u * Z). assert (UTZ : u * Tt <= U) by (unfold U; apply Rmult_le_compat_l; [lra | unfold Z; lra]).
  assert (Uz : 0 <= U) by lra.
  pose proof (r_err rnd u eta US rnd_near) as RE.
  assert (Z00 : forall y, Rabs (y - y) <= 0) by (intros y; rewrite Rminus_diag_eq by reflexivity; rewrite Rabs_R0; lra).
  pose proof (RE _ _ _ _ X0' (Z00 _)) as Q0.
  assert (H1' : Rabs (val c1 - dv1 g k s1 s2 (val x)) <= 20 * U + 8 * eta) by lra.
  assert (H2' : Rabs (val c2 - dv2 g k s1 s2 (val x)) <= 20 * U + 8 * eta) by lra.
  assert (I1 : Rabs (val (v_m1 s) * val c1 - val (v_m1 s) * dv1 g k s1 s2 (val x)) <= m1 * (20 * U + 8 * eta)).
  { rewrite <- Rmult_minus_distr_l. apply abs_mul; [apply Rle_refl | exact H1']. }
  assert (I2 : Rabs (val (v_m2 s) * val c2 - val (v_m2 s) * dv2 g k s1 s2 (val x)) <= m2 * (20 * U + 8 * eta)).
  { rewrite <- Rmult_minus_distr_l. apply abs_mul; [apply Rle_refl | exact H2']. }
  pose proof (RE _ _ _ _ X1' I1) as Q1. pose proof (RE _ _ _ _ X2' I2) as Q2.
  rewrite <- U0 in Q0. rewrite <- U1 in Q1. rewrite <- U2 in Q2.
  assert (J3 : forall a b a' b' A B, Rabs (a - a') <= A -> Rabs (b - b') <= B -> Rabs (a + b - (a' + b')) <= A + B).
  { intros a b a' b' A B HA HB. replace (a + b - (a' + b')) with ((a - a') + (b - b')) by ring. apply abs_2; assumption. }
  pose proof (RE _ _ _ _ X3' (J3 _ _ _ _ _ _ Q0 Q1)) as Q3. rewrite <- U3 in Q3.
  pose proof (RE _ _ _ _ X4' (J3 _ _ _ _ _ _ Q3 Q2)) as Q4. rewrite <- U4 in Q4.
  eapply Rle_trans; [exact Q4 |].
  assert (ue : 0 <= u * eta <= / 1000 * eta) by (split; [apply Rmult_le_pos; lra | apply Rmult_le_compat_r; lra]).
  assert (mu : forall m, 0 <= m -> 0 <= m * U) by (intros m Hm; apply Rmult_le_pos; lra).
  assert (me : forall m, 0 <= m -> 0 <= m * eta) by (intros m Hm; apply Rmult_le_pos; lra).
  pose proof (mu _ q0). pose proof (mu _ q1'). pose proof (mu _ q2). pose proof (me _ q0). pose proof (me _ q1'). pose proof (me _ q2).
  assert (u2 : forall y, 0 <= y -> 0 <= u * y <= / 1000 * y) by (intros y Hy; split; [apply Rmult_le_pos; lra | apply Rmult_le_compat_r; lra]).
  replace (mix s * (40 * U + 20 * eta)) with (40 * U + 20 * eta + 40 * (m0 * U) + 40 * (m1 * U) + 40 * (m2 * U) + 20 * (m0 * eta) + 20 * (m1 * eta) + 20 * (m2 * eta))
    by (unfold mix; fold m0 m1 m2; ring).
  replace (u * (m0 * Z)) with (m0 * U) by (unfold U; ring).
  replace (u * (m1 * (2 * Z))) with (2 * (m1 * U)) by (unfold U; ring).
  replace (u * (m2 * (2 * Z))) with (2 * (m2 * U)) by (unfold U; ring).
  replace (u * (1001 / 1000 * (m0 * Z) + eta + (1001 / 1000 * (m1 * (2 * Z)) + eta)))
    with (1001 / 1000 * (m0 * U) + 1001 / 500 * (m1 * U) + 2 * (u * eta)) by (unfold U; field).
  match goal with |- context [u * (1001 / 1000 * (?a + ?b + ?c) + eta + ?e)] =>
    replace (u * (1001 / 1000 * (a + b + c) + eta + e))
      with (1001 / 1000 * (1001 / 1000 * (m0 * U) + 1001 / 500 * (m1 * U) + 2 * (u * eta)) + u * eta + 1001 / 500 * (m2 * U) + u * eta) by (unfold U; field) end.
  lra.
Qed.
Lemma step_float g k s (x : fl) : 0 < g -> 0 < k -> tuned_f g k s -> fin (v_ic1 s) -> fin (v_ic2 s) -> fin x ->
  let s1 := val (v_ic1 s) in let s2 := val (v_ic2 s) in let Tt := Rabs s1 + Rabs s2 + Rabs (val x) in
  8 * mix s * (Tt + 4 * eta) <= bpow radix2 (emax - 1) ->
  let p := process_sample O_ s x in
  (fin (v_ic1 (fst p)) /\ fin (v_ic2 (fst p)) /\ fin (snd p))
  /\ Rabs (val (v_ic1 (fst p)) - ds1 g k s1 s2 (val x)) <= 50 * u * Tt + 25 * eta
  /\ Rabs (val (v_ic2 (fst p)) - ds2 g k s1 s2 (val x)) <= 50 * u * Tt + 25 * eta
  /\ Rabs (val (snd p)) <= 3 * mix s * (Tt + 4 * eta).
Proof.
  intros Hg Hk H F1_ F2_ F3_ s1 s2 Tt Hb p. destruct (step_float_full g k s x Hg Hk H F1_ F2_ F3_ Hb) as (A & B & C & D & _).
  split; [exact A |]. split; [exact B |]. split; [exact C | exact D].
Qed.

Lemma after_coeffs s x n : let s' := f_after O_ s x n in
  v_a1 s' = v_a1 s /\ v_a2 s' = v_a2 s /\ v_a3 s' = v_a3 s /\ v_m0 s' = v_m0 s /\ v_m1 s' = v_m1 s /\ v_m2 s' = v_m2 s.
Proof. cbv zeta. induction n as [|n IH]; cbn [f_after]; [repeat split |]. exact IH. Qed.
Lemma tuned_after g k s x n : tuned_f g k s -> tuned_f g k (f_after O_ s x n).
Proof.
  intros H. destruct (after_coeffs s x n) as (E1 & E2 & E3 & E4 & E5 & E6). unfold tuned_f in *. rewrite E1, E2, E3, E4, E5, E6. exact H.
Qed.
Lemma mix_after s x n : mix (f_after O_ s x n) = mix s.
Proof. destruct (after_coeffs s x n) as (E1 & E2 & E3 & E4 & E5 & E6). unfold mix. rewrite E4, E5, E6. reflexivity. Qed.
Lemma swing_eq g k : swing g k = sqrt (4 + 8 * (2 * gain_ g k + 1) / damping g k + 160000 / (damping g k * damping g k)).
Proof. reflexivity. Qed.
Lemma abs_sq a Q : 0 <= Q -> a * a <= Q * Q -> Rabs a <= Q.
Proof. intros HQ H. apply Rsqr_incr_0_var; [| exact HQ]. rewrite <- Rsqr_abs. exact H. Qed.

Lemma run_float_full g k s x M : 0 < g -> 0 < k -> 1400 * u <= damping g k -> tuned_f g k s -> fin (v_ic1 s) -> fin (v_ic2 s) ->
  (forall n, fin (x n) /\ Rabs (val (x n)) <= M) ->
  let A0 := Rabs (val (v_ic1 s)) + Rabs (val (v_ic2 s)) in
  40 * swing g k * mix s * (A0 + M + eta) <= bpow radix2 (emax - 1) ->
  forall n, let s' := f_after O_ s x n in
    fin (v_ic1 s') /\ fin (v_ic2 s') /\ fin (f_output O_ s x n)
    /\ Rabs (val (v_ic1 s')) <= swing g k * (decay g k ^ n * A0 + M + eta) /\ Rabs (val (v_ic2 s')) <= swing g k * (decay g k ^ n * A0 + M + eta)
    /\ Rabs (val (f_output O_ s x n)) <= 40 * swing g k * mix s * (decay g k ^ n * A0 + M + eta)
    /\ val (v_ic1 s') * val (v_ic1 s') + val (v_ic2 s') * val (v_ic2 s')
       <= 4 * ((decay g k ^ n * A0) * (decay g k ^ n * A0)) + 8 * (2 * gain_ g k + 1) / damping g k * (M * M)
          + 160000 / (damping g k * damping g k) * (eta * eta).
Proof.
  intros Hg Hk Hm Ht Hf1 Hf2 Hx A0 Hb.
  pose proof u_small as US. pose proof eta_pos as EP.
  pose proof (damping_pos g k Hg Hk) as Hd. pose proof (damping_small g k Hg Hk) as Hs. pose proof (gain_pos g k Hg Hk) as HG.
  assert (M0 : 0 <= M) by (destruct (Hx O) as [_ Q]; pose proof (Rabs_pos (val (x O))); lra).
  assert (A0p : 0 <= A0) by (unfold A0; pose proof (Rabs_pos (val (v_ic1 s))); pose proof (Rabs_pos (val (v_ic2 s))); lra).
  set (d := damping g k) in *. set (G := gain_ g k) in *.
  set (q := decay g k). assert (qq : q * q = 1 - d / 4) by (unfold q, decay; fold d; apply sqrt_sqrt; lra).
  assert (q0 : 0 <= q) by apply sqrt_pos. assert (q1 : q <= 1) by nra.
  set (B := (2 * G + 1) * (M * M) + 20000 / d * (eta * eta)).
  assert (D0 : 0 < 20000 / d) by (apply Rdiv_lt_0_compat; lra).
  assert (B0 : 0 <= B). { unfold B. assert (0 <= M * M) by nra. assert (0 < eta * eta) by nra. assert (0 <= (2 * G + 1) * (M * M)) by (apply Rmult_le_pos; lra).
    assert (0 <= 20000 / d * (eta * eta)) by (apply Rmult_le_pos; lra). lra. }
  set (Q := swing g k).
  assert (t1 : 0 <= 8 * (2 * G + 1) / d) by (apply Rlt_le, Rdiv_lt_0_compat; lra).
  assert (t2 : 0 <= 160000 / (d * d)) by (apply Rlt_le, Rdiv_lt_0_compat; [lra | apply Rmult_lt_0_compat; assumption]).
  assert (QQ : Q * Q = 4 + 8 * (2 * G + 1) / d + 160000 / (d * d)).
  { unfold Q. rewrite swing_eq. apply sqrt_sqrt. change (0 <= 4 + 8 * (2 * G + 1) / d + 160000 / (d * d)). lra. }
  assert (Q0 : 0 <= Q) by apply sqrt_pos. assert (Q2 : 2 <= Q) by nra.
  set (L0 := lyap k (val (v_ic1 s)) (val (v_ic2 s))).
  assert (HL0 : L0 <= 2 * (A0 * A0)).
  { unfold L0. eapply Rle_trans; [apply lyap_high; exact Hk |]. apply Rmult_le_compat_l; [lra |]. unfold A0.
    assert (E : forall y, Rabs y * Rabs y = y * y) by (intros y; rewrite <- Rabs_mult; apply Rabs_pos_eq; apply Rle_0_sqr).
    rewrite <- (E (val (v_ic1 s))), <- (E (val (v_ic2 s))). pose proof (Rabs_pos (val (v_ic1 s))). pose proof (Rabs_pos (val (v_ic2 s))). nra. }
  assert (L00 : 0 <= L0) by (apply lyap_pos; exact Hk).
  set (W := fun n => q ^ n * A0 + M + eta).
  assert (qn : forall n, 0 <= q ^ n <= 1) by (intros n; split; [apply pow_le; exact q0 | rewrite <- (pow1 n); apply pow_incr; lra]).
  assert (Wn : forall n, 0 < W n <= W O).
  { intros n. destruct (qn n). unfold W. cbn [pow]. split; [assert (0 <= q ^ n * A0) by (apply Rmult_le_pos; lra); lra | nra]. }
  assert (Mx : 1 <= mix s) by (unfold mix; pose proof (Rabs_pos (val (v_m0 s))); pose proof (Rabs_pos (val (v_m1 s))); pose proof (Rabs_pos (val (v_m2 s))); lra).
  (* what the energy says about the next sample *)
  assert (Size : forall n, lyap k (val (v_ic1 (f_after O_ s x n))) (val (v_ic2 (f_after O_ s x n))) <= (q * q) ^ n * L0 + 4 / d * B ->
     let s1 := val (v_ic1 (f_after O_ s x n)) in let s2 := val (v_ic2 (f_after O_ s x n)) in
     (s1 * s1 + s2 * s2 <= 4 * ((q ^ n * A0) * (q ^ n * A0)) + 8 * (2 * G + 1) / d * (M * M) + 160000 / (d * d) * (eta * eta) /\
      Rabs s1 <= Q * W n /\ Rabs s2 <= Q * W n) /\ Rabs s1 + Rabs s2 + Rabs (val (x n)) + 4 * eta <= 5 * Q * W n).
  { intros n HL s1 s2. destruct (qn n) as [p0 p1]. destruct (Wn n) as [w0 _].
    pose proof (lyap_low k s1 s2 Hk) as Lo. fold s1 s2 in HL.
    assert (En : (q * q) ^ n = q ^ n * q ^ n) by apply Rpow_mult_distr. rewrite En in HL.
    assert (Ea : s1 * s1 + s2 * s2 <= 4 * ((q ^ n * A0) * (q ^ n * A0)) + 8 * (2 * G + 1) / d * (M * M) + 160000 / (d * d) * (eta * eta)).
    { assert (q ^ n * q ^ n * L0 <= q ^ n * q ^ n * (2 * (A0 * A0))) by (apply Rmult_le_compat_l; [nra | exact HL0]).
      replace (8 * (2 * G + 1) / d * (M * M) + 160000 / (d * d) * (eta * eta)) with (2 * (4 / d * B)) by (unfold B; field; lra). 
      rewrite Rplus_assoc. replace (8 * (2 * G + 1) / d * (M * M) + 160000 / (d * d) * (eta * eta)) with (2 * (4 / d * B)) by (unfold B; field; lra). nra. }
    assert (Eb : s1 * s1 + s2 * s2 <= (Q * W n) * (Q * W n)).
    { replace (Q * W n * (Q * W n)) with (Q * Q * (W n * W n)) by ring. rewrite QQ. unfold W. set (a := q ^ n * A0) in *.
      assert (a0 : 0 <= a) by (apply Rmult_le_pos; lra).
      assert (a * a <= (a + M + eta) * (a + M + eta)) by nra. assert (M * M <= (a + M + eta) * (a + M + eta)) by nra.
      assert (eta * eta <= (a + M + eta) * (a + M + eta)) by nra. set (w := (a + M + eta) * (a + M + eta)) in *.
      assert (8 * (2 * G + 1) / d * (M * M) <= 8 * (2 * G + 1) / d * w) by (apply Rmult_le_compat_l; assumption).
      assert (160000 / (d * d) * (eta * eta) <= 160000 / (d * d) * w) by (apply Rmult_le_compat_l; assumption). lra. }
    assert (w2 : 0 <= Q * W n) by (apply Rmult_le_pos; lra).
    assert (R1 : Rabs s1 <= Q * W n) by (apply abs_sq; [exact w2 | pose proof (Rle_0_sqr s2) as Z; unfold Rsqr in Z; lra]).
    assert (R2 : Rabs s2 <= Q * W n) by (apply abs_sq; [exact w2 | pose proof (Rle_0_sqr s1) as Z; unfold Rsqr in Z; lra]).
    split; [split; [exact Ea | split; assumption] |]. destruct (Hx n) as [_ Xn].
    assert (2 * W n <= Q * W n) by (apply Rmult_le_compat_r; lra).
    assert (M + eta <= W n) by (unfold W; assert (0 <= q ^ n * A0) by (apply Rmult_le_pos; lra); lra). lra. }
  assert (Fits : forall n y, y <= 5 * Q * W n -> 0 <= y -> 8 * mix s * y <= 40 * Q * mix s * W n).
  { intros n y Hy Hy0. assert (8 * mix s * y <= 8 * mix s * (5 * Q * W n)) by (apply Rmult_le_compat_l; lra). lra. }
  assert (Top : forall n, 40 * Q * mix s * W n <= bpow radix2 (emax - 1)).
  { intros n. apply Rle_trans with (2 := Hb). fold Q. replace (A0 + M + eta) with (W O) by (unfold W; cbn [pow]; ring).
    apply Rmult_le_compat_l; [| apply (Wn n)]. apply Rmult_le_pos; [lra | lra]. }
  assert (Inv : forall n, fin (v_ic1 (f_after O_ s x n)) /\ fin (v_ic2 (f_after O_ s x n)) /\
     lyap k (val (v_ic1 (f_after O_ s x n))) (val (v_ic2 (f_after O_ s x n))) <= (q * q) ^ n * L0 + 4 / d * B).
  { assert (DB : 0 <= 4 / d * B) by (apply Rmult_le_pos; [apply Rlt_le, Rdiv_lt_0_compat; lra | exact B0]).
    induction n as [|n (I1 & I2 & I3)].
    - cbn [f_after pow]. split; [assumption |]. split; [assumption |]. fold L0. lra.
    - destruct (Size n I3) as [_ Sz]. cbv zeta in Sz. destruct (Hx n) as [Fx Xn].
      pose proof (Rabs_pos (val (v_ic1 (f_after O_ s x n)))) as z1. pose proof (Rabs_pos (val (v_ic2 (f_after O_ s x n)))) as z2. pose proof (Rabs_pos (val (x n))) as z3.
      destruct (step_float g k (f_after O_ s x n) (x n) Hg Hk (tuned_after g k s x n Ht) I1 I2 Fx) as ((J1 & J2 & _) & J3 & J4 & _).
      { rewrite mix_after. eapply Rle_trans; [apply Fits; [exact Sz | lra] |]. apply Top. }
      cbn [f_after]. split; [exact J1 |]. split; [exact J2 |].
      pose proof (rough_step g k u eta _ _ (val (x n)) _ _ Hg Hk (proj1 US) EP Hm J3 J4) as Rs.
      match type of Rs with lyap k (?a + (?b - ?a)) (?a' + (?b' - ?a')) <= _ =>
        replace (a + (b - a)) with b in Rs by ring; replace (a' + (b' - a')) with b' in Rs by ring end.
      fold d G in Rs. rewrite <- qq in Rs.
      assert (xx : val (x n) * val (x n) <= M * M).
      { assert (E : Rabs (val (x n)) * Rabs (val (x n)) = val (x n) * val (x n)) by (rewrite <- Rabs_mult; apply Rabs_pos_eq; apply Rle_0_sqr).
        rewrite <- E. apply Rmult_le_compat; assumption. }
      assert (g1 : (2 * G + 1) * (val (x n) * val (x n)) <= (2 * G + 1) * (M * M)) by (apply Rmult_le_compat_l; lra).
      eapply Rle_trans; [exact Rs |].
      apply Rle_trans with ((q * q) * ((q * q) ^ n * L0 + 4 / d * B) + B).
      { assert (q * q * lyap k (val (v_ic1 (f_after O_ s x n))) (val (v_ic2 (f_after O_ s x n))) <= q * q * ((q * q) ^ n * L0 + 4 / d * B)) by (apply Rmult_le_compat_l; [nra | exact I3]).
        unfold B at 2. lra. }
      cbn [pow]. rewrite qq at 1 3. replace ((1 - d / 4) * ((q * q) ^ n * L0 + 4 / d * B) + B) with ((1 - d / 4) * (q * q) ^ n * L0 + 4 / d * B) by (field; lra).
      lra. }
  intros n s'. destruct (Inv n) as (I1 & I2 & I3). destruct (Size n I3) as [(Ra & R1 & R2) Sz]. destruct (Hx n) as [Fx Xn].
  pose proof (Rabs_pos (val (v_ic1 (f_after O_ s x n)))) as z1. pose proof (Rabs_pos (val (v_ic2 (f_after O_ s x n)))) as z2. pose proof (Rabs_pos (val (x n))) as z3.
  destruct (step_float g k (f_after O_ s x n) (x n) Hg Hk (tuned_after g k s x n Ht) I1 I2 Fx) as ((_ & _ & J1) & _ & _ & J4).
  { rewrite mix_after. eapply Rle_trans; [apply Fits; [exact Sz | lra] |]. apply Top. }
  split; [exact I1 |]. split; [exact I2 |]. split; [exact J1 |]. split; [exact R1 |]. split; [exact R2 |].
  split; [| exact Ra].
  rewrite mix_after in J4. unfold f_output. eapply Rle_trans; [exact J4 |].
  eapply Rle_trans; [| apply Fits; [exact Sz | lra]].
  apply Rmult_le_compat_r; lra.
Qed.
Lemma run_float g k s x M : 0 < g -> 0 < k -> 1400 * u <= damping g k -> tuned_f g k s -> fin (v_ic1 s) -> fin (v_ic2 s) ->
  (forall n, fin (x n) /\ Rabs (val (x n)) <= M) ->
  let A0 := Rabs (val (v_ic1 s)) + Rabs (val (v_ic2 s)) in
  40 * swing g k * mix s * (A0 + M + eta) <= bpow radix2 (emax - 1) ->
  forall n, let s' := f_after O_ s x n in
    fin (v_ic1 s') /\ fin (v_ic2 s') /\ fin (f_output O_ s x n)
    /\ Rabs (val (v_ic1 s')) <= swing g k * (decay g k ^ n * A0 + M + eta) /\ Rabs (val (v_ic2 s')) <= swing g k * (decay g k ^ n * A0 + M + eta)
    /\ Rabs (val (f_output O_ s x n)) <= 40 * swing g k * mix s * (decay g k ^ n * A0 + M + eta).
Proof.
  intros Hg Hk Hm Ht Hf1 Hf2 Hx A0 Hb n s'. destruct (run_float_full g k s x M Hg Hk Hm Ht Hf1 Hf2 Hx Hb n) as (A & B & C & D & E & F & _).
  repeat (split; [assumption |]). assumption.
Qed.
Lemma sturdy_tuned s sr : sturdy O_ s sr -> tuned_f (g_val O_ s sr) (k_val O_ s) (set_coeffs O_ s sr).
Proof.
  unfold sturdy, set_coeffs, tuned_f, g_val, k_val. cbv zeta. destruct (m_of O_ (v_ty s) _ _) as [[m0 m1] m2].
  intros (Fg & Fk & Rg & Rk & F0 & F1' & F2' & _). cbn [v_a1 v_a2 v_a3 v_m0 v_m1 v_m2].
  destruct (coef_float _ _ Fg Fk Rg Rk) as (P & Q). split; [exact P |]. split; [repeat split; assumption | exact Q].
Qed.
End Fl.
