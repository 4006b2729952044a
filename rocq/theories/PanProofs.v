From Coq Require Import Reals Lra Lia Machin.
From Flocq Require Import Core BinarySingleNaN.
From Verif Require Import Base FloatBase OscModel WaveModel WaveSpec WaveFloat PanModel PanSpec.
Local Open Scope R_scope.
Notation rnd32 := (rnd (prec := 24) (emax := 128)).
Lemma pi_bounds : 3.14159265 < PI < 3.14159266.
Proof.
  assert (H : forall n, PI_2_3_7_tg n = (2 * (/ 3) ^ (2 * n + 1) + (/ 7) ^ (2 * n + 1)) / IZR (Z.of_nat (2 * n + 1))).
  { intros n. rewrite <- INR_IZR_INZ. unfold PI_2_3_7_tg, Ratan_seq. field. rewrite plus_INR, mult_INR. cbn [INR]. pose proof (pos_INR n). lra. }
  pose proof (PI_2_3_7_ineq 5) as [A B]. cbn [Nat.mul Nat.add sum_f_R0] in A, B. unfold tg_alt in A, B. repeat rewrite H in A. repeat rewrite H in B.
  cbn [Nat.mul Nat.add pow Z.of_nat Pos.of_succ_nat Pos.succ] in A, B. split; lra.
Qed.
(** Sine and cosine do not change faster than the angle *)
Lemma sin_cos_slow : forall a b, Rabs (sin a - sin b) <= Rabs (a - b) /\ Rabs (cos a - cos b) <= Rabs (a - b).
Proof.
  assert (S : forall x, Rabs (sin x) <= Rabs x).
  { intros x. destruct (Rle_or_lt 0 x) as [H | H].
    - rewrite (Rabs_pos_eq x) by exact H. destruct (Rle_or_lt x 1) as [H1 | H1].
      + pose proof PI2_1. rewrite Rabs_pos_eq by (apply sin_ge_0; lra). destruct H as [H | <-]; [apply Rlt_le, sin_lt_x; exact H | rewrite sin_0; lra].
      + pose proof (SIN_bound x). apply Rabs_le. lra.
    - rewrite (Rabs_left x) by exact H. rewrite <- (Ropp_involutive x) at 1. rewrite sin_neg, Rabs_Ropp. set (y := - x) in *. assert (Hy : 0 < y) by (unfold y; lra).
      destruct (Rle_or_lt y 1) as [H1 | H1]; [pose proof PI2_1; rewrite Rabs_pos_eq by (apply sin_ge_0; lra); apply Rlt_le, sin_lt_x; exact Hy | pose proof (SIN_bound y); apply Rabs_le; lra]. }
  intros a b. assert (K : forall u, Rabs (2 * u * sin ((a - b) / 2)) <= Rabs u * Rabs (a - b)).
  { intros u. rewrite !Rabs_mult, (Rabs_pos_eq 2) by lra. pose proof (S ((a - b) / 2)) as H. replace ((a - b) / 2) with ((a - b) * / 2) in * by lra. rewrite (Rabs_mult (a - b)), (Rabs_pos_eq (/ 2)) in H by lra. pose proof (Rabs_pos u). nra. }
  pose proof (SIN_bound ((a + b) / 2)) as B1. pose proof (COS_bound ((a + b) / 2)) as B2. split.
  - rewrite form4. replace (2 * cos ((a + b) / 2) * sin ((a - b) / 2)) with (2 * cos ((a + b) / 2) * sin ((a - b) / 2)) by lra. eapply Rle_trans; [apply K |]. rewrite <- (Rmult_1_l (Rabs (a - b))) at 2. apply Rmult_le_compat_r; [apply Rabs_pos |]. apply Rabs_le. lra.
  - rewrite form2. replace (-2 * sin ((a - b) / 2) * sin ((a + b) / 2)) with (2 * (- sin ((a + b) / 2)) * sin ((a - b) / 2)) by ring. eapply Rle_trans; [apply K |]. rewrite <- (Rmult_1_l (Rabs (a - b))) at 2. apply Rmult_le_compat_r; [apply Rabs_pos |]. apply Rabs_le. lra.
Qed.
Lemma round_error : forall k x, (-100 <= k)%Z -> Rabs x < bpow radix2 k -> Rabs (rnd32 x - x) <= bpow radix2 (k - 25).
Proof.
  intros k x Hk Hx. destruct (Req_dec x 0) as [-> | H0]; [rewrite rnd_0, Rminus_diag_eq, Rabs_R0 by reflexivity; apply bpow_ge_0 |].
  apply Rle_trans with (/ 2 * ulp radix2 (SpecFloat.fexp 24 128) x); [unfold rnd; apply error_le_half_ulp; typeclasses eauto |].
  rewrite ulp_neq_0 by exact H0. assert (M : (mag radix2 x <= k)%Z) by (apply mag_le_bpow; [exact H0 | exact Hx]).
  assert (C : (cexp radix2 (SpecFloat.fexp 24 128) x <= k - 24)%Z) by (unfold cexp, SpecFloat.fexp, SpecFloat.emin; lia).
  change (/ 2) with (bpow radix2 (-1)). rewrite <- bpow_plus. apply bpow_le. lia.
Qed.
Lemma half_ok : val half32 = 1 / 2 /\ fin half32.
Proof.
  assert (B : B2SF half32 = SpecFloat.S754_finite false 8388608 (-24)) by (vm_compute; reflexivity).
  split; [unfold val; rewrite <- SF2R_B2SF, B; change (IZR 8388608 * / IZR 16777216 = 1 / 2); lra | unfold fin; rewrite <- is_finite_SF_B2SF, B; reflexivity].
Qed.
Lemma frac_ok : val frac_pi_2 = 13176795 / 8388608 /\ fin frac_pi_2.
Proof.
  assert (B : B2SF frac_pi_2 = SpecFloat.S754_finite false 13176795 (-23)) by (vm_compute; reflexivity).
  split; [unfold val; rewrite <- SF2R_B2SF, B; reflexivity | unfold fin; rewrite <- is_finite_SF_B2SF, B; reflexivity].
Qed.
Lemma b1 : bpow radix2 1 = 2. Proof. reflexivity. Qed.
Lemma m25 : bpow radix2 (-25) = / 33554432. Proof. reflexivity. Qed.
Lemma m24 : bpow radix2 (-24) = / 16777216. Proof. reflexivity. Qed.
Lemma m22 : bpow radix2 (-22) = / 4194304. Proof. reflexivity. Qed.
Lemma set_ok : forall p : f32, fin p -> -1 <= val p <= 1 ->
  val (pan_set p) = rnd32 (rnd32 (val p * (1 / 2)) + 1 / 2) /\ fin (pan_set p) /\ 0 <= val (pan_set p) <= 1 /\ Rabs (val (pan_set p) - (val p + 1) / 2) <= 2 * bpow radix2 (-25).
Proof.
  intros p Fp Hp. destruct half_ok as [Vh Fh]. assert (Eh : rnd32 (1 / 2) = 1 / 2) by (replace (1 / 2) with (bpow radix2 (-1)) by (cbn; lra); apply rnd_bpow; lia).
  assert (R1 : - (1 / 2) <= rnd32 (val p * (1 / 2)) <= 1 / 2) by (apply rnd_between; [rewrite rnd_opp, Eh; reflexivity | exact Eh | lra]).
  unfold pan_set. destruct (fmul_ok p half32 Fp Fh) as [V1 F1]; [rewrite Vh; apply (fits _ 0); [lia | cbn; apply Rabs_le; lra] |]. rewrite Vh in V1.
  assert (R2 : 0 <= rnd32 (rnd32 (val p * (1 / 2)) + 1 / 2) <= 1) by (apply rnd_between; [apply rnd_0 | apply rnd_1 | lra]).
  destruct (fadd_ok (fmul p half32) half32 F1 Fh) as [V2 F2]; [rewrite Vh, V1; apply (fits _ 0); [lia | cbn; apply Rabs_le; lra] |]. rewrite Vh, V1 in V2. rewrite V2.
  split; [reflexivity |]. split; [exact F2 |]. split; [exact R2 |].
  pose proof (round_error 0 (val p * (1 / 2)) ltac:(lia) ltac:(cbn; apply Rabs_lt; lra)) as E1. change (0 - 25)%Z with (-25)%Z in E1.
  assert (E2 : Rabs (rnd32 (rnd32 (val p * (1 / 2)) + 1 / 2) - (rnd32 (val p * (1 / 2)) + 1 / 2)) <= bpow radix2 (-25)).
  { destruct (Rlt_or_le (rnd32 (val p * (1 / 2)) + 1 / 2) 1) as [H | H].
    - apply (round_error 0); [lia |]. cbn. apply Rabs_lt. lra.
    - assert (E : rnd32 (val p * (1 / 2)) + 1 / 2 = 1) by lra. rewrite E, rnd_1, Rminus_diag_eq, Rabs_R0 by reflexivity. apply bpow_ge_0. }
  apply Rabs_le_inv in E1. apply Rabs_le_inv in E2. apply Rabs_le. lra.
Qed.
Lemma angle_ok : forall p : f32, fin p -> -1 <= val p <= 1 ->
  fin (pan_angle (pan_set p)) /\ 0 <= val (pan_angle (pan_set p)) <= val frac_pi_2 /\ Rabs (val (pan_angle (pan_set p)) - pan_theta (val p)) <= bpow radix2 (-22).
Proof.
  intros p Fp Hp. destruct (set_ok p Fp Hp) as (_ & Fs & Bs & Es). destruct frac_ok as [Vf Ff]. set (s := pan_set p) in *. unfold pan_angle.
  assert (Rf : rnd32 (val frac_pi_2) = val frac_pi_2) by apply rnd_val.
  assert (R1 : 0 <= rnd32 (val s * val frac_pi_2) <= val frac_pi_2) by (apply rnd_between; [apply rnd_0 | exact Rf | rewrite Vf; lra]).
  destruct (fmul_ok s frac_pi_2 Fs Ff) as [V F0]; [apply (fits _ 1); [lia | rewrite b1, Vf; apply Rabs_le; lra] |]. rewrite V. split; [exact F0 |]. split; [exact R1 |].
  pose proof (round_error 1 (val s * val frac_pi_2) ltac:(lia) ltac:(rewrite b1, Vf; apply Rabs_lt; lra)) as E. change (1 - 25)%Z with (-24)%Z in E.
  rewrite m24 in E. rewrite m25 in Es. rewrite m22. apply Rabs_le_inv in E. apply Rabs_le_inv in Es. rewrite Vf in *. pose proof pi_bounds as P. unfold pan_theta. apply Rabs_le.
  set (v := rnd32 (val s * (13176795 / 8388608))) in *. set (q := val s) in *. set (r := val p) in *.
  assert (D : Rabs (q * (13176795 / 8388608) - (r + 1) * PI / 4) <= / 8388608 + / 16777216).
  { replace (q * (13176795 / 8388608) - (r + 1) * PI / 4) with ((q - (r + 1) / 2) * (PI / 2) + q * (13176795 / 8388608 - PI / 2)) by field.
    eapply Rle_trans; [apply Rabs_triang |]. apply Rplus_le_compat.
    - rewrite Rabs_mult. rewrite (Rabs_pos_eq (PI / 2)) by lra. assert (Rabs (q - (r + 1) / 2) <= 2 * / 33554432) by (apply Rabs_le; lra). pose proof (Rabs_pos (q - (r + 1) / 2)). nra.
    - rewrite Rabs_mult, (Rabs_pos_eq q) by lra. assert (Rabs (13176795 / 8388608 - PI / 2) <= / 16777216) by (apply Rabs_le; lra). pose proof (Rabs_pos (13176795 / 8388608 - PI / 2)). nra. }
  apply Rabs_le_inv in D. lra.
Qed.
Lemma angle_monotone : forall p q : f32, fin p -> fin q -> -1 <= val p -> val p <= val q -> val q <= 1 -> val (pan_angle (pan_set p)) <= val (pan_angle (pan_set q)).
Proof.
  intros p q Fp Fq H1 H2 H3. destruct (set_ok p Fp ltac:(lra)) as (Vp & Fsp & Bp & _). destruct (set_ok q Fq ltac:(lra)) as (Vq & Fsq & Bq & _). destruct frac_ok as [Vf Ff]. unfold pan_angle.
  assert (Rf : forall s, 0 <= s <= 1 -> Rabs (rnd32 (s * val frac_pi_2)) < top (emax := 128)) by (intros s Hs; apply (fits _ 1); [lia | rewrite b1, Vf; apply Rabs_le; lra]).
  destruct (fmul_ok _ frac_pi_2 Fsp Ff) as [V1 _]; [apply Rf; exact Bp |]. destruct (fmul_ok _ frac_pi_2 Fsq Ff) as [V2 _]; [apply Rf; exact Bq |]. rewrite V1, V2. apply rnd_le. apply Rmult_le_compat_r; [rewrite Vf; lra |].
  rewrite Vp, Vq. apply rnd_le. apply Rplus_le_compat_r. apply rnd_le. lra.
Qed.
Section Law.
Variables (cosf sinf : f32 -> f32) (e : R).
Hypothesis Hc : approximates e cos cosf.
Hypothesis Hs : approximates e sin sinf.
Lemma gains : forall p : f32, fin p -> -1 <= val p <= 1 -> let a := pan_angle (pan_set p) in
  fin (cosf a) /\ fin (sinf a) /\ Rabs (val (cosf a) - cos (pan_theta (val p))) <= e + bpow radix2 (-22) /\ Rabs (val (sinf a) - sin (pan_theta (val p))) <= e + bpow radix2 (-22) /\
  Rabs (val (cosf a) * val (cosf a) + val (sinf a) * val (sinf a) - 1) <= 3 * e + 2 * (e * e).
Proof.
  intros p Fp Hp a. destruct (angle_ok p Fp Hp) as (Fa & Ba & Ea). fold a in Fa, Ba, Ea. destruct frac_ok as [Vf _].
  destruct (Hc a Fa ltac:(rewrite Vf in Ba; lra)) as [F1 E1]. destruct (Hs a Fa ltac:(rewrite Vf in Ba; lra)) as [F2 E2]. destruct (sin_cos_slow (val a) (pan_theta (val p))) as [S1 S2].
  split; [exact F1 |]. split; [exact F2 |]. split; [| split].
  - apply Rabs_le_inv in E1. assert (H : Rabs (cos (val a) - cos (pan_theta (val p))) <= bpow radix2 (-22)) by lra. apply Rabs_le_inv in H. apply Rabs_le. lra.
  - apply Rabs_le_inv in E2. assert (H : Rabs (sin (val a) - sin (pan_theta (val p))) <= bpow radix2 (-22)) by lra. apply Rabs_le_inv in H. apply Rabs_le. lra.
  - set (c := cos (val a)) in *. set (s := sin (val a)) in *. assert (Q : c * c + s * s = 1) by (unfold c, s; pose proof (sin2_cos2 (val a)) as H; unfold Rsqr in H; lra).
    set (x := val (cosf a) - c) in *. set (y := val (sinf a) - s) in *. replace (val (cosf a)) with (c + x) by (unfold x; lra). replace (val (sinf a)) with (s + y) by (unfold y; lra).
    replace ((c + x) * (c + x) + (s + y) * (s + y) - 1) with (2 * (c * x + s * y) + (x * x + y * y)) by (rewrite <- Q; ring).
    assert (e0 : 0 <= e) by (pose proof (Rabs_pos x); lra).
    assert (CS : Rabs c + Rabs s <= 3 / 2). { assert (Z : (Rabs c + Rabs s) * (Rabs c + Rabs s) <= 2) by (assert (Rabs c * Rabs c = c * c) by (rewrite <- Rabs_mult; apply Rabs_pos_eq; nra); assert (Rabs s * Rabs s = s * s) by (rewrite <- Rabs_mult; apply Rabs_pos_eq; nra); pose proof (Rle_0_sqr (Rabs c - Rabs s)) as W; unfold Rsqr in W; lra). pose proof (Rabs_pos c). pose proof (Rabs_pos s). nra. }
    assert (X : Rabs (c * x + s * y) <= 3 / 2 * e).
    { eapply Rle_trans; [apply Rabs_triang |]. rewrite !Rabs_mult. pose proof (Rabs_pos c). pose proof (Rabs_pos s). pose proof (Rabs_pos x). pose proof (Rabs_pos y).
      apply Rle_trans with (Rabs c * e + Rabs s * e); [apply Rplus_le_compat; apply Rmult_le_compat_l; assumption | nra]. }
    assert (Y : 0 <= x * x + y * y <= 2 * (e * e)). { apply Rabs_le_inv in E1. apply Rabs_le_inv in E2. nra. }
    apply Rabs_le_inv in X. apply Rabs_le. lra.
Qed.
Lemma set_left : val (pan_angle (pan_set (fneg fone))) = 0 /\ fin (pan_angle (pan_set (fneg fone))).
Proof. assert (B : pan_angle (pan_set (fneg fone)) = B754_zero false) by (vm_compute; reflexivity). rewrite B. split; reflexivity. Qed.
Lemma left_only : let a := pan_angle (pan_set (fneg fone)) in Rabs (val (cosf a) - 1) <= e /\ Rabs (val (sinf a)) <= e.
Proof.
  intros a. destruct set_left as [V F0]. fold a in V, F0. destruct (Hc a F0 ltac:(lra)) as [_ E1]. destruct (Hs a F0 ltac:(lra)) as [_ E2]. rewrite V in E1, E2. rewrite cos_0 in E1. rewrite sin_0, Rminus_0_r in E2. split; assumption.
Qed.
Section Frame.
Context {prec emax : Z} {I : ieee prec emax}.
Notation fl := (binary_float prec emax).
Hypothesis He : e <= 1 / 2.
Lemma err_any : forall x, Rabs x < 2 -> Rabs (rnd (prec := prec) (emax := emax) x - x) <= bpow radix2 (-24).
Proof.
  intros x Hx. destruct (Req_dec x 0) as [-> | H0]; [rewrite rnd_0, Rminus_diag_eq, Rabs_R0 by reflexivity; apply bpow_ge_0 |].
  apply Rle_trans with (/ 2 * ulp radix2 (SpecFloat.fexp prec emax) x); [unfold rnd; apply error_le_half_ulp; typeclasses eauto |].
  rewrite ulp_neq_0 by exact H0. assert (M : (mag radix2 x <= 1)%Z) by (apply mag_le_bpow; [exact H0 | rewrite b1; exact Hx]).
  assert (C : (cexp radix2 (SpecFloat.fexp prec emax) x <= -23)%Z) by (unfold cexp, SpecFloat.fexp, SpecFloat.emin; destruct I; lia).
  change (/ 2) with (bpow radix2 (-1)). rewrite <- bpow_plus. apply bpow_le. lia.
Qed.
Lemma one_gain : forall (x : fl) (g : f32) t, fin x -> Rabs (val x) <= 1 -> fin g -> Rabs t <= 1 -> Rabs (val g - t) <= e + bpow radix2 (-22) ->
  fin (fmul x (wide g)) /\ Rabs (val (fmul x (wide g)) - val x * t) <= e + bpow radix2 (-21).
Proof.
  intros x g t Fx Hx Fg Ht Hg. destruct (wide_ok (prec := prec) (emax := emax) g Fg) as [Vw Fw]. rewrite m22 in Hg.
  assert (G : Rabs (val g) < 2) by (apply Rabs_le_inv in Hg; apply Rabs_le_inv in Ht; apply Rabs_lt; lra).
  assert (XG : Rabs (val x * val g) < 2) by (rewrite Rabs_mult; pose proof (Rabs_pos (val x)); pose proof (Rabs_pos (val g)); nra).
  destruct (fmul_ok x (wide g) Fx Fw) as [V F0]; [rewrite Vw; apply (fits _ 1); [destruct I; lia | rewrite b1; lra] |]. split; [exact F0 |]. rewrite V, Vw.
  pose proof (err_any _ XG) as E. rewrite m24 in E. change (bpow radix2 (-21)) with (/ 2097152).
  assert (D : Rabs (val x * val g - val x * t) <= e + / 4194304) by (rewrite <- Rmult_minus_distr_l, Rabs_mult; pose proof (Rabs_pos (val x)); pose proof (Rabs_pos (val g - t)); nra).
  apply Rabs_le_inv in E. apply Rabs_le_inv in D. apply Rabs_le. lra.
Qed.
Lemma frame_ok : forall (p : f32) (x : fl), fin p -> -1 <= val p <= 1 -> fin x -> Rabs (val x) <= 1 ->
  let o := pan_process cosf sinf (pan_set p) x in fin (fst o) /\ fin (snd o) /\
  Rabs (val (fst o) - val x * cos (pan_theta (val p))) <= e + bpow radix2 (-21) /\ Rabs (val (snd o) - val x * sin (pan_theta (val p))) <= e + bpow radix2 (-21).
Proof.
  intros p x Fp Hp Fx Hx o. destruct (gains p Fp Hp) as (F1 & F2 & E1 & E2 & _).
  assert (C1 : Rabs (cos (pan_theta (val p))) <= 1) by (pose proof (COS_bound (pan_theta (val p))); apply Rabs_le; lra). assert (S1 : Rabs (sin (pan_theta (val p))) <= 1) by (pose proof (SIN_bound (pan_theta (val p))); apply Rabs_le; lra).
  destruct (one_gain x _ _ Fx Hx F1 C1 E1) as [A B]. destruct (one_gain x _ _ Fx Hx F2 S1 E2) as [C D]. repeat split; assumption.
Qed.
End Frame.
End Law.
Section History.
Context {prec emax : Z} {I : ieee prec emax}.
Variables cosf sinf : f32 -> f32.
Notation ev := (pan_event (prec := prec) (emax := emax)).
Definition set_of (x : ev) : option f32 := match x with PanSet p => Some p | PanFrame _ => None end.
Lemma run_last : forall l p x, pan_run cosf sinf (pan_set p) (l ++ [PanFrame x]) = pan_run cosf sinf (pan_set p) l ++ [pan_process cosf sinf (pan_set (last_set set_of p l)) x].
Proof. induction l as [| [q | y] l IH]; intros p x; cbn [app pan_run last_set set_of]; [reflexivity | apply IH | rewrite IH; reflexivity]. Qed.
End History.
(** The approximation by the nearest multiple of 2^-24 *)
Definition near (g : R -> R) (a : f32) : f32 := fze (ZnearestE (g (val a) * 16777216)) (-24).
Lemma near_ok : forall g, (forall x, -1 <= g x <= 1) -> approximates (bpow radix2 (-25)) g (near g).
Proof.
  intros g Hg a _ _. unfold near. set (m := ZnearestE (g (val a) * 16777216)). specialize (Hg (val a)).
  assert (M : (- 16777216 <= m <= 16777216)%Z).
  { pose proof (Znearest_half (fun x => negb (Z.even x)) (g (val a) * 16777216)) as H. fold m in H. apply Rabs_le_inv in H.
    assert (A1 : IZR m < IZR 16777217) by lra. assert (A2 : IZR (-16777217) < IZR m) by lra. apply lt_IZR in A1. apply lt_IZR in A2. lia. }
  assert (B : rnd32 (IZR m * bpow radix2 (-24)) = IZR m * bpow radix2 (-24)).
  { destruct (Z.eq_dec m 16777216) as [-> | N1]; [replace (IZR 16777216 * bpow radix2 (-24)) with 1 by (rewrite m24; lra); apply rnd_1 |].
    destruct (Z.eq_dec m (-16777216)) as [-> | N2]; [replace (IZR (-16777216) * bpow radix2 (-24)) with (- (1)) by (rewrite m24; lra); rewrite rnd_opp, rnd_1; reflexivity |].
    apply rnd_format. change (SpecFloat.fexp 24 128) with (FLT_exp (-149) 24). apply generic_format_FLT. apply (FLT_spec _ _ _ _ (Float radix2 m (-24))); [reflexivity | cbn [Fnum]; change (radix2 ^ 24)%Z with 16777216%Z; lia | cbn [Fexp]; lia]. }
  destruct (fze_ok (prec := 24) (emax := 128) m (-24)) as [V F0].
  { rewrite B, Rabs_mult, (Rabs_pos_eq (bpow radix2 (-24))), m24 by apply bpow_ge_0. apply Rle_lt_trans with 1; [| change 1 with (bpow radix2 0); apply bpow_lt; lia]. rewrite <- abs_IZR. assert (IZR (Z.abs m) <= 16777216) by (apply IZR_le; lia). lra. }
  split; [exact F0 |]. rewrite V, B, m24, m25. pose proof (Znearest_half (fun x => negb (Z.even x)) (g (val a) * 16777216)) as H. fold m in H. apply Rabs_le_inv in H. apply Rabs_le. lra.
Qed.
