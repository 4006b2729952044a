From Coq Require Import Reals Lra.
From Flocq Require Import Core.
From Verif Require Import Base PolyModel PolySpec PolyWave CornerSpec CornerProofs.
Local Open Scope R_scope.

(** * The corner and the jump without the correction *)
Definition hh (y : R) : R := fr y * fr y - fr y.
Lemma hh_in : forall n y, IZR n <= y <= IZR n + 1 -> hh y = (y - IZR n) * (y - IZR n - 1).
Proof.
  intros n y H. unfold hh. destruct (Req_dec y (IZR n + 1)) as [-> | N].
  - rewrite <- plus_IZR, fr_int, plus_IZR. ring.
  - assert (E : fr y = y - IZR n) by (unfold fr; rewrite (Zfloor_imp n y) by (rewrite plus_IZR; lra); reflexivity). rewrite E. ring.
Qed.
Lemma hh0 : forall y, 0 <= y <= 1 -> hh y = y * (y - 1).
Proof. intros y H. rewrite (hh_in 0) by lra. ring. Qed.
Lemma hh1 : forall y, 1 <= y <= 2 -> hh y = (y - 1) * (y - 2).
Proof. intros y H. rewrite (hh_in 1) by lra. ring. Qed.
Lemma corner_fr : forall dt x c, corner dt (fr x + c) = corner dt (1 * x + c).
Proof. intros dt x c. unfold corner. f_equal. symmetry. apply (fr_shift _ (Zfloor x)). unfold fr. lra. Qed.
Lemma jump_fr : forall dt x c, jump dt (fr x + c) = jump dt (1 * x + c).
Proof. intros dt x c. unfold jump. f_equal. symmetry. apply (fr_shift _ (Zfloor x)). unfold fr. lra. Qed.
Lemma corner_mod : forall dt y n, corner dt (y + IZR n) = corner dt y.
Proof. intros dt y n. unfold corner. rewrite fr_add_int. reflexivity. Qed.
Lemma fr_fr : forall z c, fr (fr z + c) = fr (z + c).
Proof. intros z c. symmetry. apply (fr_shift _ (Zfloor z)). unfold fr. lra. Qed.
Lemma blamp_at : forall dt y, 0 < dt < 1 / 2 -> dt * blamp RPops (fr y) dt = hh y - corner dt y.
Proof. intros dt y D. apply blamp_phi; [exact D | apply fr_range]. Qed.
Lemma blep_at : forall dt y, 0 < dt < 1 / 2 -> blep RPops (fr y) dt = (2 * fr y - 1) - jump dt y.
Proof. intros dt y D. apply blep_phi; [exact D | apply fr_range]. Qed.

(** Sums of corners and jumps *)
Lemma smooth_corners : forall dt k c, 0 < dt < 1 / 2 -> smooth 2 (fun x => k * corner dt (1 * x + c)).
Proof. intros dt k c D. apply (smooth_scal 2 (fun x => corner dt (1 * x + c))). apply smooth_affine. apply corner_smooth. exact D. Qed.
Lemma smooth_jumps : forall dt k c, 0 < dt < 1 / 2 -> smooth 1 (fun x => k * jump dt (1 * x + c)).
Proof. intros dt k c D. apply (smooth_scal 1 (fun x => jump dt (1 * x + c))). apply smooth_affine. apply jump_smooth. exact D. Qed.

Section Shapes.
Variable dt : R.
Hypothesis D : 0 < dt < 1 / 4.
Let D2 : 0 < dt < 1 / 2. Proof. lra. Qed.

Ltac cases := repeat match goal with |- context [Rlt_dec ?x ?y] => destruct (Rlt_dec x y); try lra | |- context [Rle_dec ?x ?y] => destruct (Rle_dec x y); try lra end.
Ltac hhs := repeat match goal with |- context [hh ?y] => first [rewrite (hh0 y) by lra | rewrite (hh1 y) by lra] end.

Lemma saw_smooth : smooth 1 (fun x => w_saw RPops (fr x) dt).
Proof.
  apply (smooth_ext 1 (fun x => 1 * jump dt (1 * x + 1 / 2))); [| apply smooth_jumps; exact D2].
  intros x. pose proof (fr_range x). unfold w_saw. unq. rewrite wrap_fr by lra. rewrite blep_at by exact D2. rewrite jump_fr. lra.
Qed.
Lemma ramp_smooth : smooth 1 (fun x => w_ramp RPops (fr x) dt).
Proof.
  apply (smooth_ext 1 (fun x => -1 * jump dt (1 * x + 0))); [| apply smooth_jumps; exact D2].
  intros x. pose proof (fr_range x). unfold w_ramp. unq. rewrite wrap_fr by lra. rewrite (fr_id (fr x)) by lra. rewrite blep_at by exact D2. rewrite !Rmult_1_l, !Rplus_0_r. lra.
Qed.
Lemma square_jumps : forall z, sq (fr z) dt = jump dt (z + 1 / 2) - jump dt z.
Proof.
  intros z. unfold sq. rewrite fr_fr, !blep_at by exact D2. pose proof (fr_range z) as F. rewrite <- (fr_fr z (1 / 2)). cases.
  - rewrite (fr_id (fr z + 1 / 2)) by lra. lra.
  - rewrite (fr_shift (fr z + 1 / 2) 1 (fr z - 1 / 2)) by lra. rewrite (fr_id (fr z - 1 / 2)) by lra. lra.
Qed.
Lemma sqr_smooth : smooth 1 (fun x => w_sqr RPops (fr x) dt).
Proof.
  apply (smooth_ext 1 (fun x => 1 * jump dt (1 * x + 1 / 2) + -1 * jump dt (1 * x + 0))); [| apply smooth_plus; apply smooth_jumps; exact D2].
  intros x. rewrite sqr_eq by apply fr_range. rewrite square_jumps. rewrite !Rmult_1_l, !Rplus_0_r. lra.
Qed.
Lemma sqr2_smooth : forall pw, width_ok pw -> smooth 1 (fun x => w_sqr2 RPops (fr x) dt pw).
Proof.
  intros pw W. set (c := 7 / 8 + 1 / 4 * (pw - 1 / 2)). set (e := c + 1 / 2 * (1 - pw)).
  apply (smooth_ext 1 (fun x => (1 / 2 * jump dt (1 * x + (c + 1 / 2)) + - (1 / 2) * jump dt (1 * x + c)) + (1 / 2 * jump dt (1 * x + (e + 1 / 2)) + - (1 / 2) * jump dt (1 * x + e)))).
  2: { repeat apply smooth_plus; apply smooth_jumps; exact D2. }
  intros x. rewrite sqr2_eq by (assumption || apply fr_range). cbv zeta. replace (fr x + 7 / 8 + 1 / 4 * (pw - 1 / 2)) with (fr x + c) by (unfold c; lra). rewrite (fr_fr (fr x + c)).
  replace (fr x + c + 1 / 2 * (1 - pw)) with (fr x + e) by (unfold e; lra). rewrite !square_jumps. rewrite !Rplus_assoc, !jump_fr. lra.
Qed.
Lemma rect_smooth : forall pw, width_ok pw -> smooth 1 (fun x => w_rect RPops (fr x) dt pw).
Proof.
  intros pw [W1 W2]. apply (smooth_ext 1 (fun x => 1 * jump dt (1 * x + (1 - pw)) + -1 * jump dt (1 * x + 0))); [| apply smooth_plus; apply smooth_jumps; exact D2].
  intros x. pose proof (fr_range x) as F. unfold w_rect. unq. rewrite wrap_fr by lra. rewrite !blep_at by exact D2. replace (fr x + 1 - pw) with (fr x + (1 - pw)) by lra. rewrite jump_fr.
  rewrite !Rmult_1_l, Rplus_0_r. unfold Rltb. cases.
  - rewrite (fr_id (fr x + (1 - pw))) by lra. lra.
  - rewrite (fr_shift (fr x + (1 - pw)) 1 (fr x - pw)) by lra. rewrite (fr_id (fr x - pw)) by lra. lra.
Qed.

Lemma tri_smooth : smooth 2 (fun x => w_tri RPops (fr x) dt).
Proof.
  apply (smooth_ext 2 (fun x => -4 * corner dt (1 * x + 1 / 4) + 4 * corner dt (1 * x + 3 / 4))); [| apply smooth_plus; apply smooth_corners; exact D2].
  intros x. pose proof (fr_range x) as F. unfold w_tri. unq. rewrite !wrap_fr by lra. rewrite Rmult_assoc. rewrite (Rmult_minus_distr_l dt), !blamp_at by exact D2. rewrite !corner_fr.
  rewrite (Rmult_comm (fr x) 4). destruct (Rle_dec (fr x) (1 / 4)); [| destruct (Rle_dec (fr x) (3 / 4))].
  - rewrite fold_up by lra. hhs. lra.
  - rewrite fold_down by lra. hhs. lra.
  - rewrite fold_back by lra. hhs. lra.
Qed.
Lemma trapezoid_corners : forall q t, 0 < q <= 1 / 4 -> 0 <= t < 1 ->
  trapezoid q t + (hh (t + q) - hh (t + (q + 1 / 2)) + hh (t + (1 / 2 - q)) - hh (t + (1 - q))) / (2 * q) = 0.
Proof.
  intros q t Q T. assert (C : t <= q \/ q <= t <= 1 / 2 - q \/ 1 / 2 - q <= t <= 1 / 2 + q \/ 1 / 2 + q <= t <= 1 - q \/ 1 - q <= t) by lra.
  destruct C as [C | [C | [C | [C | C]]]].
  - rewrite trapezoid_up by lra. hhs. field. lra.
  - rewrite trapezoid_top by lra. hhs. field. lra.
  - rewrite trapezoid_down by lra. hhs. field. lra.
  - rewrite trapezoid_bottom by lra. hhs. field. lra.
  - rewrite trapezoid_back by lra. hhs. field. lra.
Qed.
Lemma trap_sum : forall q, 0 < q <= 1 / 4 -> smooth 2 (fun x => trapezoid q (fr x) + (dt * blamp RPops (fr (fr x + q)) dt - dt * blamp RPops (fr (fr x + (q + 1 / 2))) dt
  + dt * blamp RPops (fr (fr x + (1 / 2 - q))) dt - dt * blamp RPops (fr (fr x + (1 - q))) dt) / (2 * q)).
Proof.
  intros q Q. set (k := / (2 * q)). apply (smooth_ext 2 (fun x => ((- k) * corner dt (1 * x + q) + k * corner dt (1 * x + (q + 1 / 2))) + ((- k) * corner dt (1 * x + (1 / 2 - q)) + k * corner dt (1 * x + (1 - q))))).
  2: { repeat apply smooth_plus; apply smooth_corners; exact D2. }
  intros x. pose proof (trapezoid_corners q (fr x) Q (fr_range x)) as E. rewrite !blamp_at by exact D2. rewrite !corner_fr. unfold Rdiv in *. fold k in E |- *.
  assert (E' : trapezoid q (fr x) = - ((hh (fr x + q) - hh (fr x + (q + 1 * / 2)) + hh (fr x + (1 * / 2 - q)) - hh (fr x + (1 - q))) * k)) by lra. rewrite E'. ring.
Qed.
Lemma trap_smooth : smooth 2 (fun x => w_trap RPops (fr x) dt).
Proof.
  eapply smooth_ext; [| apply (trap_sum (1 / 8)); lra]. intros x. pose proof (fr_range x) as F. unfold w_trap. unq. rewrite !(wrap_fr (fr x + _)) by lra. pose proof (fr_range (fr x + 1 / 8)). pose proof (fr_range (fr x + 3 / 8)).
  rewrite !wrap_fr by lra. rewrite !(fr_fr (fr x + _)). rewrite !Rplus_assoc. replace (1 / 2 - 1 / 8) with (3 / 8) by lra. replace (1 - 1 / 8) with (3 / 8 + 1 / 2) by lra.
  unfold trapezoid. replace (1 / (4 * (1 / 8))) with 2 by lra. replace (- (1)) with (-1) by lra. lra.
Qed.
Lemma trap2_smooth : forall pw, width_ok pw -> smooth 2 (fun x => w_trap2 RPops (fr x) dt pw).
Proof.
  intros pw W. destruct (min_cap pw W) as (p & Ep & P). set (q := (1 - p) / 4). assert (Q : 0 < q <= 1 / 4) by (unfold q; lra).
  eapply smooth_ext; [| apply (trap_sum q Q)]. intros x. pose proof (fr_range x) as F. unfold w_trap2. unq. rewrite Ep. replace (1 - p) with (4 * q) by (unfold q; lra).
  replace (fr x + 1 / 4 - 1 / 4 * p) with (fr x + q) by (unfold q; lra). replace (fr x + 1 / 4 + 1 / 4 * p) with (fr x + (1 / 2 - q)) by (unfold q; lra).
  rewrite !(wrap_fr (fr x + _)) by lra. pose proof (fr_range (fr x + q)). pose proof (fr_range (fr x + (1 / 2 - q))). rewrite !wrap_fr by lra. rewrite !(fr_fr (fr x + _)). rewrite !Rplus_assoc.
  replace (1 / 2 - q + 1 / 2) with (1 - q) by lra. replace (- (1)) with (-1) by lra. unfold trapezoid. field. lra.
Qed.
Lemma tri2_smooth : forall pw, width_ok pw -> smooth 2 (fun x => w_tri2 RPops (fr x) dt pw).
Proof.
  intros pw W. destruct (min_cap pw W) as (p0 & E0 & P0).
  assert (M : exists p, maxf RPops p0 (1 / 10000) = p /\ 1 / 10000 <= p <= 9999 / 10000).
  { eexists. split; [reflexivity |]. unfold maxf. unq. unfold Rltb, Reqb. destruct (Rlt_dec (1 / 10000) p0); [lra |]. destruct (Req_EM_T _ _); lra. }
  destruct M as (p & Ep & P). set (k := / (p - p * p)). assert (Kp : 0 < p - p * p) by nra.
  apply (smooth_ext 2 (fun x => (- k) * corner dt (1 * x + 1 / 2 * p) + k * corner dt (1 * x + (1 - 1 / 2 * p)))); [| apply smooth_plus; apply smooth_corners; exact D2].
  intros x. pose proof (fr_range x) as F. unfold w_tri2. unq. rewrite E0, Ep. replace (fr x + 1 - 1 / 2 * p) with (fr x + (1 - 1 / 2 * p)) by lra. rewrite !wrap_fr by lra.
  set (b1 := blamp RPops (fr (fr x + 1 / 2 * p)) dt). set (b2 := blamp RPops (fr (fr x + (1 - 1 / 2 * p))) dt).
  replace (dt / (p - p * p) * (b1 - b2)) with (k * (dt * b1 - dt * b2)) by (unfold k; field; nra). unfold b1, b2. rewrite !blamp_at by exact D2. rewrite !corner_fr. unfold Rleb.
  assert (H1 : 1 - p <> 0) by lra. assert (H2 : p <> 0) by lra. assert (H3 : p - p * p <> 0) by lra.
  destruct (Rle_dec (2 - p) (fr x * 2)) as [A | A]; [| destruct (Rle_dec p (fr x * 2)) as [B | B]]; hhs; unfold k; field; repeat split; assumption.
Qed.
Lemma trip_smooth : forall pw, width_ok pw -> smooth 2 (fun x => w_trip RPops (fr x) dt pw).
Proof.
  intros p [W1 W2]. destruct (Rlt_dec 0 p) as [P | P].
  2: { apply (smooth_ext 2 (fun _ => - p)); [| apply smooth_const]. intros x. pose proof (fr_range x) as F. unfold w_trip. unq. rewrite wrap_fr by lra. pose proof (fr_range (fr x + 3 / 4 + 1 / 2 * p)). unfold Rleb, Rltb. cases. }
  set (k := 2 / p). set (c := 3 / 4 + 1 / 2 * p).
  apply (smooth_ext 2 (fun x => (- k) * corner dt (1 * x + c) + ((2 * k) * corner dt (1 * x + (c - 1 / 2 * p)) + (- k) * corner dt (1 * x + (c - p)))));
    [| repeat apply smooth_plus; apply smooth_corners; exact D2].
  intros x. pose proof (fr_range x) as F. unfold w_trip. unq. replace (fr x + 3 / 4 + 1 / 2 * p) with (fr x + c) by (unfold c; lra). assert (0 <= c) by (unfold c; lra). rewrite (wrap_fr (fr x + c)) by lra.
  rewrite <- !corner_fr. replace (corner dt (fr x + c)) with (corner dt (fr (fr x + c) + 0)) by (rewrite corner_fr; f_equal; lra).
  replace (corner dt (fr x + (c - 1 / 2 * p))) with (corner dt (fr (fr x + c) + (1 - 1 / 2 * p))) by (rewrite corner_fr; rewrite <- (corner_mod dt (fr x + (c - 1 / 2 * p)) 1); f_equal; lra).
  replace (corner dt (fr x + (c - p))) with (corner dt (fr (fr x + c) + (1 - p))) by (rewrite corner_fr; rewrite <- (corner_mod dt (fr x + (c - p)) 1); f_equal; lra).
  pose proof (fr_range (fr x + c)) as G. set (t := fr (fr x + c)) in *. clearbody t. replace (t + 1 - 1 / 2 * p) with (t + (1 - 1 / 2 * p)) by lra. replace (t + 1 - p) with (t + (1 - p)) by lra. rewrite !wrap_fr by lra.
  unfold Rltb. destruct (Rlt_dec 0 p) as [_ |]; [| lra]. pose proof (blamp_at dt (t + 0) D2) as B1. rewrite (fr_id (t + 0)) in B1 by lra. rewrite Rplus_0_r in B1 at 1.
  pose proof (blamp_at dt (t + (1 - 1 / 2 * p)) D2) as B2. pose proof (blamp_at dt (t + (1 - p)) D2) as B3.
  set (b1 := blamp RPops t dt) in *. set (b2 := blamp RPops (fr (t + (1 - 1 / 2 * p))) dt) in *. set (b3 := blamp RPops (fr (t + (1 - p))) dt) in *.
  replace (2 * dt / p * (b1 - 2 * b2 + b3)) with (k * (dt * b1 - 2 * (dt * b2) + dt * b3)) by (unfold k; field; lra). rewrite B1, B2, B3. unfold Rleb.
  destruct (Rle_dec p t) as [A | A]; [| destruct (Rle_dec (2 * p) (4 * t)) as [B | B]]; hhs; unfold k; field; lra.
Qed.

(** * The sines *)
Lemma sine_der : forall a x, derivable_pt_lim (fun t => sin (a * t)) x (a * cos (a * x)).
Proof.
  intros a x. eapply der_ext; [intros y; reflexivity | | apply (derivable_pt_lim_comp (fun t => a * t) sin x (a * 1) (cos (a * x)))]; [ring | | apply derivable_pt_lim_sin].
  apply (derivable_pt_lim_scal id a). apply derivable_pt_lim_id.
Qed.
Lemma cosine_der : forall a x, derivable_pt_lim (fun t => cos (a * t)) x (- a * sin (a * x)).
Proof.
  intros a x. eapply der_ext; [intros y; reflexivity | | apply (derivable_pt_lim_comp (fun t => a * t) cos x (a * 1) (- sin (a * x)))]; [ring | | apply derivable_pt_lim_cos].
  apply (derivable_pt_lim_scal id a). apply derivable_pt_lim_id.
Qed.
Lemma sine_cont : forall a, continuity (fun t => sin (a * t)).
Proof. intros a x. apply derivable_continuous_pt. eexists. apply sine_der. Qed.
Lemma cosine_cont : forall a, continuity (fun t => cos (a * t)).
Proof. intros a x. apply derivable_continuous_pt. eexists. apply cosine_der. Qed.
Lemma sin_turn : sin (2 * PI * 1) = 0 /\ cos (2 * PI * 1) = 1.
Proof. rewrite Rmult_1_r. split; [apply sin_2PI | apply cos_2PI]. Qed.
Lemma circle_sine : smooth 2 (fun x => sin (2 * PI * fr x)).
Proof.
  destruct sin_turn as [S1 C1]. exists (fun x => 2 * PI * cos (2 * PI * fr x)). split.
  - intros x. apply (around_der (fun t => sin (2 * PI * t)) (fun t => 2 * PI * cos (2 * PI * t))); [intros y; apply sine_der | rewrite S1, Rmult_0_r, sin_0; reflexivity | rewrite C1, Rmult_0_r, cos_0; reflexivity].
  - apply (smooth_scal 1 (fun x => cos (2 * PI * fr x))). exists (fun x => - (2 * PI) * sin (2 * PI * fr x)). split.
    + intros x. apply (around_der (fun t => cos (2 * PI * t)) (fun t => - (2 * PI) * sin (2 * PI * t))); [intros y; apply cosine_der | rewrite C1, Rmult_0_r, cos_0; reflexivity | rewrite S1, Rmult_0_r, sin_0; reflexivity].
    + apply (smooth_scal 0 (fun x => sin (2 * PI * fr x))). apply (around_cont (fun t => sin (2 * PI * t))); [apply sine_cont | rewrite S1, Rmult_0_r, sin_0; reflexivity].
Qed.
Lemma circle_cosine : smooth 2 (fun x => cos (2 * PI * fr x)).
Proof.
  destruct sin_turn as [S1 C1]. exists (fun x => - (2 * PI) * sin (2 * PI * fr x)). split.
  - intros x. apply (around_der (fun t => cos (2 * PI * t)) (fun t => - (2 * PI) * sin (2 * PI * t))); [intros y; apply cosine_der | rewrite C1, Rmult_0_r, cos_0; reflexivity | rewrite S1, Rmult_0_r, sin_0; reflexivity].
  - apply (smooth_scal 1 (fun x => sin (2 * PI * fr x))). exists (fun x => 2 * PI * cos (2 * PI * fr x)). split.
    + intros x. apply (around_der (fun t => sin (2 * PI * t)) (fun t => 2 * PI * cos (2 * PI * t))); [intros y; apply sine_der | rewrite S1, Rmult_0_r, sin_0; reflexivity | rewrite C1, Rmult_0_r, cos_0; reflexivity].
    + apply (smooth_scal 0 (fun x => cos (2 * PI * fr x))). apply (around_cont (fun t => cos (2 * PI * t))); [apply cosine_cont | rewrite C1, Rmult_0_r, cos_0; reflexivity].
Qed.
(** Half a turn of the sine, with its corner taken away *)
Definition arch (x : R) : R := sin (PI * fr x) + (PI * (fr x * fr x) + (- PI) * fr x).
Lemma arch_smooth : smooth 2 arch.
Proof.
  assert (Sp : sin (PI * 1) = 0) by (rewrite Rmult_1_r; apply sin_PI). assert (Cp : cos (PI * 1) = -1) by (rewrite Rmult_1_r; apply cos_PI).
  exists (fun x => PI * cos (PI * fr x) + (2 * PI * fr x + - PI)). split.
  - intros x. apply (around_der (fun t => sin (PI * t) + (PI * (t * t) + (- PI) * t)) (fun t => PI * cos (PI * t) + (2 * PI * t + - PI))).
    + intros y. apply (derivable_pt_lim_plus (fun t => sin (PI * t)) (fun t => PI * (t * t) + (- PI) * t)); [apply sine_der | apply square_der].
    + rewrite Sp, Rmult_0_r, sin_0. ring.
    + rewrite Cp, Rmult_0_r, cos_0. ring.
  - exists (fun x => PI * (- PI * sin (PI * fr x)) + 2 * PI). split.
    + intros x. apply (around_der (fun t => PI * cos (PI * t) + (2 * PI * t + - PI)) (fun t => PI * (- PI * sin (PI * t)) + 2 * PI)).
      * intros y. apply (derivable_pt_lim_plus (fun t => PI * cos (PI * t)) (fun t => 2 * PI * t + - PI)); [apply (derivable_pt_lim_scal (fun t => cos (PI * t)) PI); apply cosine_der | apply affine_der].
      * rewrite Cp, Rmult_0_r, cos_0. ring.
      * rewrite Sp, Rmult_0_r, sin_0. ring.
    + apply (around_cont (fun t => PI * (- PI * sin (PI * t)) + 2 * PI)); [| rewrite Sp, Rmult_0_r, sin_0; ring].
      apply (smooth_plus 0 (fun t => PI * (- PI * sin (PI * t))) (fun _ => 2 * PI)); [| apply (smooth_const 0)]. apply (smooth_scal 0). apply (smooth_scal 0 (fun t => sin (PI * t))). exact (sine_cont PI).
Qed.
Lemma full_smooth : smooth 2 (fun x => w_full RPops (fr x) dt).
Proof.
  apply (smooth_ext 2 (fun x => 2 * arch (1 * x + 1 / 4) + ((- (2 * PI)) * corner dt (1 * x + 1 / 4) + - (4 / PI)))).
  2: { apply smooth_plus; [apply (smooth_scal 2 (fun x => arch (1 * x + 1 / 4))); apply smooth_affine; exact arch_smooth | apply smooth_plus; [apply smooth_corners; exact D2 | apply smooth_const]]. }
  intros x. pose proof (fr_range x) as F. unfold w_full. unq. rewrite !wrap_fr by lra. rewrite (Rmult_assoc (2 * PI) dt), blamp_at by exact D2. rewrite corner_fr. unfold hh, arch. rewrite fr_fr. rewrite (Rmult_1_l x).
  rewrite (Rmult_comm (fr (x + 1 / 4)) PI). ring.
Qed.
Lemma half_smooth : smooth 2 (fun x => w_half RPops (fr x) dt).
Proof.
  apply (smooth_ext 2 (fun x => sin (2 * PI * fr x) + (arch (2 * x + 0) + ((- (2 * PI)) * corner dt (1 * x + 0) + ((- (2 * PI)) * corner dt (1 * x + 1 / 2) + (- (2 / PI) - PI / 2)))))).
  2: { apply smooth_plus; [exact circle_sine |]. apply smooth_plus; [apply smooth_affine; exact arch_smooth |]. repeat apply smooth_plus; try (apply smooth_corners; exact D2). all: apply smooth_const. }
  intros x. pose proof (fr_range x) as F. unfold w_half. unq. rewrite !wrap_fr by lra. rewrite (Rmult_assoc (2 * PI) dt), Rmult_plus_distr_l. rewrite !blamp_at by exact D2.
  rewrite !Rmult_1_l, !Rplus_0_r. rewrite (corner_fr dt x (1 / 2)). rewrite Rmult_1_l. unfold arch. assert (hh x = fr x * (fr x - 1)) as -> by (unfold hh; ring). unfold Rltb.
  destruct (Rlt_dec (fr x) (1 / 2)) as [L | L].
  - assert (E : fr (2 * x) = 2 * fr x) by (rewrite (fr_shift (2 * x) (2 * Zfloor x) (2 * fr x)) by (rewrite mult_IZR; unfold fr; lra); apply fr_id; lra). rewrite E. hhs.
    replace (PI * (2 * fr x)) with (fr x * (2 * PI)) by ring. rewrite (Rmult_comm (2 * PI) (fr x)). field. apply PI_neq0.
  - assert (E : fr (2 * x) = 2 * fr x - 1) by (rewrite (fr_shift (2 * x) (2 * Zfloor x + 1) (2 * fr x - 1)) by (rewrite plus_IZR, mult_IZR; unfold fr; lra); apply fr_id; lra). rewrite E. hhs.
    replace (sin (PI * (2 * fr x - 1))) with (- sin (2 * PI * fr x)). { field. apply PI_neq0. }
    replace (PI * (2 * fr x - 1)) with (- (PI - 2 * PI * fr x)) by ring. rewrite sin_neg, sin_PI_x. reflexivity.
Qed.
End Shapes.
