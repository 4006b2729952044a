From Coq Require Import Reals Lra.
From Flocq Require Import Core.
From Verif Require Import Base PolyModel PolySpec PolyWave CornerSpec.
Local Open Scope R_scope.

(** * Smooth functions *)
Lemma smooth_ext : forall n f g, (forall x, f x = g x) -> smooth n f -> smooth n g.
Proof.
  induction n as [| n IH]; intros f g E H.
  - cbn in *. intros x. intros e He. destruct (H x e He) as (a & Ha & P). exists a. split; [exact Ha |]. intros y Hy. rewrite <- !E. apply P. exact Hy.
  - destruct H as (d & D & C). exists d. split; [| exact C]. intros x e He. destruct (D x e He) as (a & P). exists a. intros h H1 H2. rewrite <- !E. apply P; assumption.
Qed.
Lemma smooth_plus : forall n f g, smooth n f -> smooth n g -> smooth n (fun x => f x + g x).
Proof.
  induction n as [| n IH]; intros f g F G; cbn in *; [apply continuity_plus; assumption |].
  destruct F as (d & D & C), G as (e & E & C'). exists (fun x => d x + e x). split; [| apply IH; assumption]. intros x. apply (derivable_pt_lim_plus f g); [apply D | apply E].
Qed.
Lemma smooth_scal : forall n f k, smooth n f -> smooth n (fun x => k * f x).
Proof.
  induction n as [| n IH]; intros f k F; cbn in *; [apply (continuity_scal f k F) |].
  destruct F as (d & D & C). exists (fun x => k * d x). split; [| apply IH; assumption]. intros x. apply (derivable_pt_lim_scal f k). apply D.
Qed.
Lemma smooth_const : forall n k, smooth n (fun _ => k).
Proof.
  induction n as [| n IH]; intros k; cbn; [apply continuity_const; intros x y; reflexivity |].
  exists (fun _ => 0). split; [| apply IH]. intros x. apply derivable_pt_lim_const.
Qed.
Lemma der_ext : forall f g x d e, (forall y, f y = g y) -> d = e -> derivable_pt_lim f x d -> derivable_pt_lim g x e.
Proof. intros f g x d e E -> H eps He. destruct (H eps He) as (a & P). exists a. intros h H1 H2. rewrite <- !E. apply P; assumption. Qed.
Lemma affine_der : forall a c x, derivable_pt_lim (fun x => a * x + c) x a.
Proof.
  intros a c x. apply (der_ext (fun x => a * x + c) _ x (a * 1 + 0)); [reflexivity | ring |]. apply (derivable_pt_lim_plus (fun x => a * x) (fun _ => c)); [apply (derivable_pt_lim_scal id a); apply derivable_pt_lim_id | apply derivable_pt_lim_const].
Qed.
Lemma smooth_affine : forall n f a c, smooth n f -> smooth n (fun x => f (a * x + c)).
Proof.
  induction n as [| n IH]; intros f a c F; cbn in *.
  - apply (continuity_comp (fun x => a * x + c) f); [| exact F]. intros x. apply derivable_continuous_pt. exists a. apply affine_der.
  - destruct F as (d & D & C). exists (fun x => a * d (a * x + c)). split; [| apply (smooth_scal n (fun x => d (a * x + c))); apply IH; exact C].
    intros x. rewrite Rmult_comm. apply (derivable_pt_lim_comp (fun x => a * x + c) f); [apply affine_der | apply D].
Qed.

(** * Gluing *)
Lemma glue_der : forall f l r x d a, 0 < a -> derivable_pt_lim l x d -> derivable_pt_lim r x d ->
  (forall y, x - a < y <= x -> f y = l y) -> (forall y, x <= y < x + a -> f y = r y) -> derivable_pt_lim f x d.
Proof.
  intros f l r x d a Ha L R Fl Fr e He. destruct (L e He) as [b Hb]. destruct (R e He) as [c Hc]. pose proof (cond_pos b). pose proof (cond_pos c).
  assert (P : 0 < Rmin a (Rmin b c)) by (repeat apply Rmin_glb_lt; assumption). exists (mkposreal _ P). intros h H1 H2. cbn in H2.
  assert (Rabs h < a) by (eapply Rlt_le_trans; [exact H2 | apply Rmin_l]). assert (Rabs h < b) by (eapply Rlt_le_trans; [exact H2 | eapply Rle_trans; [apply Rmin_r | apply Rmin_l]]).
  assert (Rabs h < c) by (eapply Rlt_le_trans; [exact H2 | eapply Rle_trans; [apply Rmin_r | apply Rmin_r]]). pose proof (Rabs_def2 h a H3) as [B1 B2].
  destruct (Rle_dec 0 h) as [S | S]; [rewrite !Fr by lra; apply Hc; assumption | rewrite !Fl by lra; apply Hb; assumption].
Qed.
Lemma glue_cont : forall f l r x a, 0 < a -> continuity_pt l x -> continuity_pt r x ->
  (forall y, x - a < y <= x -> f y = l y) -> (forall y, x <= y < x + a -> f y = r y) -> continuity_pt f x.
Proof.
  intros f l r x a Ha L R Fl Fr e He. destruct (L e He) as (b & Hb & Pb). destruct (R e He) as (c & Hc & Pc).
  exists (Rmin a (Rmin b c)). split; [repeat apply Rmin_glb_lt; assumption |]. intros y [H1 H2]. cbn in *. unfold R_dist in *.
  assert (Rabs (y - x) < a) by (eapply Rlt_le_trans; [exact H2 | apply Rmin_l]). assert (Rabs (y - x) < b) by (eapply Rlt_le_trans; [exact H2 | eapply Rle_trans; [apply Rmin_r | apply Rmin_l]]).
  assert (Rabs (y - x) < c) by (eapply Rlt_le_trans; [exact H2 | eapply Rle_trans; [apply Rmin_r | apply Rmin_r]]). pose proof (Rabs_def2 (y - x) a H) as [B1 B2].
  destruct (Rle_dec x y) as [S | S]; [rewrite !Fr by lra; apply Pc; split; assumption | rewrite !Fl by lra; apply Pb; split; assumption].
Qed.
Lemma shift_der : forall f x d c, derivable_pt_lim f (x + c) d -> derivable_pt_lim (fun y => f (y + c)) x d.
Proof.
  intros f x d c H. replace d with (d * 1) by ring. apply (derivable_pt_lim_comp (fun y => y + c) f); [| exact H].
  replace 1 with (1 + 0) by ring. apply (derivable_pt_lim_plus id (fun _ => c)); [apply derivable_pt_lim_id | apply derivable_pt_lim_const].
Qed.
Lemma shift_cont : forall f x c, continuity_pt f (x + c) -> continuity_pt (fun y => f (y + c)) x.
Proof.
  intros f x c H. apply (continuity_pt_comp (fun y => y + c) f); [| exact H]. apply derivable_continuous_pt. exists (1 + 0).
  apply (derivable_pt_lim_plus id (fun _ => c)); [apply derivable_pt_lim_id | apply derivable_pt_lim_const].
Qed.
(** The fractional part near a point *)
Lemma fr_near : forall x, exists n a, 0 < a /\ ((x <> IZR n /\ forall y, x - a < y < x + a -> fr y = y + IZR (- n)) \/
  (x = IZR n /\ (forall y, x - a < y < x -> fr y = y + IZR (- (n - 1))) /\ (forall y, x <= y < x + a -> fr y = y + IZR (- n)))).
Proof.
  intros x. exists (Zfloor x). pose proof (Zfloor_lb x) as A. pose proof (Zfloor_ub x) as B.
  assert (G : forall y n, IZR n <= y < IZR n + 1 -> fr y = y + IZR (- n)). { intros y n H. unfold fr. rewrite (Zfloor_imp n y) by (rewrite plus_IZR; exact H). rewrite opp_IZR. ring. }
  destruct (Req_dec x (IZR (Zfloor x))) as [E | E].
  - exists 1. split; [lra |]. right. split; [exact E |]. split; intros y Hy; apply G; rewrite ?minus_IZR; lra.
  - exists (Rmin (x - IZR (Zfloor x)) (IZR (Zfloor x) + 1 - x)). split; [apply Rmin_glb_lt; lra |]. left. split; [exact E |]. intros y Hy. apply G.
    pose proof (Rmin_l (x - IZR (Zfloor x)) (IZR (Zfloor x) + 1 - x)). pose proof (Rmin_r (x - IZR (Zfloor x)) (IZR (Zfloor x) + 1 - x)). lra.
Qed.
Lemma fr_int : forall n, fr (IZR n) = 0.
Proof. intros n. unfold fr. rewrite Zfloor_IZR. ring. Qed.
(** Going around the circle *)
Lemma around_der : forall p d, (forall x, derivable_pt_lim p x (d x)) -> p 0 = p 1 -> d 0 = d 1 -> forall x, derivable_pt_lim (fun y => p (fr y)) x (d (fr x)).
Proof.
  intros p d D P0 D0 x. destruct (fr_near x) as (n & a & Ha & [[_ N] | (E & L & R)]).
  - assert (Ex : fr x = x + IZR (- n)) by (apply N; lra).
    apply (glue_der _ (fun y => p (y + IZR (- n))) (fun y => p (y + IZR (- n))) x _ a Ha); [apply shift_der; rewrite Ex; apply D | apply shift_der; rewrite Ex; apply D | |]; intros y Hy; rewrite N by lra; reflexivity.
  - assert (Ex : fr x = 0) by (rewrite E; apply fr_int). rewrite Ex.
    apply (glue_der _ (fun y => p (y + IZR (- (n - 1)))) (fun y => p (y + IZR (- n))) x _ a Ha).
    + apply shift_der. replace (x + IZR (- (n - 1))) with 1 by (rewrite E, opp_IZR, minus_IZR; ring). rewrite D0. apply D.
    + apply shift_der. replace (x + IZR (- n)) with 0 by (rewrite E, opp_IZR; ring). apply D.
    + intros y Hy. destruct (Req_dec y x) as [-> | Ny]; [rewrite Ex, P0; f_equal; rewrite E, opp_IZR, minus_IZR; ring | rewrite L by lra; reflexivity].
    + intros y Hy. rewrite R by lra. reflexivity.
Qed.
Lemma around_cont : forall p, continuity p -> p 0 = p 1 -> continuity (fun y => p (fr y)).
Proof.
  intros p D P0 x. destruct (fr_near x) as (n & a & Ha & [[_ N] | (E & L & R)]).
  - apply (glue_cont _ (fun y => p (y + IZR (- n))) (fun y => p (y + IZR (- n))) x a Ha); [apply shift_cont; apply D | apply shift_cont; apply D | |]; intros y Hy; rewrite N by lra; reflexivity.
  - assert (Ex : fr x = 0) by (rewrite E; apply fr_int).
    apply (glue_cont _ (fun y => p (y + IZR (- (n - 1)))) (fun y => p (y + IZR (- n))) x a Ha); [apply shift_cont; apply D | apply shift_cont; apply D | |].
    + intros y Hy. destruct (Req_dec y x) as [-> | Ny]; [rewrite Ex, P0; f_equal; rewrite E, opp_IZR, minus_IZR; ring | rewrite L by lra; reflexivity].
    + intros y Hy. rewrite R by lra. reflexivity.
Qed.

(** * Cut-off powers *)
Definition pos (x : R) : R := Rmax 0 x.
Lemma pos_in : forall x, 0 <= x -> pos x = x. Proof. intros x H. apply Rmax_right. exact H. Qed.
Lemma pos_out : forall x, x <= 0 -> pos x = 0. Proof. intros x H. apply Rmax_left. exact H. Qed.
Lemma pos_cont : continuity pos.
Proof.
  intros x e He. exists e. split; [exact He |]. intros y [_ H]. cbn in *. unfold R_dist in *. unfold pos, Rmax. destruct (Rle_dec 0 y), (Rle_dec 0 x); try lra; apply Rabs_def2 in H; apply Rabs_def1; lra.
Qed.
Lemma pow_pos_der : forall n x, derivable_pt_lim (fun y => pos y ^ S (S n)) x (INR (S (S n)) * pos x ^ S n).
Proof.
  intros n x. destruct (Rtotal_order x 0) as [H | [H | H]].
  - apply (glue_der _ (fun _ => 0) (fun _ => 0) x _ (- x)); [lra | | | |].
    1, 2: rewrite pos_out by lra; rewrite pow_i by lia; rewrite Rmult_0_r; apply derivable_pt_lim_const.
    all: intros y Hy; rewrite pos_out by lra; apply pow_i; lia.
  - subst x. rewrite pos_out by lra. apply (glue_der _ (fun _ => 0) (fun y => y ^ S (S n)) 0 _ 1); [lra | | | |].
    + rewrite pow_i by lia. rewrite Rmult_0_r. apply derivable_pt_lim_const.
    + apply (derivable_pt_lim_pow 0 (S (S n))).
    + intros y Hy. rewrite pos_out by lra. apply pow_i; lia.
    + intros y Hy. rewrite pos_in by lra. reflexivity.
  - rewrite pos_in by lra. apply (glue_der _ (fun y => y ^ S (S n)) (fun y => y ^ S (S n)) x _ x); [lra | | | |].
    1, 2: apply (derivable_pt_lim_pow x (S (S n))).
    all: intros y Hy; rewrite pos_in by lra; reflexivity.
Qed.

(** * One corrected corner; its derivatives are one corrected jump and a hat *)
Definition phi (dt t : R) : R := (t * t - t) - / (3 * dt ^ 2) * (pos (- t + dt) ^ 3 + pos (t + (dt - 1)) ^ 3).
Definition phi1 (dt t : R) : R := (2 * t - 1) - / dt ^ 2 * (pos (t + (dt - 1)) ^ 2 - pos (- t + dt) ^ 2).
Definition phi2 (dt t : R) : R := 2 - 2 / dt ^ 2 * (pos (t + (dt - 1)) + pos (- t + dt)).
Lemma pow_pos_at : forall n a c x, derivable_pt_lim (fun y => pos (a * y + c) ^ S (S n)) x (INR (S (S n)) * pos (a * x + c) ^ S n * a).
Proof. intros n a c x. apply (derivable_pt_lim_comp (fun y => a * y + c) (fun y => pos y ^ S (S n))); [apply affine_der | apply pow_pos_der]. Qed.
Lemma square_der : forall a b x, derivable_pt_lim (fun t => a * (t * t) + b * t) x (2 * a * x + b).
Proof.
  intros a b x. eapply (der_ext (fun t => a * (t * t) + b * t) _ x (a * (1 * x + x * 1) + b * 1)); [reflexivity | ring |].
  apply (derivable_pt_lim_plus (fun t => a * (t * t)) (fun t => b * t)); [apply (derivable_pt_lim_scal (fun t => t * t) a); apply (derivable_pt_lim_mult id id); apply derivable_pt_lim_id | apply (derivable_pt_lim_scal id b); apply derivable_pt_lim_id].
Qed.
Lemma two_pows : forall n a b dt x, derivable_pt_lim (fun t => a * pos (-1 * t + dt) ^ S (S n) + b * pos (1 * t + (dt - 1)) ^ S (S n)) x
  (INR (S (S n)) * (b * pos (1 * x + (dt - 1)) ^ S n - a * pos (-1 * x + dt) ^ S n)).
Proof.
  intros n a b dt x. eapply der_ext; [intros y; reflexivity | |].
  2: { apply (derivable_pt_lim_plus (fun t => a * pos (-1 * t + dt) ^ S (S n)) (fun t => b * pos (1 * t + (dt - 1)) ^ S (S n)));
       [apply (derivable_pt_lim_scal (fun t => pos (-1 * t + dt) ^ S (S n)) a); apply pow_pos_at | apply (derivable_pt_lim_scal (fun t => pos (1 * t + (dt - 1)) ^ S (S n)) b); apply pow_pos_at]. }
  ring.
Qed.
Lemma phi_der : forall dt, 0 < dt -> forall x, derivable_pt_lim (phi dt) x (phi1 dt x).
Proof.
  intros dt D x. eapply der_ext; [| | apply (derivable_pt_lim_plus _ _ x _ _ (square_der 1 (-1) x) (two_pows 1 (- / (3 * dt ^ 2)) (- / (3 * dt ^ 2)) dt x))].
  - intros y. unfold plus_fct, phi. replace (-1 * y + dt) with (- y + dt) by ring. replace (1 * y + (dt - 1)) with (y + (dt - 1)) by ring. ring.
  - unfold phi1. replace (-1 * x + dt) with (- x + dt) by ring. replace (1 * x + (dt - 1)) with (x + (dt - 1)) by ring. cbn [INR]. field. lra.
Qed.
Lemma phi1_der : forall dt, 0 < dt -> forall x, derivable_pt_lim (phi1 dt) x (phi2 dt x).
Proof.
  intros dt D x. eapply der_ext; [| | apply (derivable_pt_lim_plus _ _ x _ _ (affine_der 2 (-1) x) (two_pows 0 (/ dt ^ 2) (- / dt ^ 2) dt x))].
  - intros y. unfold plus_fct, phi1. replace (-1 * y + dt) with (- y + dt) by ring. replace (1 * y + (dt - 1)) with (y + (dt - 1)) by ring. ring.
  - unfold phi2. replace (-1 * x + dt) with (- x + dt) by ring. replace (1 * x + (dt - 1)) with (x + (dt - 1)) by ring. cbn [INR]. field. lra.
Qed.
Lemma phi2_cont : forall dt, continuity (phi2 dt).
Proof.
  intros dt. apply (smooth_ext 0 (fun t => 2 + (- (2 / dt ^ 2)) * (pos (1 * t + (dt - 1)) + pos (-1 * t + dt)))).
  { intros x. unfold phi2. replace (-1 * x + dt) with (- x + dt) by ring. replace (1 * x + (dt - 1)) with (x + (dt - 1)) by ring. ring. }
  apply (smooth_plus 0); [apply (smooth_const 0) |]. apply (smooth_scal 0). apply (smooth_plus 0); apply (smooth_affine 0); exact pos_cont.
Qed.
Lemma phi_ends : forall dt, 0 < dt < 1 / 2 -> phi dt 0 = phi dt 1 /\ phi1 dt 0 = phi1 dt 1 /\ phi2 dt 0 = phi2 dt 1.
Proof.
  intros dt D. unfold phi, phi1, phi2. replace (- 0 + dt) with dt by ring. replace (0 + (dt - 1)) with (dt - 1) by ring. replace (1 + (dt - 1)) with dt by ring. replace (- (1) + dt) with (dt - 1) by ring.
  rewrite (pos_in dt) by lra. rewrite (pos_out (dt - 1)) by lra. repeat split; field; lra.
Qed.
Definition corner (dt x : R) : R := phi dt (fr x).
Definition jump (dt x : R) : R := phi1 dt (fr x).
Lemma jump_smooth : forall dt, 0 < dt < 1 / 2 -> smooth 1 (jump dt).
Proof.
  intros dt D. destruct (phi_ends dt D) as (_ & E1 & E2). exists (fun x => phi2 dt (fr x)). split; [| apply around_cont; [apply phi2_cont | exact E2]].
  intros x. apply (around_der (phi1 dt) (phi2 dt)); [apply phi1_der; lra | exact E1 | exact E2].
Qed.
Lemma corner_smooth : forall dt, 0 < dt < 1 / 2 -> smooth 2 (corner dt).
Proof.
  intros dt D. destruct (phi_ends dt D) as (E0 & E1 & _). exists (jump dt). split; [| apply jump_smooth; exact D].
  intros x. apply (around_der (phi dt) (phi1 dt)); [apply phi_der; lra | exact E0 | exact E1].
Qed.
(** [blep] and [blamp] are these corrections *)
Lemma blamp_phi : forall dt f, 0 < dt < 1 / 2 -> 0 <= f < 1 -> dt * blamp RPops f dt = (f * f - f) - phi dt f.
Proof.
  intros dt f D F. unfold blamp, phi, square_number. unq. unfold Rltb. destruct (Rlt_dec f dt) as [A | A].
  - rewrite (pos_in (- f + dt)) by lra. rewrite (pos_out (f + (dt - 1))) by lra. field. lra.
  - rewrite (pos_out (- f + dt)) by lra. destruct (Rlt_dec (1 - dt) f) as [B | B]; [rewrite (pos_in (f + (dt - 1))) by lra | rewrite (pos_out (f + (dt - 1))) by lra]; field; lra.
Qed.
Lemma blep_phi : forall dt f, 0 < dt < 1 / 2 -> 0 <= f < 1 -> blep RPops f dt = (2 * f - 1) - phi1 dt f.
Proof.
  intros dt f D F. unfold blep, phi1, square_number. unq. unfold Rltb. destruct (Rlt_dec f dt) as [A | A].
  - rewrite (pos_in (- f + dt)) by lra. rewrite (pos_out (f + (dt - 1))) by lra. field. lra.
  - rewrite (pos_out (- f + dt)) by lra. destruct (Rlt_dec (1 - dt) f) as [B | B]; [rewrite (pos_in (f + (dt - 1))) by lra | rewrite (pos_out (f + (dt - 1))) by lra]; field; lra.
Qed.
