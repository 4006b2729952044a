(** The waveforms in exact arithmetic. *)
From Coq Require Import Reals Lra Lia Psatz.
From Flocq Require Import Core.
From Verif Require Import Base PolyModel PolySpec.
Local Open Scope R_scope.

Definition fr (x : R) : R := x - IZR (Zfloor x).
Lemma fr_range x : 0 <= fr x < 1.
Proof. unfold fr. pose proof (Zfloor_lb x). pose proof (Zfloor_ub x). lra. Qed.
Lemma fr_id x : 0 <= x < 1 -> fr x = x.
Proof. intros H. unfold fr. replace (Zfloor x) with 0%Z by (symmetry; apply Zfloor_imp; cbn; lra). lra. Qed.
Lemma fr_add_int x n : fr (x + IZR n) = fr x.
Proof.
  unfold fr. replace (Zfloor (x + IZR n)) with (Zfloor x + n)%Z; [rewrite plus_IZR; ring |].
  symmetry. apply Zfloor_imp. rewrite !plus_IZR. pose proof (Zfloor_lb x). pose proof (Zfloor_ub x). lra.
Qed.
Lemma fr_shift x n y : x = y + IZR n -> fr x = fr y.
Proof. intros ->. apply fr_add_int. Qed.
Lemma wrap_fr x : 0 <= x -> wrap RPops x = fr x.
Proof. intros H. unfold wrap. cbn. rewrite Ztrunc_floor by exact H. reflexivity. Qed.

(** Distance to the nearest integer *)
Definition dist (x : R) : R := Rmin (fr x) (1 - fr x).
Lemma dist_le x n : dist x <= Rabs (x - IZR n).
Proof.
  unfold dist, fr. pose proof (Zfloor_lb x). pose proof (Zfloor_ub x).
  destruct (Z_le_gt_dec n (Zfloor x)) as [L | L].
  - apply IZR_le in L. eapply Rle_trans; [apply Rmin_l |]. rewrite Rabs_pos_eq; lra.
  - assert (L' : (Zfloor x + 1 <= n)%Z) by lia. apply IZR_le in L'. rewrite plus_IZR in L'.
    eapply Rle_trans; [apply Rmin_r |]. rewrite Rabs_left1; lra.
Qed.
Lemma dist_ex x : exists n, dist x = Rabs (x - IZR n).
Proof.
  unfold dist, Rmin. pose proof (fr_range x) as [F1 F2]. unfold fr in *. destruct (Rle_dec _ _).
  - exists (Zfloor x). rewrite Rabs_pos_eq; lra.
  - exists (Zfloor x + 1)%Z. rewrite plus_IZR, Rabs_left1; lra.
Qed.
Lemma dist_lip x y : dist x - dist y <= Rabs (x - y).
Proof.
  destruct (dist_ex y) as [n E]. pose proof (dist_le x n) as L. rewrite E.
  pose proof (Rabs_triang (x - y) (y - IZR n)) as T. replace (x - y + (y - IZR n)) with (x - IZR n) in T by ring. lra.
Qed.
Lemma dist_range x : 0 <= dist x <= 1 / 2.
Proof. unfold dist, Rmin. pose proof (fr_range x). destruct (Rle_dec _ _); lra. Qed.
Lemma dist_sym x : dist (- x) = dist x.
Proof.
  apply Rle_antisym.
  - destruct (dist_ex x) as [n E]. rewrite E. pose proof (dist_le (- x) (- n)) as L. rewrite opp_IZR in L.
    replace (- x - - IZR n) with (- (x - IZR n)) in L by ring. rewrite Rabs_Ropp in L. exact L.
  - destruct (dist_ex (- x)) as [n E]. rewrite E. pose proof (dist_le x (- n)) as L. rewrite opp_IZR in L.
    replace (x - - IZR n) with (- (- x - IZR n)) in L by ring. rewrite Rabs_Ropp in L. exact L.
Qed.
Lemma dist_near x n : Rabs (x - IZR n) <= 1 / 2 -> dist x = Rabs (x - IZR n).
Proof.
  intros H. apply Rle_antisym; [apply dist_le |]. destruct (dist_ex x) as [m E]. rewrite E.
  destruct (Z.eq_dec m n) as [-> | N]; [lra |].
  assert (D : 1 <= Rabs (IZR n - IZR m)). { rewrite <- minus_IZR, <- abs_IZR. apply IZR_le. lia. }
  pose proof (Rabs_triang (IZR n - x) (x - IZR m)) as T. replace (IZR n - x + (x - IZR m)) with (IZR n - IZR m) in T by ring.
  rewrite (Rabs_minus_sym (IZR n) x) in T. lra.
Qed.

(** * The corner correction *)
Definition BB (dt d : R) : R := if Rlt_dec d dt then (1 - d / dt) * (1 - d / dt) * (1 - d / dt) / 3 else 0.
Definition uu (dt d : R) : R := if Rlt_dec d dt then 1 - d / dt else 0.
Lemma BB_uu dt d : BB dt d = uu dt d * uu dt d * uu dt d / 3.
Proof. unfold BB, uu. destruct (Rlt_dec d dt); lra. Qed.
Lemma uu_range dt d : 0 <= d -> 0 <= uu dt d <= 1.
Proof.
  intros H. unfold uu. destruct (Rlt_dec d dt) as [L | L]; [| lra].
  assert (P : 0 < dt) by lra. assert (0 <= d / dt < 1).
  { split; [apply Rmult_le_pos; [lra | left; apply Rinv_0_lt_compat; lra] |]. apply Rmult_lt_reg_r with dt; [lra |].
    unfold Rdiv. rewrite Rmult_assoc, Rinv_l by lra. lra. }
  lra.
Qed.
Lemma uu_lip dt d e : 0 <= dt -> 0 <= d -> 0 <= e -> dt * (uu dt d - uu dt e) <= Rmax 0 (e - d).
Proof.
  intros Hd H1 H2. pose proof (uu_range dt d H1). pose proof (uu_range dt e H2). unfold uu in *.
  destruct (Rlt_dec d dt) as [L | L]; destruct (Rlt_dec e dt) as [M | M].
  - eapply Rle_trans; [| apply Rmax_r]. replace (dt * (1 - d / dt - (1 - e / dt))) with (e - d) by (field; lra). lra.
  - eapply Rle_trans; [| apply Rmax_r]. replace (dt * (1 - d / dt - 0)) with (dt - d) by (field; lra). lra.
  - eapply Rle_trans; [| apply Rmax_l]. assert (0 <= dt * (1 - e / dt)) by (apply Rmult_le_pos; lra). lra.
  - eapply Rle_trans; [| apply Rmax_l]. lra.
Qed.
Lemma uu_anti dt d e : 0 <= dt -> 0 <= d <= e -> uu dt e <= uu dt d.
Proof.
  intros Hd H. pose proof (uu_range dt d ltac:(lra)). pose proof (uu_range dt e ltac:(lra)). unfold uu in *.
  destruct (Rlt_dec d dt) as [L | L]; destruct (Rlt_dec e dt) as [M | M]; try lra.
  apply Rplus_le_compat_l. apply Ropp_le_contravar. apply Rmult_le_compat_r; [left; apply Rinv_0_lt_compat; lra | lra].
Qed.
Lemma cube_mono u v : 0 <= u <= v -> v <= 1 -> u * u * u <= v * v * v.
Proof. intros H1 H2. assert (0 <= u * u) by nra. assert (u * u <= v * v) by nra. nra. Qed.
Lemma cube_lip u v : 0 <= u <= 1 -> 0 <= v <= u -> u * u * u / 3 - v * v * v / 3 <= u - v.
Proof.
  intros H1 H2. assert (E : u * u * u / 3 - v * v * v / 3 = (u - v) * ((u * u + u * v + v * v) / 3)) by field. rewrite E.
  assert (u * u + u * v + v * v <= 3) by nra. assert (0 <= u * u + u * v + v * v) by nra. nra.
Qed.
Lemma BB_range dt d : 0 <= d -> 0 <= BB dt d <= 1 / 3.
Proof.
  intros H. rewrite BB_uu. pose proof (uu_range dt d H). pose proof (cube_mono 0 (uu dt d)). pose proof (cube_mono (uu dt d) 1). lra.
Qed.
Lemma BB_anti dt d e : 0 <= dt -> 0 <= d <= e -> BB dt e <= BB dt d.
Proof.
  intros Hd H. rewrite !BB_uu. pose proof (uu_anti dt d e Hd H). pose proof (uu_range dt d ltac:(lra)). pose proof (uu_range dt e ltac:(lra)).
  pose proof (cube_mono (uu dt e) (uu dt d)). lra.
Qed.
Lemma BB_lip dt d e : 0 <= dt -> 0 <= d -> 0 <= e -> dt * (BB dt d - BB dt e) <= Rmax 0 (e - d).
Proof.
  intros Hd H1 H2. destruct (Rle_lt_dec d e) as [L | L].
  - eapply Rle_trans; [| apply (uu_lip dt d e); assumption]. apply Rmult_le_compat_l; [exact Hd |]. rewrite !BB_uu.
    apply cube_lip; [apply uu_range; exact H1 |]. split; [apply uu_range; exact H2 | apply uu_anti; lra].
  - eapply Rle_trans; [| apply Rmax_l]. pose proof (BB_anti dt e d Hd ltac:(lra)). nra.
Qed.
Lemma BB_far dt d : dt <= d -> BB dt d = 0.
Proof. intros H. unfold BB. destruct (Rlt_dec d dt); lra. Qed.

Lemma blamp_BB x dt : slow dt -> blamp RPops (fr x) dt = BB dt (dist x).
Proof.
  intros [D1 D2]. pose proof (fr_range x) as [F1 F2]. unfold blamp, BB, dist, square_number, Rmin. cbn. unfold Rltb.
  set (f := fr x) in *. clearbody f.
  destruct (Rle_dec f (1 - f)) as [L | L].
  - destruct (Rlt_dec f dt) as [M | M].
    + field. lra.
    + destruct (Rlt_dec (1 / 1 - dt) f); lra.
  - destruct (Rlt_dec f dt) as [M | M]; [lra |].
    destruct (Rlt_dec (1 / 1 - dt) f) as [N | N]; destruct (Rlt_dec (1 - f) dt) as [K | K]; try lra.
Qed.

(** * The step correction *)
(** [blep] with the step it corrects: continuous on the whole line. *)
Lemma blep_cases f dt : slow dt -> 0 <= f < 1 ->
  (exists u, 0 < dt /\ 0 <= u < 1 /\ f = u * dt /\ blep RPops f dt = - ((1 - u) * (1 - u))) \/
  (exists u, 0 < dt /\ 0 < u < 1 /\ f = 1 - u * dt /\ blep RPops f dt = (1 - u) * (1 - u)) \/
  (dt <= f <= 1 - dt /\ blep RPops f dt = 0).
Proof.
  intros [D1 D2] [F1 F2]. unfold blep, square_number. cbn. unfold Rltb.
  destruct (Rlt_dec f dt) as [M | M].
  - left. exists (f / dt). assert (P : 0 < dt) by lra.
    assert (U : 0 <= f / dt) by (apply Rmult_le_pos; [lra | left; apply Rinv_0_lt_compat; lra]).
    assert (V : f / dt < 1) by (apply Rmult_lt_reg_r with dt; [lra |]; unfold Rdiv; rewrite Rmult_assoc, Rinv_l by lra; lra).
    assert (W : f = f / dt * dt) by (field; lra). repeat split; try assumption. lra.
  - right. destruct (Rlt_dec (1 / 1 - dt) f) as [N | N].
    + left. exists ((1 - f) / dt). assert (P : 0 < dt) by lra.
      assert (U : 0 < (1 - f) / dt) by (apply Rmult_lt_0_compat; [lra | apply Rinv_0_lt_compat; lra]).
      assert (V : (1 - f) / dt < 1) by (apply Rmult_lt_reg_r with dt; [lra |]; unfold Rdiv; rewrite Rmult_assoc, Rinv_l by lra; lra).
      assert (W : f = 1 - (1 - f) / dt * dt) by (field; lra). repeat split; try assumption. lra.
    + right. lra.
Qed.

(** * The range of each waveform *)
Definition inside (B y : R) : Prop := - B <= y <= B.
Lemma Rdiv1 x : x / 1 = x. Proof. lra. Qed.
Ltac unq := cbn [RPops q_frac q_pi q_tau q_add q_sub q_mul q_div q_opp q_ltb q_leb q_eqb q_trunc q_sin q_cos] in *; rewrite ?Rdiv1.
Lemma saw_shape f dt : slow dt -> 0 <= f < 1 -> inside 1 (2 * f - 1 - blep RPops f dt).
Proof.
  intros S F. unfold inside. destruct S as [S1 S2].
  destruct (blep_cases f dt (conj S1 S2) F) as [(u & P & U & E & ->) | [(u & P & U & E & ->) | [E ->]]]; subst; try nra.
Qed.
Lemma saw_range t dt : slow dt -> 0 <= t < 1 -> inside 1 (w_saw RPops t dt).
Proof.
  intros S T. unfold w_saw. unq. rewrite wrap_fr by lra.
  pose proof (saw_shape _ dt S (fr_range (t + 1 / 2))). unfold inside in *. lra.
Qed.
Lemma ramp_range t dt : slow dt -> 0 <= t < 1 -> inside 1 (w_ramp RPops t dt).
Proof.
  intros S T. unfold w_ramp. unq. rewrite wrap_fr by lra.
  pose proof (saw_shape _ dt S (fr_range t)). unfold inside in *. lra.
Qed.
(** A square of any phase: the two corrections are never active together. *)
Definition sq (f dt : R) : R := (if Rlt_dec f (1 / 2) then 1 else -1) + (blep RPops f dt - blep RPops (fr (f + 1 / 2)) dt).
Lemma sq_range f dt : slow dt -> 0 <= f < 1 -> inside 1 (sq f dt).
Proof.
  intros [S1 S2] F. unfold sq, inside. destruct (Rlt_dec f (1 / 2)) as [L | L].
  - rewrite (fr_id (f + 1 / 2)) by lra.
    destruct (blep_cases f dt (conj S1 S2) F) as [(u & P & U & E & ->) | [(u & P & U & E & ->) | [E ->]]];
    destruct (blep_cases (f + 1 / 2) dt (conj S1 S2) ltac:(lra)) as [(v & Q & V & G & ->) | [(v & Q & V & G & ->) | [G ->]]]; nra.
  - rewrite (fr_shift (f + 1 / 2) 1 (f - 1 / 2)) by lra. rewrite (fr_id (f - 1 / 2)) by lra.
    destruct (blep_cases f dt (conj S1 S2) F) as [(u & P & U & E & ->) | [(u & P & U & E & ->) | [E ->]]];
    destruct (blep_cases (f - 1 / 2) dt (conj S1 S2) ltac:(lra)) as [(v & Q & V & G & ->) | [(v & Q & V & G & ->) | [G ->]]]; nra.
Qed.
Lemma sqr_eq t dt : 0 <= t < 1 -> w_sqr RPops t dt = sq t dt.
Proof.
  intros T. unfold w_sqr, sq. unq. rewrite wrap_fr by lra. unfold Rltb. destruct (Rlt_dec t (1 / 2)); lra.
Qed.
Lemma sqr2_eq t dt pw : width_ok pw -> 0 <= t < 1 ->
  let a := fr (t + 7 / 8 + 1 / 4 * (pw - 1 / 2)) in
  w_sqr2 RPops t dt pw = (sq a dt + sq (fr (a + 1 / 2 * (1 - pw))) dt) / 2.
Proof.
  intros [W1 W2] T a. unfold w_sqr2. unq. rewrite !(wrap_fr (t + _ + _)) by lra.
  fold a. set (b := fr (t + 3 / 8 + 1 / 4 * (pw - 1 / 2))).
  pose proof (fr_range (t + 7 / 8 + 1 / 4 * (pw - 1 / 2))) as A. fold a in A.
  pose proof (fr_range (t + 3 / 8 + 1 / 4 * (pw - 1 / 2))) as B. fold b in B.
  assert (Hb : fr (a + 1 / 2) = b).
  { unfold a, b. unfold fr at 2.
    set (z := Zfloor (t + 7 / 8 + 1 / 4 * (pw - 1 / 2))).
    rewrite (fr_shift (t + 7 / 8 + 1 / 4 * (pw - 1 / 2) - IZR z + 1 / 2) (1 - z) (t + 3 / 8 + 1 / 4 * (pw - 1 / 2))); [reflexivity |].
    rewrite minus_IZR. lra. }
  rewrite !wrap_fr by lra. unfold sq at 1. rewrite Hb.
  unfold sq. assert (Hc : fr (fr (a + 1 / 2 * (1 - pw)) + 1 / 2) = fr (b + 1 / 2 * (1 - pw))).
  { rewrite <- Hb. unfold fr at 2 4.
    set (z1 := Zfloor (a + 1 / 2 * (1 - pw))). set (z2 := Zfloor (a + 1 / 2)).
    apply fr_shift with (n := (z2 - z1)%Z). rewrite minus_IZR. lra. }
  rewrite Hc. unfold Rltb. repeat match goal with |- context [Rlt_dec ?x ?y] => destruct (Rlt_dec x y) end; try lra.
Qed.
Lemma rect_range t dt pw : slow dt -> width_ok pw -> 0 <= t < 1 -> inside 2 (w_rect RPops t dt pw).
Proof.
  intros [S1 S2] [W1 W2] T. unfold w_rect. unq. rewrite wrap_fr by lra. unfold Rltb, inside. destruct (Rlt_dec t pw) as [L | L].
  - rewrite (fr_id (t + 1 - pw)) by lra.
    destruct (blep_cases t dt (conj S1 S2) T) as [(u & P & U & E & ->) | [(u & P & U & E & ->) | [E ->]]];
    destruct (blep_cases (t + 1 - pw) dt (conj S1 S2) ltac:(lra)) as [(v & Q & V & G & ->) | [(v & Q & V & G & ->) | [G ->]]]; nra.
  - rewrite (fr_shift (t + 1 - pw) 1 (t - pw)) by lra. rewrite (fr_id (t - pw)) by lra.
    destruct (blep_cases t dt (conj S1 S2) T) as [(u & P & U & E & ->) | [(u & P & U & E & ->) | [E ->]]];
    destruct (blep_cases (t - pw) dt (conj S1 S2) ltac:(lra)) as [(v & Q & V & G & ->) | [(v & Q & V & G & ->) | [G ->]]]; nra.
Qed.

(** Corners: the correction at phase [x] is [BB dt (dist x)]. *)
Definition K (dt x : R) : R := BB dt (dist x).
Lemma K_range dt x : 0 <= K dt x <= 1 / 3.
Proof. apply BB_range. apply dist_range. Qed.
Lemma K_lip dt x y : 0 <= dt -> dt * (K dt x - K dt y) <= Rmax 0 (dist y - dist x).
Proof. intros H. apply BB_lip; [exact H | apply dist_range | apply dist_range]. Qed.
Lemma K_lip_abs dt x y : 0 <= dt -> dt * (K dt x - K dt y) <= Rabs (x - y).
Proof.
  intros H. eapply Rle_trans; [apply K_lip; exact H |]. apply Rmax_lub; [apply Rabs_pos |].
  rewrite Rabs_minus_sym. apply dist_lip.
Qed.
Lemma K_anti dt x y : 0 <= dt -> dist x <= dist y -> K dt y <= K dt x.
Proof. intros H L. apply BB_anti; [exact H |]. split; [apply dist_range | exact L]. Qed.
Lemma K_far dt x : dt <= dist x -> K dt x = 0.
Proof. apply BB_far. Qed.
Lemma K_wrap dt x : slow dt -> 0 <= x -> blamp RPops (wrap RPops x) dt = K dt x.
Proof. intros S H. rewrite wrap_fr by exact H. apply blamp_BB. exact S. Qed.
Lemma K_shift dt x n y : x = y + IZR n -> K dt x = K dt y.
Proof. intros H. unfold K, dist. rewrite (fr_shift x n y H). reflexivity. Qed.
(** [dist] by the nearest integer *)
Lemma dist0 x : - (1 / 2) <= x <= 1 / 2 -> dist x = Rabs x.
Proof. intros H. rewrite (dist_near x 0); [f_equal; lra |]. apply Rabs_le. lra. Qed.
Lemma dist1 x : 1 / 2 <= x <= 3 / 2 -> dist x = Rabs (x - 1).
Proof. intros H. rewrite (dist_near x 1); [reflexivity |]. apply Rabs_le. lra. Qed.
Lemma dist2 x : 3 / 2 <= x <= 5 / 2 -> dist x = Rabs (x - 2).
Proof. intros H. rewrite (dist_near x 2); [reflexivity |]. apply Rabs_le. lra. Qed.

Lemma tri_range t dt : slow dt -> 0 <= t < 1 -> inside 1 (w_tri RPops t dt).
Proof.
  intros S T. unfold w_tri. unq. rewrite !K_wrap by (assumption || lra). destruct S as [S1 S2].
  pose proof (K_range dt (t + 1 / 4)) as R1. pose proof (K_range dt (t + 3 / 4)) as R2.
  unfold fold_tri. unq. unfold Rleb, Rltb, inside.
  destruct (Rle_lt_dec t (1 / 4)) as [L | L].
  - (* rising to the peak *)
    destruct (Rle_dec 3 (t * 4)); [lra |]. destruct (Rlt_dec 1 (t * 4)); [lra |].
    rewrite (K_far dt (t + 1 / 4)) by (rewrite dist0 by lra; rewrite Rabs_pos_eq; lra). nra.
  - destruct (Rle_lt_dec t (1 / 2)) as [M | M].
    + destruct (Rle_dec 3 (t * 4)); [lra |]. destruct (Rlt_dec 1 (t * 4)); [| lra].
      rewrite (K_far dt (t + 1 / 4)) by (rewrite dist1 by lra; rewrite Rabs_left1; lra). nra.
    + rewrite (K_far dt (t + 3 / 4)).
      * destruct (Rle_dec 3 (t * 4)); [nra |]. destruct (Rlt_dec 1 (t * 4)); [nra | lra].
      * destruct (Rle_lt_dec t (3 / 4)) as [N | N].
        -- rewrite dist1 by lra. rewrite Rabs_pos_eq; lra.
        -- rewrite dist2 by lra. rewrite Rabs_left1; lra.
Qed.

(** A trapezoid with corners at [q], [1/2 - q], [1/2 + q], [1 - q] *)
Lemma clamp_hi x : 1 <= x -> clampf RPops x (-1) 1 = 1.
Proof. intros H. unfold clampf. unq. unfold Rltb. destruct (Rlt_dec x (-1)); [lra |]. destruct (Rlt_dec 1 x); lra. Qed.
Lemma clamp_lo x : x <= -1 -> clampf RPops x (-1) 1 = -1.
Proof. intros H. unfold clampf. unq. unfold Rltb. destruct (Rlt_dec x (-1)); [lra |]. destruct (Rlt_dec 1 x); lra. Qed.
Lemma clamp_id x : -1 <= x <= 1 -> clampf RPops x (-1) 1 = x.
Proof. intros H. unfold clampf. unq. unfold Rltb. destruct (Rlt_dec x (-1)); [lra |]. destruct (Rlt_dec 1 x); lra. Qed.
Lemma fold_up t : 0 <= t <= 1 / 4 -> fold_tri RPops (4 * t) = 4 * t.
Proof. intros H. unfold fold_tri. unq. unfold Rleb, Rltb. destruct (Rle_dec 3 (4 * t)); [lra |]. destruct (Rlt_dec 1 (4 * t)); lra. Qed.
Lemma fold_down t : 1 / 4 <= t <= 3 / 4 -> fold_tri RPops (4 * t) = 2 - 4 * t.
Proof. intros H. unfold fold_tri. unq. unfold Rleb, Rltb. destruct (Rle_dec 3 (4 * t)); [lra |]. destruct (Rlt_dec 1 (4 * t)); lra. Qed.
Lemma fold_back t : 3 / 4 <= t < 1 -> fold_tri RPops (4 * t) = 4 * t - 4.
Proof. intros H. unfold fold_tri. unq. unfold Rleb, Rltb. destruct (Rle_dec 3 (4 * t)); [lra |]. destruct (Rlt_dec 1 (4 * t)); lra. Qed.
Definition trapezoid (q t : R) : R := clampf RPops (1 / (4 * q) * fold_tri RPops (4 * t)) (-1) 1.
Lemma trapezoid_up q t : 0 < q <= 1 / 4 -> 0 <= t <= q -> trapezoid q t = t / q.
Proof.
  intros Q T. unfold trapezoid. rewrite fold_up by lra. replace (1 / (4 * q) * (4 * t)) with (t / q) by (field; lra).
  apply clamp_id. assert (0 <= t / q) by (apply Rmult_le_pos; [lra | left; apply Rinv_0_lt_compat; lra]).
  assert (t / q <= 1) by (apply Rmult_le_reg_r with q; [lra |]; unfold Rdiv; rewrite Rmult_assoc, Rinv_l by lra; lra). lra.
Qed.
Lemma over_q q x : 0 < q -> q <= x -> 1 <= 1 / (4 * q) * (4 * x).
Proof.
  intros Q H. replace (1 / (4 * q) * (4 * x)) with (x / q) by (field; lra).
  apply Rmult_le_reg_r with q; [lra |]; unfold Rdiv; rewrite Rmult_assoc, Rinv_l by lra; lra.
Qed.
Lemma trapezoid_top q t : 0 < q <= 1 / 4 -> q <= t <= 1 / 2 - q -> trapezoid q t = 1.
Proof.
  intros Q T. unfold trapezoid. apply clamp_hi. destruct (Rle_lt_dec t (1 / 4)).
  - rewrite fold_up by lra. apply over_q; lra.
  - rewrite fold_down by lra. replace (2 - 4 * t) with (4 * (1 / 2 - t)) by lra. apply over_q; lra.
Qed.
Lemma trapezoid_down q t : 0 < q <= 1 / 4 -> 1 / 2 - q <= t <= 1 / 2 + q -> trapezoid q t = (1 / 2 - t) / q.
Proof.
  intros Q T. unfold trapezoid. rewrite fold_down by lra. replace (1 / (4 * q) * (2 - 4 * t)) with ((1 / 2 - t) / q) by (field; lra).
  apply clamp_id. split; apply Rmult_le_reg_r with q; try lra; unfold Rdiv; rewrite Rmult_assoc, Rinv_l by lra; lra.
Qed.
Lemma trapezoid_bottom q t : 0 < q <= 1 / 4 -> 1 / 2 + q <= t <= 1 - q -> t < 1 -> trapezoid q t = -1.
Proof.
  intros Q T T1. unfold trapezoid. apply clamp_lo. destruct (Rle_lt_dec t (3 / 4)).
  - rewrite fold_down by lra. pose proof (over_q q (t - 1 / 2) ltac:(lra) ltac:(lra)). nra.
  - rewrite fold_back by lra. pose proof (over_q q (1 - t) ltac:(lra) ltac:(lra)). nra.
Qed.
Lemma trapezoid_back q t : 0 < q <= 1 / 4 -> 1 - q <= t < 1 -> trapezoid q t = (t - 1) / q.
Proof.
  intros Q T. unfold trapezoid. rewrite fold_back by lra. replace (1 / (4 * q) * (4 * t - 4)) with ((t - 1) / q) by (field; lra).
  apply clamp_id. split; apply Rmult_le_reg_r with q; try lra; unfold Rdiv; rewrite Rmult_assoc, Rinv_l by lra; lra.
Qed.
(** If the first of two corners is nearer, its correction is larger, by no more than the difference of the distances. *)
Lemma K_pair dt x y d : 0 <= dt -> dist x <= dist y -> dist y - dist x <= d -> 0 <= dt * K dt x - dt * K dt y <= d.
Proof.
  intros H L D. pose proof (K_anti dt x y H L). pose proof (K_lip dt x y H) as P. rewrite Rmax_right in P by lra. nra.
Qed.
Lemma div_le a b q : 0 < q -> a <= b -> a / q <= b / q.
Proof. intros Q H. apply Rmult_le_compat_r; [left; apply Rinv_0_lt_compat; lra | exact H]. Qed.
Ltac dists := repeat match goal with
  | |- context [dist ?x] => first [rewrite (dist0 x) by lra | rewrite (dist1 x) by lra | rewrite (dist2 x) by lra]
  end; unfold Rabs; repeat match goal with |- context [Rcase_abs ?x] => destruct (Rcase_abs x) end; lra.
Lemma trap_shape q t dt : 0 < q <= 1 / 4 -> 0 <= dt -> 0 <= t < 1 ->
  inside 1 (trapezoid q t + (dt * K dt (t + q) - dt * K dt (t + q + 1 / 2) + dt * K dt (t + 1 / 2 - q) - dt * K dt (t + 1 - q)) / (2 * q)).
Proof.
  intros Q D T. unfold inside.
  set (A := dt * K dt (t + q)). set (E := dt * K dt (t + q + 1 / 2)). set (C := dt * K dt (t + 1 / 2 - q)). set (B := dt * K dt (t + 1 - q)).
  assert (Go : forall base lo hi, lo <= A - E + C - B <= hi -> - q <= base * q + lo / 2 -> base * q + hi / 2 <= q ->
    - (1) <= base + (A - E + C - B) / (2 * q) <= 1).
  { intros base lo hi S L H. set (W := A - E + C - B) in *. clearbody W.
    assert (EQ : (base + W / (2 * q)) * q = base * q + W / 2) by (field; lra).
    split; apply Rmult_le_reg_r with q; try lra; rewrite EQ; lra. }
  destruct (Rle_lt_dec t q) as [L1 | L1].
  { rewrite trapezoid_up by lra. apply (Go _ (- (4 * t)) 0).
    - pose proof (K_pair dt (t + 1 - q) (t + q) (2 * t) D ltac:(dists) ltac:(dists)) as P1.
      pose proof (K_pair dt (t + q + 1 / 2) (t + 1 / 2 - q) (2 * t) D ltac:(dists) ltac:(dists)) as P2. unfold A, B, C, E. lra.
    - replace (t / q * q) with t by (field; lra). lra.
    - replace (t / q * q) with t by (field; lra). lra. }
  destruct (Rle_lt_dec t (1 / 2 - q)) as [L2 | L2].
  { rewrite trapezoid_top by lra. apply (Go _ (- (4 * q)) 0); [| lra | lra].
    pose proof (K_pair dt (t + 1 - q) (t + q) (2 * q) D ltac:(dists) ltac:(dists)) as P1.
    pose proof (K_pair dt (t + q + 1 / 2) (t + 1 / 2 - q) (2 * q) D ltac:(dists) ltac:(dists)) as P2. unfold A, B, C, E. lra. }
  destruct (Rle_lt_dec t (1 / 2)) as [L3 | L3].
  { rewrite trapezoid_down by lra. apply (Go _ (- (4 * (1 / 2 - t))) 0).
    - pose proof (K_pair dt (t + 1 - q) (t + q) (2 * (1 / 2 - t)) D ltac:(dists) ltac:(dists)) as P1.
      pose proof (K_pair dt (t + q + 1 / 2) (t + 1 / 2 - q) (2 * (1 / 2 - t)) D ltac:(dists) ltac:(dists)) as P2. unfold A, B, C, E. lra.
    - replace ((1 / 2 - t) / q * q) with (1 / 2 - t) by (field; lra). lra.
    - replace ((1 / 2 - t) / q * q) with (1 / 2 - t) by (field; lra). lra. }
  destruct (Rle_lt_dec t (1 / 2 + q)) as [L4 | L4].
  { rewrite trapezoid_down by lra. apply (Go _ 0 (4 * (t - 1 / 2))).
    - pose proof (K_pair dt (t + q) (t + 1 - q) (2 * (t - 1 / 2)) D ltac:(dists) ltac:(dists)) as P1.
      pose proof (K_pair dt (t + 1 / 2 - q) (t + q + 1 / 2) (2 * (t - 1 / 2)) D ltac:(dists) ltac:(dists)) as P2. unfold A, B, C, E. lra.
    - replace ((1 / 2 - t) / q * q) with (1 / 2 - t) by (field; lra). lra.
    - replace ((1 / 2 - t) / q * q) with (1 / 2 - t) by (field; lra). lra. }
  destruct (Rle_lt_dec t (1 - q)) as [L5 | L5].
  { rewrite trapezoid_bottom by lra. apply (Go _ 0 (4 * q)); [| lra | lra].
    pose proof (K_pair dt (t + q) (t + 1 - q) (2 * q) D ltac:(dists) ltac:(dists)) as P1.
    pose proof (K_pair dt (t + 1 / 2 - q) (t + q + 1 / 2) (2 * q) D ltac:(dists) ltac:(dists)) as P2. unfold A, B, C, E. lra. }
  rewrite trapezoid_back by lra. apply (Go _ 0 (4 * (1 - t))).
  - pose proof (K_pair dt (t + q) (t + 1 - q) (2 * (1 - t)) D ltac:(dists) ltac:(dists)) as P1.
    pose proof (K_pair dt (t + 1 / 2 - q) (t + q + 1 / 2) (2 * (1 - t)) D ltac:(dists) ltac:(dists)) as P2. unfold A, B, C, E. lra.
  - replace ((t - 1) / q * q) with (t - 1) by (field; lra). lra.
  - replace ((t - 1) / q * q) with (t - 1) by (field; lra). lra.
Qed.
Lemma wrap_half t dt a : slow dt -> 0 <= t + a -> blamp RPops (wrap RPops (wrap RPops (t + a) + 1 / 2)) dt = K dt (t + a + 1 / 2).
Proof.
  intros S H. rewrite (wrap_fr (t + a)) by lra. pose proof (fr_range (t + a)). rewrite K_wrap by (assumption || lra).
  unfold fr at 1. apply (K_shift dt _ (- Zfloor (t + a))). rewrite opp_IZR. lra.
Qed.
Lemma trap_range t dt : slow dt -> 0 <= t < 1 -> inside 1 (w_trap RPops t dt).
Proof.
  intros S T. unfold w_trap. unq. rewrite !wrap_half by (assumption || lra). rewrite !K_wrap by (assumption || lra).
  destruct S as [S1 S2]. pose proof (trap_shape (1 / 8) t dt ltac:(lra) S1 T) as H. unfold trapezoid in H.
  replace (1 / (4 * (1 / 8))) with 2 in H by field. replace (- (1)) with (-1) by lra.
  replace (t + 3 / 8) with (t + 1 / 2 - 1 / 8) by lra. replace (t + 1 / 2 - 1 / 8 + 1 / 2) with (t + 1 - 1 / 8) by lra.
  unfold inside in *. set (c := clampf _ _ _ _) in *. clearbody c. lra.
Qed.
Lemma min_cap pw : width_ok pw -> exists p, minf RPops pw (9999 / 10000) = p /\ 0 <= p <= 9999 / 10000.
Proof.
  intros [W1 W2]. eexists. split; [reflexivity |]. unfold minf. unq. unfold Rltb, Reqb.
  destruct (Rlt_dec pw (9999 / 10000)); [lra |]. destruct (Req_EM_T _ _); lra.
Qed.
Lemma trap2_range t dt pw : slow dt -> width_ok pw -> 0 <= t < 1 -> inside 1 (w_trap2 RPops t dt pw).
Proof.
  intros S W T. unfold w_trap2. unq. destruct (min_cap pw W) as (p & -> & P).
  set (q := (1 - p) / 4). assert (Q : 0 < q <= 1 / 4) by (unfold q; lra).
  replace (t + 1 / 4 - 1 / 4 * p) with (t + q) by (unfold q; lra).
  replace (t + 1 / 4 + 1 / 4 * p) with (t + (1 / 2 - q)) by (unfold q; lra).
  rewrite !wrap_half by (assumption || lra). rewrite !K_wrap by (assumption || lra).
  destruct S as [S1 S2]. pose proof (trap_shape q t dt Q S1 T) as H. unfold trapezoid in H.
  replace (1 - p) with (4 * q) by (unfold q; lra). replace (- (1)) with (-1) by lra.
  replace (t + (1 / 2 - q)) with (t + 1 / 2 - q) by lra. replace (t + 1 / 2 - q + 1 / 2) with (t + 1 - q) by lra.
  unfold inside in *. set (c := clampf _ _ _ _) in *. clearbody c.
  match goal with |- _ <= ?y <= _ => match type of H with _ <= ?z <= _ => replace y with z; [exact H | field; lra] end end.
Qed.

(** The skewed triangle: peak at [p / 2], trough at [1 - p / 2] *)
Lemma tri2_range t dt pw : slow dt -> width_ok pw -> 0 <= t < 1 -> inside 1 (w_tri2 RPops t dt pw).
Proof.
  intros S W T. unfold w_tri2. unq. destruct (min_cap pw W) as (p0 & -> & P0).
  assert (M : exists p, maxf RPops p0 (1 / 10000) = p /\ 1 / 10000 <= p <= 9999 / 10000).
  { eexists. split; [reflexivity |]. unfold maxf. unq. unfold Rltb, Reqb. destruct (Rlt_dec (1 / 10000) p0); [lra |]. destruct (Req_EM_T _ _); lra. }
  destruct M as (p & -> & P). clear P0 p0. rewrite !K_wrap by (assumption || lra).
  destruct S as [S1 S2]. unfold Rleb, inside.
  set (A := K dt (t + 1 / 2 * p)). set (B := K dt (t + 1 - 1 / 2 * p)).
  assert (Pp : 0 < p - p * p) by nra.
  assert (Go : forall base lo hi, lo <= dt * A - dt * B <= hi -> - (p - p * p) <= base * (p - p * p) + lo -> base * (p - p * p) + hi <= p - p * p ->
    - (1) <= base + dt / (p - p * p) * (A - B) <= 1).
  { intros base lo hi D L H. assert (EQ : (base + dt / (p - p * p) * (A - B)) * (p - p * p) = base * (p - p * p) + (dt * A - dt * B)) by (field; lra).
    split; apply Rmult_le_reg_r with (p - p * p); try lra; rewrite EQ; lra. }
  assert (Near : forall x y, dist x <= dist y -> 0 <= dt * K dt x - dt * K dt y <= dist y - dist x).
  { intros x y L. apply K_pair; [exact S1 | exact L | lra]. }
  destruct (Rle_dec (2 - p) (t * 2)) as [C1 | C1].
  { (* from the trough up to zero *)
    assert (Dt : dist (t + 1 / 2 * p) = t - (1 - p / 2)) by (rewrite dist1 by lra; rewrite Rabs_pos_eq; lra).
    assert (Dp : dist (t + 1 - 1 / 2 * p) = Rmin (t - 1 / 2 * p) (p / 2 + 1 - t)).
    { unfold Rmin. destruct (Rle_dec (t - 1 / 2 * p) (p / 2 + 1 - t)); [rewrite dist1 by lra; rewrite Rabs_pos_eq; lra |].
      rewrite dist2 by lra. rewrite Rabs_left1; lra. }
    assert (U : Rmin (t - 1 / 2 * p) (p / 2 + 1 - t) - (t - (1 - p / 2)) <= (1 - p) * (2 * (1 - t) + p)
                /\ t - (1 - p / 2) <= Rmin (t - 1 / 2 * p) (p / 2 + 1 - t)).
    { split; unfold Rmin; destruct (Rle_dec (t - 1 / 2 * p) (p / 2 + 1 - t)); try lra; nra. }
    destruct U as [U1 U2]. specialize (Near (t + 1 / 2 * p) (t + 1 - 1 / 2 * p)). rewrite Dt, Dp in Near. specialize (Near U2).
    apply (Go _ 0 ((1 - p) * (2 * (1 - t) + p))); fold A B in Near; [lra | |].
    - replace ((t * 2 - 2) / p * (p - p * p)) with ((t * 2 - 2) * (1 - p)) by (field; lra). nra.
    - replace ((t * 2 - 2) / p * (p - p * p)) with ((t * 2 - 2) * (1 - p)) by (field; lra). nra. }
  destruct (Rle_dec p (t * 2)) as [C2 | C2].
  { replace (1 - (t * 2 - p) / (1 - p)) with ((1 - t * 2) / (1 - p)) by (field; lra).
    assert (EB : (1 - t * 2) / (1 - p) * (p - p * p) = p * (1 - t * 2)) by (field; lra).
    destruct (Rle_lt_dec t (1 / 2)) as [C3 | C3].
    - assert (Dp : dist (t + 1 - 1 / 2 * p) = t - p / 2) by (rewrite dist1 by lra; rewrite Rabs_pos_eq; lra).
      assert (Dt : dist (t + 1 / 2 * p) = Rmin (t + 1 / 2 * p) (1 - p / 2 - t)).
      { unfold Rmin. destruct (Rle_dec (t + 1 / 2 * p) (1 - p / 2 - t)); [rewrite dist0 by lra; rewrite Rabs_pos_eq; lra |].
        rewrite dist1 by lra. rewrite Rabs_left1; lra. }
      assert (U : Rmin (t + 1 / 2 * p) (1 - p / 2 - t) - (t - p / 2) <= p * (2 - p - 2 * t) /\ t - p / 2 <= Rmin (t + 1 / 2 * p) (1 - p / 2 - t)).
      { split; unfold Rmin; destruct (Rle_dec (t + 1 / 2 * p) (1 - p / 2 - t)); try lra; nra. }
      destruct U as [U1 U2]. specialize (Near (t + 1 - 1 / 2 * p) (t + 1 / 2 * p)). rewrite Dt, Dp in Near. specialize (Near U2).
      fold A B in Near. apply (Go _ (- (p * (2 - p - 2 * t))) 0); [lra | |]; rewrite EB; nra.
    - assert (Dt : dist (t + 1 / 2 * p) = 1 - p / 2 - t) by (rewrite dist1 by lra; rewrite Rabs_left1; lra).
      assert (Dp : dist (t + 1 - 1 / 2 * p) = Rmin (t - 1 / 2 * p) (p / 2 + 1 - t)).
      { unfold Rmin. destruct (Rle_dec (t - 1 / 2 * p) (p / 2 + 1 - t)); [rewrite dist1 by lra; rewrite Rabs_pos_eq; lra |].
        rewrite dist2 by lra. rewrite Rabs_left1; lra. }
      assert (U : Rmin (t - 1 / 2 * p) (p / 2 + 1 - t) - (1 - p / 2 - t) <= p * (2 * t - p) /\ 1 - p / 2 - t <= Rmin (t - 1 / 2 * p) (p / 2 + 1 - t)).
      { split; unfold Rmin; destruct (Rle_dec (t - 1 / 2 * p) (p / 2 + 1 - t)); try lra; nra. }
      destruct U as [U1 U2]. specialize (Near (t + 1 / 2 * p) (t + 1 - 1 / 2 * p)). rewrite Dt, Dp in Near. specialize (Near U2).
      fold A B in Near. apply (Go _ 0 (p * (2 * t - p))); [lra | |]; rewrite EB; nra. }
  assert (Dp : dist (t + 1 - 1 / 2 * p) = p / 2 - t) by (rewrite dist1 by lra; rewrite Rabs_left1; lra).
  assert (Dt : dist (t + 1 / 2 * p) = Rmin (t + 1 / 2 * p) (1 - p / 2 - t)).
  { unfold Rmin. destruct (Rle_dec (t + 1 / 2 * p) (1 - p / 2 - t)); [rewrite dist0 by lra; rewrite Rabs_pos_eq; lra |].
    rewrite dist1 by lra. rewrite Rabs_left1; lra. }
  assert (U : Rmin (t + 1 / 2 * p) (1 - p / 2 - t) - (p / 2 - t) <= (1 - p) * (2 * t + p) /\ p / 2 - t <= Rmin (t + 1 / 2 * p) (1 - p / 2 - t)).
  { split; unfold Rmin; destruct (Rle_dec (t + 1 / 2 * p) (1 - p / 2 - t)); try lra; nra. }
  destruct U as [U1 U2]. specialize (Near (t + 1 - 1 / 2 * p) (t + 1 / 2 * p)). rewrite Dt, Dp in Near. specialize (Near U2).
  fold A B in Near. apply (Go _ (- ((1 - p) * (2 * t + p))) 0); [lra | |].
  - replace (t * 2 / p * (p - p * p)) with (t * 2 * (1 - p)) by (field; lra). nra.
  - replace (t * 2 / p * (p - p * p)) with (t * 2 * (1 - p)) by (field; lra). nra.
Qed.

(** The pulse: at most 2 above its base line [- pw] *)
Lemma trip_range t dt pw : slow dt -> width_ok pw -> 0 <= t < 1 -> inside 3 (w_trip RPops t dt pw).
Proof.
  intros S W T. destruct W as [W1 W2]. unfold w_trip. unq. rewrite (wrap_fr (t + 3 / 4 + 1 / 2 * pw)) by lra.
  pose proof (fr_range (t + 3 / 4 + 1 / 2 * pw)) as F. set (f := fr (t + 3 / 4 + 1 / 2 * pw)) in *. clearbody f.
  unfold Rltb, Rleb.
  set (y := if Rle_dec pw f then - pw else if Rle_dec (2 * pw) (4 * f) then 4 - 4 * f / pw - pw else 4 * f / pw - pw).
  assert (Y : - pw <= y <= 2 - pw /\ (0 < pw -> (y = - pw \/ (y + pw) * pw <= 2 * pw - 4 * dist (f - 1 / 2 * pw)))).
  { unfold y. destruct (Rle_dec pw f) as [C | C]; [split; [lra | intros _; left; reflexivity] |]. assert (P : 0 < pw) by lra.
    assert (E : 4 * f / pw * pw = 4 * f) by (field; lra). set (z := 4 * f / pw) in *. clearbody z.
    assert (Dd : dist (f - 1 / 2 * pw) = Rabs (f - 1 / 2 * pw)) by (apply dist0; lra). rewrite Dd.
    destruct (Rle_dec (2 * pw) (4 * f)).
    - rewrite Rabs_pos_eq by lra. split; [nra |]. intros _. right. nra.
    - rewrite Rabs_left1 by lra. split; [nra |]. intros _. right. nra. }
  replace (if if Rle_dec pw f then true else false then - pw else if if Rle_dec (2 * pw) (4 * f) then true else false then 4 - 4 * f / pw - pw else 4 * f / pw - pw)
    with y by (unfold y; destruct (Rle_dec pw f); [| destruct (Rle_dec (2 * pw) (4 * f))]; reflexivity).
  clearbody y. destruct Y as [Y Y2]. destruct (Rlt_dec 0 pw) as [P | P]; [| unfold inside; lra].
  rewrite !K_wrap by (assumption || lra). destruct S as [S1 S2].
  assert (E0 : blamp RPops f dt = K dt f). { rewrite <- (fr_id f F) at 1. apply blamp_BB. split; assumption. }
  rewrite E0. rewrite (K_shift dt (f + 1 - 1 / 2 * pw) 1 (f - 1 / 2 * pw)) by lra. rewrite (K_shift dt (f + 1 - pw) 1 (f - pw)) by lra.
  pose proof (K_lip_abs dt f (f - 1 / 2 * pw) S1) as L1. pose proof (K_lip_abs dt (f - 1 / 2 * pw) f S1) as L2.
  pose proof (K_lip_abs dt (f - pw) (f - 1 / 2 * pw) S1) as L3. pose proof (K_lip_abs dt (f - 1 / 2 * pw) (f - pw) S1) as L4.
  replace (f - (f - 1 / 2 * pw)) with (pw / 2) in L1 by lra. replace (f - 1 / 2 * pw - f) with (- (pw / 2)) in L2 by lra.
  replace (f - pw - (f - 1 / 2 * pw)) with (- (pw / 2)) in L3 by lra. replace (f - 1 / 2 * pw - (f - pw)) with (pw / 2) in L4 by lra.
  rewrite Rabs_Ropp in L2, L3. rewrite Rabs_pos_eq in L1, L2, L3, L4 by lra.
  pose proof (K_lip dt f (f - 1 / 2 * pw) S1) as M1. pose proof (K_lip dt (f - pw) (f - 1 / 2 * pw) S1) as M2.
  assert (N1 : Rmax 0 (dist (f - 1 / 2 * pw) - dist f) <= dist (f - 1 / 2 * pw)).
  { pose proof (dist_range f). pose proof (dist_range (f - 1 / 2 * pw)). apply Rmax_lub; lra. }
  assert (N2 : Rmax 0 (dist (f - 1 / 2 * pw) - dist (f - pw)) <= dist (f - 1 / 2 * pw)).
  { pose proof (dist_range (f - pw)). pose proof (dist_range (f - 1 / 2 * pw)). apply Rmax_lub; lra. }
  specialize (Y2 P). set (d := dist (f - 1 / 2 * pw)) in *.
  set (a := K dt f) in *. set (b := K dt (f - 1 / 2 * pw)) in *. set (c := K dt (f - pw)) in *.
  assert (EQ : 2 * dt / pw * (a - 2 * b + c) * pw = 2 * (dt * (a - b) + dt * (c - b))) by (field; lra).
  set (k := 2 * dt / pw * (a - 2 * b + c)) in *. clearbody k.
  assert (- 2 <= k <= 2) by nra. unfold inside.
  assert (y + k <= 2 - pw). { destruct Y2 as [Y2 | Y2]; [lra |]. assert (k * pw <= 4 * d) by lra. nra. }
  lra.
Qed.

Lemma PI_3_4 : 3 < PI <= 4.
Proof. split; [pose proof PI2_3_2; lra | apply PI_4]. Qed.
Lemma half_range t dt : slow dt -> 0 <= t < 1 -> inside 3 (w_half RPops t dt).
Proof.
  intros S T. unfold w_half. unq. rewrite K_wrap by (assumption || lra).
  assert (E0 : blamp RPops t dt = K dt t). { rewrite <- (fr_id t T) at 1. apply blamp_BB. exact S. }
  rewrite E0. pose proof (K_range dt t). pose proof (K_range dt (t + 1 / 2)). pose proof PI_3_4 as P.
  pose proof (SIN_bound (t * (2 * PI))) as Sb. destruct S as [S1 S2].
  assert (I1 : 1 / 2 <= 2 / PI <= 2 / 3).
  { assert (EQ : 2 / PI * PI = 2) by (field; lra). set (z := 2 / PI) in *. clearbody z. split; nra. }
  replace (- (2) / PI) with (- (2 / PI)) by (field; lra).
  set (k1 := K dt t) in *. set (k2 := K dt (t + 1 / 2)) in *.
  assert (C : 0 <= 2 * PI * dt * (k1 + k2) <= 4 / 3).
  { assert (0 <= 2 * PI * dt <= 2) by nra. set (m := 2 * PI * dt) in *. clearbody m. nra. }
  set (c := 2 * PI * dt * (k1 + k2)) in *. clearbody c. set (i := 2 / PI) in *. clearbody i.
  unfold inside, Rltb. destruct (Rlt_dec t (1 / 2)); lra.
Qed.
Lemma full_range t dt : slow dt -> 0 <= t < 1 -> inside 3 (w_full RPops t dt).
Proof.
  intros S T. unfold w_full. unq. rewrite K_wrap by (assumption || lra). rewrite wrap_fr by lra.
  pose proof (fr_range (t + 1 / 4)) as F. set (f := fr (t + 1 / 4)) in *. clearbody f.
  pose proof (K_range dt (t + 1 / 4)). pose proof PI_3_4 as P.
  pose proof (SIN_bound (f * PI)) as Sb. assert (Sp : 0 <= sin (f * PI)) by (apply sin_ge_0; nra). destruct S as [S1 S2].
  assert (I1 : 1 <= 4 / PI <= 4 / 3).
  { assert (EQ : 4 / PI * PI = 4) by (field; lra). set (z := 4 / PI) in *. clearbody z. split; nra. }
  set (k1 := K dt (t + 1 / 4)) in *.
  assert (C : 0 <= 2 * PI * dt * k1 <= 2 / 3).
  { assert (0 <= 2 * PI * dt <= 2) by nra. set (m := 2 * PI * dt) in *. clearbody m. nra. }
  set (c := 2 * PI * dt * k1) in *. clearbody c. set (i := 4 / PI) in *. clearbody i. unfold inside. lra.
Qed.
Lemma sqr2_range t dt pw : slow dt -> width_ok pw -> 0 <= t < 1 -> inside 1 (w_sqr2 RPops t dt pw).
Proof.
  intros S W T. rewrite sqr2_eq by assumption. set (a := fr _).
  pose proof (sq_range a dt S (fr_range _)). pose proof (sq_range (fr (a + 1 / 2 * (1 - pw))) dt S (fr_range _)). unfold inside in *. lra.
Qed.

(** * The whole oscillator *)
Definition poly_in_range (s : poly R) : Prop := 0 <= p_t s < 1 /\ 0 < p_sr s /\ 0 <= p_dt s /\ 0 <= p_hz s /\ width_ok (p_pw s).
Lemma sample_range s : poly_in_range s -> inside (wave_bound (p_wave s)) (next_sample RPops s).
Proof.
  intros (T & Sr & D & _ & W). unfold next_sample, get_freq_in_hz, w_sin, w_cos. unq. unfold Rleb.
  pose proof (SIN_bound (p_t s * (2 * PI))) as Sb. pose proof (COS_bound (p_t s * (2 * PI))) as Cb.
  destruct (Rle_dec (p_sr s / 4) (p_dt s * p_sr s)) as [L | L].
  { destruct (p_wave s); cbn [wave_bound]; unfold inside; lra. }
  assert (S : slow (p_dt s)). { split; [exact D |]. assert (p_dt s * p_sr s < p_sr s / 4) by lra. nra. }
  destruct (p_wave s); cbn [wave_bound].
  - apply saw_range; assumption.
  - unfold inside; lra.
  - unfold inside; lra.
  - apply tri_range; assumption.
  - rewrite sqr_eq by assumption. apply sq_range; assumption.
  - apply rect_range; assumption.
  - apply ramp_range; assumption.
  - apply tri2_range; assumption.
  - apply sqr2_range; assumption.
  - apply half_range; assumption.
  - apply full_range; assumption.
  - apply trip_range; assumption.
  - apply trap_range; assumption.
  - apply trap2_range; assumption.
Qed.
Lemma div_nonneg a b : 0 <= a -> 0 < b -> 0 <= a / b.
Proof. intros. apply Rmult_le_pos; [lra | left; apply Rinv_0_lt_compat; lra]. Qed.
Lemma step_in_range s o : poly_in_range s -> op_in_range o -> poly_in_range (fst (poly_step RPops s o)).
Proof.
  intros (T & Sr & D & H & W) G. destruct o; cbn [poly_step fst op_in_range] in *; unfold poly_in_range.
  - unfold poly_init. cbn [with_sr p_dt p_hz]. match goal with |- context [if ?b then _ else _] => destruct b end; cbn.
    + pose proof (div_nonneg (p_hz s) sr H G). tauto.
    + tauto.
  - cbn. pose proof (div_nonneg hz (p_sr s) G Sr). tauto.
  - cbn. tauto.
  - cbn. tauto.
  - cbn. tauto.
  - cbn. assert (0 <= p_dt s * p_sr s) by nra. pose proof (div_nonneg (p_dt s * p_sr s) sr ltac:(lra) G). unfold get_freq_in_hz. unq. tauto.
  - unfold sync. unq. unfold Rleb. destruct (Rle_dec 0 phase); [| contradiction]. cbn [with_t p_t p_sr p_dt p_hz p_pw].
    rewrite Ztrunc_floor by assumption. pose proof (fr_range phase). unfold fr in *. tauto.
  - unfold inc. unq. cbn [with_t p_t p_sr p_dt p_hz p_pw]. rewrite wrap_fr by lra. pose proof (fr_range (p_t s + p_dt s)). tauto.
Qed.
Lemma run_in_range l : forall s, poly_in_range s -> Forall op_in_range l -> poly_in_range (poly_run RPops s l).
Proof.
  induction l as [| o l IH]; intros s H G; [exact H |]. inversion G; subst. cbn [poly_run]. apply IH; [apply step_in_range |]; assumption.
Qed.
Lemma init_in_range w freq sr : 0 <= freq -> 0 < sr -> poly_in_range (fst (poly_step RPops (poly_new RPops w freq) (PInit sr))).
Proof.
  intros H G. cbn [poly_step fst]. unfold poly_init, poly_new. cbn [with_sr p_dt p_hz]. unq.
  assert (Wd : width_ok (1 / 2)) by (unfold width_ok; lra). pose proof (div_nonneg freq sr H G).
  match goal with |- context [if ?b then _ else _] => destruct b end; unfold poly_in_range; cbn; rewrite ?Rdiv1; repeat split; try lra;
    destruct Wd; try lra.
Qed.

(** * The phase in exact arithmetic *)
Lemma phase_exact s n : 0 <= p_t s < 1 -> 0 <= p_dt s ->
  p_t (poly_run RPops s (repeat PSample n)) = fr (p_t s + INR n * p_dt s).
Proof.
  revert s. induction n as [| n IH]; intros s T D.
  - cbn [repeat poly_run]. rewrite fr_id; cbn [INR]; lra.
  - cbn [repeat poly_run poly_step fst]. rewrite IH; cbn [inc with_t p_t p_dt].
    + unq. rewrite wrap_fr by lra. unfold fr at 2. apply fr_shift with (n := (- Zfloor (p_t s + p_dt s))%Z). rewrite opp_IZR, S_INR. lra.
    + unq. rewrite wrap_fr by lra. apply fr_range.
    + exact D.
Qed.
Lemma keeps_freq s sr : sr <> 0 -> get_freq_in_hz RPops (set_sample_rate RPops s sr) = get_freq_in_hz RPops s.
Proof. intros H. unfold get_freq_in_hz, set_sample_rate, set_freq, set_dt, with_sr, get_freq_in_hz. cbn. field. exact H. Qed.

(** * No jumps *)
Definition HH (dt x : R) : R := 2 * IZR (Zfloor x) + blep RPops (fr x) dt.
Definition gg (dt u : R) : R := if Rlt_dec u 0 then -2 + uu dt (- u) * uu dt (- u) else - (uu dt u * uu dt u).
Lemma HH_cell dt n u : 0 < dt < 1 / 4 -> - (1 / 2) <= u <= 1 / 2 -> HH dt (IZR n + u) = 2 * IZR n + gg dt u.
Proof.
  intros D U. unfold HH, gg. destruct (Rlt_dec u 0) as [L | L].
  - assert (Z : Zfloor (IZR n + u) = (n - 1)%Z) by (apply Zfloor_imp; rewrite plus_IZR, minus_IZR; lra).
    unfold fr. rewrite Z, minus_IZR. replace (IZR n + u - (IZR n - 1)) with (1 + u) by lra.
    unfold blep, square_number, uu. unq. unfold Rltb. destruct (Rlt_dec (1 + u) dt); [lra |].
    destruct (Rlt_dec (1 - dt) (1 + u)); destruct (Rlt_dec (- u) dt); lra.
  - assert (Z : Zfloor (IZR n + u) = n) by (apply Zfloor_imp; rewrite plus_IZR; lra).
    unfold fr. rewrite Z. replace (IZR n + u - IZR n) with u by lra.
    unfold blep, square_number, uu. unq. unfold Rltb. destruct (Rlt_dec u dt).
    + ring.
    + destruct (Rlt_dec (1 - dt) u); lra.
Qed.
Lemma uu_0 dt : 0 < dt -> uu dt 0 = 1.
Proof. intros H. unfold uu. destruct (Rlt_dec 0 dt); [unfold Rdiv; rewrite Rmult_0_l; lra | lra]. Qed.
Lemma sq_diff u v : 0 <= v <= u -> u <= 1 -> 0 <= u * u - v * v <= 2 * (u - v).
Proof. intros H1 H2. split; nra. Qed.
Lemma gg_lip dt u v : 0 < dt -> u <= v -> 0 <= dt * (gg dt v - gg dt u) <= 2 * (v - u).
Proof.
  intros D L. unfold gg. destruct (Rlt_dec u 0) as [A | A]; destruct (Rlt_dec v 0) as [B | B]; try lra.
  - pose proof (uu_range dt (- u) ltac:(lra)) as R1. pose proof (uu_range dt (- v) ltac:(lra)) as R2.
    pose proof (uu_anti dt (- v) (- u) ltac:(lra) ltac:(lra)) as M. pose proof (uu_lip dt (- v) (- u) ltac:(lra) ltac:(lra) ltac:(lra)) as P.
    rewrite Rmax_right in P by lra. pose proof (sq_diff (uu dt (- v)) (uu dt (- u)) ltac:(lra) ltac:(lra)). split; nra.
  - pose proof (uu_range dt (- u) ltac:(lra)) as R1. pose proof (uu_range dt v ltac:(lra)) as R2.
    pose proof (uu_lip dt 0 (- u) ltac:(lra) ltac:(lra) ltac:(lra)) as P1. pose proof (uu_lip dt 0 v ltac:(lra) ltac:(lra) ltac:(lra)) as P2.
    rewrite Rmax_right in P1, P2 by lra. rewrite uu_0 in P1, P2 by exact D.
    pose proof (sq_diff 1 (uu dt (- u)) ltac:(lra) ltac:(lra)). pose proof (sq_diff 1 (uu dt v) ltac:(lra) ltac:(lra)). split; nra.
  - pose proof (uu_range dt u ltac:(lra)) as R1. pose proof (uu_range dt v ltac:(lra)) as R2.
    pose proof (uu_anti dt u v ltac:(lra) ltac:(lra)) as M. pose proof (uu_lip dt u v ltac:(lra) ltac:(lra) ltac:(lra)) as P.
    rewrite Rmax_right in P by lra. pose proof (sq_diff (uu dt u) (uu dt v) ltac:(lra) ltac:(lra)). split; nra.
Qed.
Lemma HH_lip dt x y : 0 < dt < 1 / 4 -> x <= y <= x + 1 / 2 -> 0 <= dt * (HH dt y - HH dt x) <= 2 * (y - x).
Proof.
  intros D [L M]. set (n := Zfloor (x + 1 / 2)).
  pose proof (Zfloor_lb (x + 1 / 2)) as F1. pose proof (Zfloor_ub (x + 1 / 2)) as F2. fold n in F1, F2.
  assert (Ex : HH dt x = 2 * IZR n + gg dt (x - IZR n)).
  { rewrite <- HH_cell by (assumption || lra). f_equal. lra. }
  destruct (Rle_lt_dec y (IZR n + 1 / 2)) as [C | C].
  - assert (Ey : HH dt y = 2 * IZR n + gg dt (y - IZR n)).
    { rewrite <- HH_cell by (assumption || lra). f_equal. lra. }
    pose proof (gg_lip dt (x - IZR n) (y - IZR n) ltac:(lra) ltac:(lra)). rewrite Ex, Ey. nra.
  - assert (Em : HH dt (IZR n + 1 / 2) = 2 * IZR n + gg dt (1 / 2)) by (apply HH_cell; lra).
    assert (Em2 : HH dt (IZR n + 1 / 2) = 2 * IZR (n + 1) + gg dt (- (1 / 2))).
    { rewrite <- HH_cell by (assumption || lra). f_equal. rewrite plus_IZR. lra. }
    assert (Ey : HH dt y = 2 * IZR (n + 1) + gg dt (y - IZR (n + 1))).
    { rewrite <- HH_cell by (rewrite ?plus_IZR; assumption || lra). f_equal. lra. }
    pose proof (gg_lip dt (x - IZR n) (1 / 2) ltac:(lra) ltac:(lra)).
    pose proof (gg_lip dt (- (1 / 2)) (y - IZR (n + 1)) ltac:(lra) ltac:(rewrite plus_IZR; lra)).
    rewrite plus_IZR in *. nra.
Qed.
Lemma HH_period dt x : HH dt (x + 1) = HH dt x + 2.
Proof.
  unfold HH. rewrite (fr_shift (x + 1) 1 x) by reflexivity.
  replace (Zfloor (x + 1)) with (Zfloor x + 1)%Z; [rewrite plus_IZR; lra |].
  symmetry. apply Zfloor_imp. rewrite !plus_IZR. pose proof (Zfloor_lb x). pose proof (Zfloor_ub x). lra.
Qed.
Lemma HH_id dt t : 0 <= t < 1 -> HH dt t = blep RPops t dt.
Proof. intros T. unfold HH. rewrite fr_id by exact T. replace (Zfloor t) with 0%Z by (symmetry; apply Zfloor_imp; cbn; lra). lra. Qed.
Lemma HH_fr dt z : HH dt (fr z) = HH dt z - 2 * IZR (Zfloor z).
Proof. rewrite HH_id by apply fr_range. unfold HH. lra. Qed.
Lemma HH_fr_add dt z c : HH dt (fr z + c) = HH dt (z + c) - 2 * IZR (Zfloor z).
Proof.
  unfold HH. assert (E : z + c = fr z + c + IZR (Zfloor z)) by (unfold fr; lra).
  rewrite (fr_shift (z + c) (Zfloor z) (fr z + c) E).
  replace (Zfloor (z + c)) with (Zfloor (fr z + c) + Zfloor z)%Z; [rewrite plus_IZR; lra |].
  symmetry. apply Zfloor_imp. rewrite !plus_IZR. pose proof (Zfloor_lb (fr z + c)). pose proof (Zfloor_ub (fr z + c)). unfold fr in *. lra.
Qed.
Definition local_lip (L : R) (F : R -> R) : Prop := forall x y, x <= y <= x + 1 / 2 -> Rabs (F y - F x) <= L * (y - x).
Lemma circle_lip L F t t' : (forall x, F (x + 1) = F x) -> local_lip L F -> 0 <= t < 1 -> 0 <= t' < 1 -> Rabs (F t - F t') <= L * circle t t'.
Proof.
  intros Pd Lp. assert (G : forall a b, 0 <= a < 1 -> 0 <= b < 1 -> a <= b -> Rabs (F b - F a) <= L * circle a b).
  { intros a b A B AB. unfold circle. rewrite (Rabs_left1 (a - b)) by lra. unfold Rmin. destruct (Rle_dec _ _) as [C | C].
    - replace (- (a - b)) with (b - a) by lra. apply Lp. lra.
    - pose proof (Lp b (a + 1) ltac:(lra)) as Q. rewrite Pd in Q. rewrite Rabs_minus_sym. replace (1 - - (a - b)) with (a + 1 - b) by lra. exact Q. }
  intros T T'. destruct (Rle_lt_dec t t') as [C | C].
  - rewrite Rabs_minus_sym. apply G; assumption.
  - unfold circle. rewrite (Rabs_minus_sym t t'). apply (G t' t); [assumption | assumption | lra].
Qed.
Definition sqz (dt z : R) : R := 1 + HH dt z - HH dt (z + 1 / 2).
Lemma sq_sqz dt z : 0 < dt < 1 / 4 -> sq (fr z) dt = sqz dt z.
Proof.
  intros D. unfold sqz. assert (E1 : HH dt z = HH dt (fr z) + 2 * IZR (Zfloor z)) by (rewrite HH_fr; lra).
  assert (E2 : HH dt (z + 1 / 2) = HH dt (fr z + 1 / 2) + 2 * IZR (Zfloor z)) by (rewrite HH_fr_add; lra).
  rewrite E1, E2. pose proof (fr_range z) as F. set (f := fr z) in *. clearbody f. rewrite (HH_id dt f F). unfold HH, sq.
  destruct (Rlt_dec f (1 / 2)) as [L | L].
  - replace (Zfloor (f + 1 / 2)) with 0%Z by (symmetry; apply Zfloor_imp; cbn; lra). lra.
  - replace (Zfloor (f + 1 / 2)) with 1%Z by (symmetry; apply Zfloor_imp; cbn; lra). lra.
Qed.
Lemma sqz_period dt z : sqz dt (z + 1) = sqz dt z.
Proof. unfold sqz. replace (z + 1 + 1 / 2) with (z + 1 / 2 + 1) by lra. rewrite !HH_period. lra. Qed.
Lemma diff_lip dt a b d : 0 < dt -> 0 <= dt * a <= 2 * d -> 0 <= dt * b <= 2 * d -> Rabs (a - b) <= 2 / dt * d.
Proof.
  intros D A B. assert (E : 2 / dt * d = 2 * d / dt) by (field; lra). rewrite E.
  assert (Ha : 0 <= a <= 2 * d / dt).
  { split; [nra |]. apply Rmult_le_reg_r with dt; [lra |]. unfold Rdiv. rewrite Rmult_assoc, Rinv_l by lra. lra. }
  assert (Hb : 0 <= b <= 2 * d / dt).
  { split; [nra |]. apply Rmult_le_reg_r with dt; [lra |]. unfold Rdiv. rewrite Rmult_assoc, Rinv_l by lra. lra. }
  apply Rabs_le. lra.
Qed.
Lemma HH_shift_lip dt c e k : 0 < dt < 1 / 4 -> local_lip (2 / dt) (fun x => k + HH dt (x + c) - HH dt (x + e)).
Proof.
  intros D x y L. pose proof (HH_lip dt (x + c) (y + c) D ltac:(lra)). pose proof (HH_lip dt (x + e) (y + e) D ltac:(lra)).
  replace (k + HH dt (y + c) - HH dt (y + e) - (k + HH dt (x + c) - HH dt (x + e))) with
    ((HH dt (y + c) - HH dt (x + c)) - (HH dt (y + e) - HH dt (x + e))) by ring.
  apply diff_lip; lra.
Qed.
Lemma HH_lin_lip dt c k : 0 < dt < 1 / 4 -> local_lip (2 / dt) (fun x => k + HH dt (x + c) - 2 * x).
Proof.
  intros D x y L. pose proof (HH_lip dt (x + c) (y + c) D ltac:(lra)).
  replace (k + HH dt (y + c) - 2 * y - (k + HH dt (x + c) - 2 * x)) with ((HH dt (y + c) - HH dt (x + c)) - 2 * (y - x)) by ring.
  apply diff_lip; try lra. split; nra.
Qed.
Lemma smooth_saw dt t t' : 0 < dt < 1 / 4 -> 0 <= t < 1 -> 0 <= t' < 1 -> Rabs (w_saw RPops t dt - w_saw RPops t' dt) <= 2 / dt * circle t t'.
Proof.
  intros D T T'. assert (E : forall a, 0 <= a < 1 -> w_saw RPops a dt = - (0 + HH dt (a + 1 / 2) - 2 * a)).
  { intros a A. unfold w_saw. unq. rewrite wrap_fr by lra. unfold HH, fr. lra. }
  rewrite !E by assumption. replace (- (0 + HH dt (t + 1 / 2) - 2 * t) - - (0 + HH dt (t' + 1 / 2) - 2 * t')) with
    (- ((0 + HH dt (t + 1 / 2) - 2 * t) - (0 + HH dt (t' + 1 / 2) - 2 * t'))) by ring. rewrite Rabs_Ropp.
  apply (circle_lip (2 / dt) (fun x => 0 + HH dt (x + 1 / 2) - 2 * x)); try assumption.
  - intros x. replace (x + 1 + 1 / 2) with (x + 1 / 2 + 1) by lra. rewrite HH_period. lra.
  - apply HH_lin_lip. exact D.
Qed.
Lemma smooth_ramp dt t t' : 0 < dt < 1 / 4 -> 0 <= t < 1 -> 0 <= t' < 1 -> Rabs (w_ramp RPops t dt - w_ramp RPops t' dt) <= 2 / dt * circle t t'.
Proof.
  intros D T T'. assert (E : forall a, 0 <= a < 1 -> w_ramp RPops a dt = 1 + HH dt (a + 0) - 2 * a).
  { intros a A. unfold w_ramp. unq. rewrite wrap_fr by lra. rewrite fr_id by exact A. rewrite Rplus_0_r, HH_id by exact A. lra. }
  rewrite !E by assumption.
  apply (circle_lip (2 / dt) (fun x => 1 + HH dt (x + 0) - 2 * x)); try assumption.
  - intros x. replace (x + 1 + 0) with (x + 0 + 1) by lra. rewrite HH_period. lra.
  - apply HH_lin_lip. exact D.
Qed.
Lemma smooth_rect dt pw t t' : 0 < dt < 1 / 4 -> width_ok pw -> 0 <= t < 1 -> 0 <= t' < 1 ->
  Rabs (w_rect RPops t dt pw - w_rect RPops t' dt pw) <= 2 / dt * circle t t'.
Proof.
  intros D [W1 W2] T T'. assert (E : forall a, 0 <= a < 1 -> w_rect RPops a dt pw = (2 - 2 * pw) + HH dt (a + 0) - HH dt (a + (1 - pw))).
  { intros a A. unfold w_rect. unq. rewrite wrap_fr by lra. rewrite Rplus_0_r, HH_id by exact A.
    replace (a + 1 - pw) with (a + (1 - pw)) by lra. unfold HH, Rltb. destruct (Rlt_dec a pw).
    - replace (Zfloor (a + (1 - pw))) with 0%Z by (symmetry; apply Zfloor_imp; cbn; lra). lra.
    - replace (Zfloor (a + (1 - pw))) with 1%Z by (symmetry; apply Zfloor_imp; cbn; lra). lra. }
  rewrite !E by assumption.
  apply (circle_lip (2 / dt) (fun x => (2 - 2 * pw) + HH dt (x + 0) - HH dt (x + (1 - pw)))); try assumption.
  - intros x. replace (x + 1 + 0) with (x + 0 + 1) by lra. replace (x + 1 + (1 - pw)) with (x + (1 - pw) + 1) by lra. rewrite !HH_period. lra.
  - apply HH_shift_lip. exact D.
Qed.
Lemma sqz_lip dt c : 0 < dt < 1 / 4 -> local_lip (2 / dt) (fun x => sqz dt (x + c)).
Proof.
  intros D x y L. unfold sqz. pose proof (HH_shift_lip dt c (c + 1 / 2) 1 D x y L) as H. cbv beta in H.
  replace (x + c + 1 / 2) with (x + (c + 1 / 2)) by lra. replace (y + c + 1 / 2) with (y + (c + 1 / 2)) by lra. exact H.
Qed.
Lemma smooth_sqr dt t t' : 0 < dt < 1 / 4 -> 0 <= t < 1 -> 0 <= t' < 1 -> Rabs (w_sqr RPops t dt - w_sqr RPops t' dt) <= 2 / dt * circle t t'.
Proof.
  intros D T T'. rewrite !sqr_eq by assumption. rewrite <- (fr_id t T) at 1. rewrite <- (fr_id t' T') at 1. rewrite !sq_sqz by exact D.
  rewrite <- (Rplus_0_r t) at 1. rewrite <- (Rplus_0_r t') at 1.
  apply (circle_lip (2 / dt) (fun x => sqz dt (x + 0))); try assumption.
  - intros x. replace (x + 1 + 0) with (x + 0 + 1) by lra. apply sqz_period.
  - apply sqz_lip. exact D.
Qed.
Lemma smooth_sqr2 dt pw t t' : 0 < dt < 1 / 4 -> width_ok pw -> 0 <= t < 1 -> 0 <= t' < 1 ->
  Rabs (w_sqr2 RPops t dt pw - w_sqr2 RPops t' dt pw) <= 2 / dt * circle t t'.
Proof.
  intros D W T T'. set (c := 7 / 8 + 1 / 4 * (pw - 1 / 2)). set (e := c + 1 / 2 * (1 - pw)).
  assert (E : forall a, 0 <= a < 1 -> w_sqr2 RPops a dt pw = (sqz dt (a + c) + sqz dt (a + e)) / 2).
  { intros a A. rewrite sqr2_eq by assumption. cbv zeta.
    replace (a + 7 / 8 + 1 / 4 * (pw - 1 / 2)) with (a + c) by (unfold c; lra).
    rewrite (sq_sqz dt (a + c)) by exact D.
    replace (fr (fr (a + c) + 1 / 2 * (1 - pw))) with (fr (a + e)).
    - rewrite sq_sqz by exact D. reflexivity.
    - symmetry. apply fr_shift with (n := (- Zfloor (a + c))%Z). rewrite opp_IZR. unfold fr, e. lra. }
  rewrite !E by assumption.
  assert (G1 : Rabs (sqz dt (t + c) - sqz dt (t' + c)) <= 2 / dt * circle t t').
  { apply (circle_lip (2 / dt) (fun x => sqz dt (x + c))); try assumption; [| apply sqz_lip; exact D].
    intros x. replace (x + 1 + c) with (x + c + 1) by lra. apply sqz_period. }
  assert (G2 : Rabs (sqz dt (t + e) - sqz dt (t' + e)) <= 2 / dt * circle t t').
  { apply (circle_lip (2 / dt) (fun x => sqz dt (x + e))); try assumption; [| apply sqz_lip; exact D].
    intros x. replace (x + 1 + e) with (x + e + 1) by lra. apply sqz_period. }
  replace ((sqz dt (t + c) + sqz dt (t + e)) / 2 - (sqz dt (t' + c) + sqz dt (t' + e)) / 2) with
    ((sqz dt (t + c) - sqz dt (t' + c)) / 2 + (sqz dt (t + e) - sqz dt (t' + e)) / 2) by lra.
  eapply Rle_trans; [apply Rabs_triang |]. unfold Rdiv at 1 2. rewrite !Rabs_mult. rewrite (Rabs_pos_eq (/ 2)) by lra. lra.
Qed.
