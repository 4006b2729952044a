(** Normalising and noise, in floating point *)
From Coq Require Import Reals Lra Lia.
From Flocq Require Import Core BinarySingleNaN Relative.
From Verif Require Import Base FloatBase OscModel RngModel RngProofs WaveModel WaveSpec WaveProofs.
Local Open Scope R_scope.

Section Float.
Context {prec emax : Z} {I : ieee prec emax}.
Notation fl := (binary_float prec emax).

(** ** Noise *)
Lemma wide_ok : forall x : f32, fin x -> val (wide (prec := prec) (emax := emax) x) = val x /\ fin (wide (prec := prec) (emax := emax) x).
Proof.
  intros x Hx. destruct x as [s | s | | s m e B]; try discriminate Hx; [split; reflexivity |]. unfold wide.
  assert (E : val (B754_finite s m e B : f32) = IZR (cond_Zopp s (Zpos m)) * bpow radix2 e) by reflexivity.
  assert (R0 : rnd (prec := prec) (emax := emax) (IZR (cond_Zopp s (Zpos m)) * bpow radix2 e) = IZR (cond_Zopp s (Zpos m)) * bpow radix2 e).
  { apply rnd_format. rewrite <- E. eapply generic_inclusion_mag with (fexp1 := SpecFloat.fexp 24 128); [| apply generic_format_B2R].
    intros _. unfold SpecFloat.fexp, SpecFloat.emin. destruct I. lia. }
  assert (T : Rabs (IZR (cond_Zopp s (Zpos m)) * bpow radix2 e) < top (emax := emax)).
  { rewrite <- E. eapply Rlt_le_trans; [apply (abs_B2R_lt_emax 24 128) |]. unfold top. apply bpow_le. destruct I. assumption. }
  destruct (fze_ok (prec := prec) (emax := emax) (cond_Zopp s (Zpos m)) e) as [A C]; [rewrite R0; exact T |]. rewrite A, R0, E. split; [reflexivity | exact C].
Qed.
Lemma noise_one : forall d x : fl, fin d -> fin x -> Rabs (val d) <= 1 / 2 -> Rabs (val x) <= 1 -> fin (noise_sample d x) /\ Rabs (val (noise_sample d x)) <= 1.
Proof.
  intros d x Fd Fx Hd Hx. unfold noise_sample. apply Rabs_le_inv in Hd. apply Rabs_le_inv in Hx.
  assert (T : forall y, Rabs y <= 2 -> Rabs (rnd (prec := prec) (emax := emax) y) < top (emax := emax)) by (intros y Hy; apply (fits y 1); [destruct I; lia | exact Hy]).
  assert (R2 : forall y, - 2 <= y <= 2 -> - 2 <= rnd (prec := prec) (emax := emax) y <= 2) by (intros y Hy; apply rnd_between; [change (-2) with (IZR (-2)); apply rnd_int; lia | change 2 with (IZR 2); apply rnd_int; lia | exact Hy]).
  assert (R1 : forall y, - 1 <= y <= 1 -> - 1 <= rnd (prec := prec) (emax := emax) y <= 1) by (intros y Hy; apply rnd_between; [change (-1) with (IZR (-1)); apply rnd_int; lia | apply rnd_1 | exact Hy]).
  destruct (fadd_ok x d Fx Fd) as [V1 F1]; [apply T; apply Rabs_le; lra |]. set (s := fadd x d) in *. pose proof (R2 (val x + val d) ltac:(lra)) as B1. rewrite <- V1 in B1.
  set (s2 := if fltb fone s then fsub s fone else s).
  assert (B2 : fin s2 /\ - 2 <= val s2 <= 1).
  { unfold s2. destruct (fltb fone s) eqn:E.
    - apply fltb_true in E; [| apply fin_fone | exact F1]. rewrite val_fone in E. destruct (fsub_ok s fone F1 fin_fone) as [V2 F2]; [rewrite val_fone; apply T; apply Rabs_le; lra |].
      split; [exact F2 |]. rewrite V2, val_fone. pose proof (R1 (val s - 1) ltac:(lra)). lra.
    - apply fltb_false in E; [| apply fin_fone | exact F1]. rewrite val_fone in E. split; [exact F1 | lra]. }
  destruct B2 as [F2 B2]. assert (Fn : fin (fneg fone : fl)) by (apply fin_fneg; apply fin_fone). destruct (fltb s2 (fneg fone)) eqn:E.
  - apply fltb_true in E; [| exact F2 | exact Fn]. rewrite val_fneg, val_fone in E. destruct (fadd_ok s2 fone F2 fin_fone) as [V3 F3]; [rewrite val_fone; apply T; apply Rabs_le; lra |].
    split; [exact F3 |]. rewrite V3, val_fone. apply Rabs_le. pose proof (R1 (val s2 + 1) ltac:(lra)). lra.
  - apply fltb_false in E; [| exact F2 | exact Fn]. rewrite val_fneg, val_fone in E. split; [exact F2 |]. apply Rabs_le. lra.
Qed.
Lemma next_range : forall x, (0 < x < 2 ^ 32)%N -> (0 < rng_next x < 2 ^ 32)%N.
Proof. intros x H. exact (at_nonzero x 1 H). Qed.
Lemma noise_bounded : forall p t x, (0 < x < 2 ^ 32)%N -> bounded I t -> bounded I (noise_loop p x t).
Proof.
  intros p t. induction t as [| y t IH]; intros x Hx H; cbn [noise_loop]; [constructor |]. inversion H as [| ? ? [Fy By] Ht]; subst.
  pose proof (next_range x Hx) as Hr. destruct (fltb p (rng_unit (rng_next x))).
  - pose proof (next_range _ Hr) as Hq. constructor; [| apply IH; assumption].
    destruct (unit_range (prec := 24) (emax := 128) (rng_next (rng_next x)) Hq) as [Fu Bu]. set (u := rng_unit (rng_next (rng_next x)) : f32) in *.
    destruct (fze_ok (prec := 24) (emax := 128) 1 (-1)) as [Vh Fh]; [rewrite Rmult_1_l, rnd_bpow by lia; rewrite Rabs_pos_eq by apply bpow_ge_0; apply bpow_lt; lia |].
    rewrite Rmult_1_l, rnd_bpow in Vh by lia. assert (Vh2 : val (fze 1 (-1) : f32) = 1 / 2) by (rewrite Vh; cbn; lra).
    assert (Rh : forall z, - (1 / 2) <= z <= 1 / 2 -> - (1 / 2) <= rnd (prec := 24) (emax := 128) z <= 1 / 2).
    { intros z Hz. assert (E : rnd (prec := 24) (emax := 128) (1 / 2) = 1 / 2) by (replace (1 / 2) with (bpow radix2 (-1)) by (cbn; lra); apply rnd_bpow; lia).
      apply rnd_between; [rewrite rnd_opp, E; reflexivity | exact E | exact Hz]. }
    destruct (fsub_ok (prec := 24) (emax := 128) u (fze 1 (-1)) Fu Fh) as [Vd Fd].
    { rewrite Vh2. apply (FloatBase.fits _ 0); [lia |]. cbn. apply Rabs_le. lra. }
    destruct (wide_ok (fsub u (fze 1 (-1))) Fd) as [Vw Fw]. apply noise_one; [exact Fw | exact Fy | | exact By]. rewrite Vw, Vd, Vh2. apply Rabs_le. apply Rh. lra.
  - constructor; [split; assumption | apply IH; assumption].
Qed.

(** ** Normalising *)
Lemma loudest_ok : forall t (m : fl), fin m -> 0 <= val m -> Forall (fun x => fin x) t ->
  let r := fold_left (fun m x => if fltb m (fabs x) then fabs x else m) t m in
  fin r /\ val m <= val r /\ (forall x, In x t -> Rabs (val x) <= val r) /\ (val r = val m \/ exists x, In x t /\ Rabs (val x) = val r).
Proof.
  induction t as [| y t IH]; intros m Fm Hm Ht; cbn [fold_left].
  - split; [exact Fm |]. split; [lra |]. split; [intros x [] | left; reflexivity].
  - inversion Ht as [| ? ? Fy Ht2]; subst. set (m2 := if fltb m (fabs y) then fabs y else m).
    assert (K : fin m2 /\ val m <= val m2 /\ Rabs (val y) <= val m2 /\ (val m2 = val m \/ val m2 = Rabs (val y))).
    { unfold m2. destruct (fltb m (fabs y)) eqn:E.
      - apply fltb_true in E; [| exact Fm | apply fin_fabs; exact Fy]. rewrite val_fabs in *. split; [apply fin_fabs; exact Fy |]. split; [lra |]. split; [lra | right; reflexivity].
      - apply fltb_false in E; [| exact Fm | apply fin_fabs; exact Fy]. rewrite val_fabs in E. split; [exact Fm |]. split; [lra |]. split; [exact E | left; reflexivity]. }
    destruct K as (F2 & A & B & C). destruct (IH m2 F2 ltac:(lra) Ht2) as (F3 & D & E & G). fold m2. split; [exact F3 |]. split; [lra |]. split.
    + intros x [<- | Hx]; [lra | apply E; exact Hx].
    + destruct G as [G | (x & Hx & G)]; [| right; exists x; split; [right; exact Hx | exact G]]. destruct C as [C | C]; [left; lra | right; exists y; split; [left; reflexivity | lra]].
Qed.
(** Dividing by the peak and multiplying again does not exceed 1 *)
Lemma half_ulp : forall L, bpow radix2 (-126) <= L <= bpow radix2 126 -> Rabs (L * rnd (prec := prec) (emax := emax) (1 / L) - 1) < bpow radix2 (- prec).
Proof.
  intros L HL. assert (Lp : 0 < L) by (eapply Rlt_le_trans; [apply bpow_gt_0 | apply HL]). set (y := 1 / L). assert (Yp : 0 < y) by (unfold y; apply Rdiv_lt_0_compat; lra).
  assert (LY : L * y = 1) by (unfold y; field; lra).
  destruct (mag radix2 y) as [e He]. specialize (He ltac:(lra)). rewrite (Rabs_pos_eq y) in He by lra. destruct He as [E1 E2].
  assert (Y1 : bpow radix2 (-126) <= y). { apply Rmult_le_reg_l with L; [exact Lp |]. rewrite LY. apply Rle_trans with (bpow radix2 126 * bpow radix2 (-126)); [apply Rmult_le_compat_r; [apply bpow_ge_0 | apply HL] |]. rewrite <- bpow_plus. cbn. lra. }
  assert (Ee : (-126 < e)%Z) by (apply (lt_bpow radix2); eapply Rle_lt_trans; [exact Y1 | exact E2]).
  assert (U : ulp radix2 (SpecFloat.fexp prec emax) y = bpow radix2 (e - prec)).
  { rewrite ulp_neq_0 by lra. f_equal. unfold cexp. rewrite (mag_unique_pos radix2 y e) by (split; assumption). unfold SpecFloat.fexp, SpecFloat.emin. destruct I. lia. }
  destruct E1 as [E1 | E1].
  - assert (B : Rabs (rnd (prec := prec) (emax := emax) y - y) <= / 2 * bpow radix2 (e - prec)) by (rewrite <- U; unfold rnd; apply error_le_half_ulp; typeclasses eauto).
    assert (L2 : L < bpow radix2 (1 - e)).
    { apply Rmult_lt_reg_r with (bpow radix2 (e - 1)); [apply bpow_gt_0 |]. rewrite <- bpow_plus. replace (1 - e + (e - 1))%Z with 0%Z by lia. cbn [bpow]. rewrite <- LY. apply Rmult_lt_compat_l; assumption. }
    replace (L * rnd y - 1) with (L * (rnd (prec := prec) (emax := emax) y - y)) by (unfold rnd in *; lra). rewrite Rabs_mult, (Rabs_pos_eq L) by lra.
    replace (bpow radix2 (- prec)) with (bpow radix2 (1 - e) * (/ 2 * bpow radix2 (e - prec))).
    + apply Rle_lt_trans with (L * (/ 2 * bpow radix2 (e - prec))); [apply Rmult_le_compat_l; lra |]. apply Rmult_lt_compat_r; [| exact L2]. pose proof (bpow_gt_0 radix2 (e - prec)). lra.
    + change (/ 2) with (bpow radix2 (-1)). rewrite <- !bpow_plus. f_equal. lia.
  - assert (R0 : rnd (prec := prec) (emax := emax) y = y) by (rewrite <- E1; apply rnd_bpow; lia). rewrite R0, LY. rewrite Rminus_diag_eq by reflexivity. rewrite Rabs_R0. apply bpow_gt_0.
Qed.
Lemma ulp_1 : ulp radix2 (SpecFloat.fexp prec emax) 1 = bpow radix2 (1 - prec).
Proof.
  rewrite ulp_neq_0 by lra. f_equal. unfold cexp. rewrite (mag_unique_pos radix2 1 1) by (cbn; lra). unfold SpecFloat.fexp, SpecFloat.emin. destruct I. lia.
Qed.
Lemma rnd_le_1 : forall y, y < 1 + bpow radix2 (- prec) -> rnd (prec := prec) (emax := emax) y <= 1.
Proof.
  intros y Hy. unfold rnd. apply round_N_le_midp; [typeclasses eauto | change 1 with (bpow radix2 0); apply bpow_format; lia |].
  rewrite succ_eq_pos by lra. rewrite ulp_1. replace (bpow radix2 (1 - prec)) with (2 * bpow radix2 (- prec)) by (change 2 with (bpow radix2 1); rewrite <- bpow_plus; f_equal; lia). lra.
Qed.
Lemma below_1_format : generic_format radix2 (SpecFloat.fexp prec emax) (1 - bpow radix2 (- prec)).
Proof.
  replace (1 - bpow radix2 (- prec)) with (F2R (Float radix2 (2 ^ prec - 1) (- prec))).
  - apply generic_format_F2R. intros _. unfold cexp, SpecFloat.fexp, SpecFloat.emin.
    assert (M : (mag radix2 (F2R (Float radix2 (2 ^ prec - 1) (- prec))) <= 0)%Z).
    { apply mag_le_bpow; [| rewrite Rabs_pos_eq].
      - apply F2R_neq_0. cbn. destruct I. assert (2 ^ 1 <= 2 ^ prec)%Z by (apply Z.pow_le_mono_r; lia). lia.
      - unfold F2R. cbn [Fnum Fexp]. rewrite minus_IZR. change (2 ^ prec)%Z with (radix2 ^ prec)%Z. rewrite IZR_Zpower by (destruct I; lia). rewrite Rmult_minus_distr_r, <- bpow_plus, Rmult_1_l.
        replace (prec + - prec)%Z with 0%Z by lia. cbn [bpow]. pose proof (bpow_gt_0 radix2 (- prec)). lra.
      - apply F2R_ge_0. cbn. destruct I. assert (2 ^ 1 <= 2 ^ prec)%Z by (apply Z.pow_le_mono_r; lia). lia. }
    destruct I. cbn [Fexp]. lia.
  - unfold F2R. cbn [Fnum Fexp]. rewrite minus_IZR. change (2 ^ prec)%Z with (radix2 ^ prec)%Z. rewrite IZR_Zpower by (destruct I; lia). rewrite Rmult_minus_distr_r, <- bpow_plus, Rmult_1_l.
    replace (prec + - prec)%Z with 0%Z by lia. reflexivity.
Qed.
Section Peak.
Variable L : fl.
Hypothesis FL : fin L.
Hypothesis HL : bpow radix2 (-126) <= val L <= bpow radix2 126.
Notation s := (fdiv fone L).
Lemma L_pos : 0 < val L.
Proof. eapply Rlt_le_trans; [apply bpow_gt_0 | apply HL]. Qed.
Lemma scaler_ok : fin s /\ val s = rnd (prec := prec) (emax := emax) (1 / val L) /\ 0 < val s.
Proof.
  pose proof L_pos as P. assert (B : Rabs (1 / val L) <= bpow radix2 126).
  { rewrite Rabs_pos_eq by (apply Rlt_le, Rdiv_lt_0_compat; lra). apply Rmult_le_reg_l with (val L); [exact P |]. replace (val L * (1 / val L)) with 1 by (field; lra).
    apply Rle_trans with (bpow radix2 (-126) * bpow radix2 126); [rewrite <- bpow_plus; cbn; lra |]. apply Rmult_le_compat_r; [apply bpow_ge_0 | apply HL]. }
  destruct (fdiv_ok fone L fin_fone) as [V F0]; [lra | rewrite val_fone; apply (FloatBase.fits _ 126); [destruct I; lia | exact B] |]. rewrite val_fone in V.
  split; [exact F0 |]. split; [exact V |]. rewrite V. apply Rlt_le_trans with (bpow radix2 (-126)); [apply bpow_gt_0 |]. rewrite <- (rnd_bpow (prec := prec) (emax := emax) (-126)) by lia.
  apply rnd_le. apply Rmult_le_reg_l with (val L); [exact P |]. replace (val L * (1 / val L)) with 1 by (field; lra).
  apply Rle_trans with (bpow radix2 126 * bpow radix2 (-126)); [apply Rmult_le_compat_r; [apply bpow_ge_0 | apply HL] |]. rewrite <- bpow_plus. cbn. lra.
Qed.
Lemma scaled : forall x : fl, fin x -> Rabs (val x) <= val L -> fin (fmul x s) /\ Rabs (val (fmul x s)) <= 1 /\
  (Rabs (val x) = val L -> 1 - bpow radix2 (- prec) <= Rabs (val (fmul x s))).
Proof.
  intros x Fx Hx. destruct scaler_ok as (Fs & Vs & Ps). pose proof (half_ulp (val L) HL) as H. rewrite <- Vs in H. apply Rabs_lt_inv in H. pose proof (bpow_gt_0 radix2 (- prec)) as U.
  assert (M : Rabs (val x * val s) <= val L * val s) by (rewrite Rabs_mult, (Rabs_pos_eq (val s)) by lra; apply Rmult_le_compat_r; lra).
  assert (R1 : Rabs (rnd (prec := prec) (emax := emax) (val x * val s)) <= 1) by (rewrite <- rnd_abs; apply rnd_le_1; lra).
  destruct (fmul_ok x s Fx Fs) as [V F0].
  { eapply Rle_lt_trans; [exact R1 |]. change 1 with (bpow radix2 0). unfold top. apply bpow_lt. destruct I. lia. }
  split; [exact F0 |]. rewrite V. split; [exact R1 |]. intros E. rewrite <- rnd_abs. rewrite <- (rnd_format (prec := prec) (emax := emax) (1 - bpow radix2 (- prec)) below_1_format).
  apply rnd_le. rewrite Rabs_mult, (Rabs_pos_eq (val s)), E by lra. lra.
Qed.
End Peak.
Lemma feqb_refl : forall x : fl, fin x -> feqb x x = true.
Proof. intros x H. rewrite feqb_ok by exact H. apply Req_bool_true. reflexivity. Qed.
Lemma sub_fin : forall x y : fl, fin x -> fin y -> Rabs (val x) <= 1 -> Rabs (val y) <= 1 -> fin (fsub x y).
Proof.
  intros x y Fx Fy Hx Hy. apply fsub_ok; [exact Fx | exact Fy |]. apply (FloatBase.fits _ 1); [destruct I; lia |]. cbn. apply Rabs_le_inv in Hx. apply Rabs_le_inv in Hy. apply Rabs_le. lra.
Qed.
Lemma diffs_ok : forall t : list fl, bounded I t -> (2 <= length t)%nat -> exists d, diffs t = Some d.
Proof.
  intros t B Ht. assert (At : forall k, (k < length t)%nat -> nth_error t k = Some (nth k t fzero) /\ fin (nth k t fzero) /\ Rabs (val (nth k t fzero)) <= 1).
  { intros k Hk. split; [apply nth_error_nth'; exact Hk |]. unfold bounded in B. rewrite Forall_forall in B. apply B. apply nth_In. exact Hk. }
  destruct (At 0%nat ltac:(lia)) as (E0 & F0 & B0). destruct (At 1%nat ltac:(lia)) as (E1 & F1 & B1). destruct (At (length t - 1)%nat ltac:(lia)) as (Ez & Fz & Bz).
  unfold diffs. rewrite E0, E1, Ez. cbn [bind]. rewrite (each_nth_error _ _ _ t 0 _ E0), (each_nth_error _ _ _ t (length t - 1) _ Ez). cbn [bind].
  replace ((0 + 1) mod length t)%nat with 1%nat by (rewrite Nat.mod_small; lia). replace ((length t - 1 + 1) mod length t)%nat with 0%nat by (replace (length t - 1 + 1)%nat with (length t) by lia; symmetry; apply Nat.mod_same; lia).
  rewrite !feqb_refl by (apply sub_fin; assumption). cbn [andb]. eauto.
Qed.
Lemma all_some_ok : forall A B (f : A -> option B) (P : B -> Prop) l, (forall x, In x l -> exists y, f x = Some y /\ P y) ->
  exists r, all_some (map f l) = Some r /\ Forall P r /\ forall x y l', l = x :: l' -> f x = Some y -> exists r', r = y :: r'.
Proof.
  intros A B f P l. induction l as [| x l IH]; intros H; cbn [map all_some].
  - exists []. split; [reflexivity |]. split; [constructor |]. discriminate.
  - destruct (H x (or_introl eq_refl)) as (y & Ey & Py). destruct IH as (r & Er & Pr & _); [intros z Hz; apply H; right; exact Hz |]. rewrite Ey, Er. cbn [bind]. exists (y :: r).
    split; [reflexivity |]. split; [constructor; assumption |]. intros x' y' l' E Ey'. injection E as <- <-. rewrite Ey in Ey'. injection Ey' as <-. eauto.
Qed.
Lemma normalize_ok : forall t0 (ts : list (list fl)) p, bpow radix2 (-126) <= p <= bpow radix2 126 ->
  (forall t x, In t (t0 :: ts) -> In x t -> fin x /\ Rabs (val x) <= p) -> (exists x, In x t0 /\ Rabs (val x) = p) -> (forall t, In t (t0 :: ts) -> (2 <= length t)%nat) ->
  exists r, normalize (t0 :: ts) = Some r /\ Forall (fun td => bounded I (fst td)) r /\
    exists td r' x, r = td :: r' /\ In x (fst td) /\ 1 - bpow radix2 (- prec) <= Rabs (val x) <= 1.
Proof.
  intros t0 ts p Hp Ha (x0 & Hx0 & Ex0) Hl. assert (F0 : Forall (fun x => fin x) t0) by (apply Forall_forall; intros x Hx; apply (Ha t0 x); [left; reflexivity | exact Hx]).
  destruct (loudest_ok t0 fzero fin_fzero ltac:(cbn; lra) F0) as (FL & PL & ML & XL). change (fold_left _ t0 fzero) with (loudest t0) in *.
  assert (EL : val (loudest t0) = p).
  { apply Rle_antisym; [| rewrite <- Ex0; apply ML; exact Hx0]. destruct XL as [E | (x & Hx & E)]; [rewrite E; cbn; pose proof (bpow_gt_0 radix2 (-126)); lra |]. rewrite <- E. apply (Ha t0 x); [left; reflexivity | exact Hx]. }
  assert (HL : bpow radix2 (-126) <= val (loudest t0) <= bpow radix2 126) by (rewrite EL; exact Hp).
  assert (One : forall t, In t (t0 :: ts) -> bounded I (map (fun x => fmul x (fdiv fone (loudest t0))) t)).
  { intros t Ht. apply Forall_map. apply Forall_forall. intros x Hx. destruct (Ha t x Ht Hx) as [Fx Bx]. rewrite <- EL in Bx. destruct (scaled (loudest t0) HL x Fx Bx) as (A & B & _). split; assumption. }
  unfold normalize. cbn [nth_error bind].
  destruct (all_some_ok _ _ (fmultiply (fdiv fone (loudest t0))) (fun td => bounded I (fst td)) (t0 :: ts)) as (r & Er & Pr & Hr).
  { intros t Ht. unfold fmultiply. destruct (diffs_ok _ (One t Ht)) as (d & Hd); [rewrite map_length; apply Hl; exact Ht |]. rewrite Hd. cbn [bind]. eexists. split; [reflexivity |]. exact (One t Ht). }
  exists r. split; [exact Er |]. split; [exact Pr |]. destruct (diffs_ok _ (One t0 (or_introl eq_refl))) as (d & Hd); [rewrite map_length; apply Hl; left; reflexivity |].
  destruct (Hr t0 (map (fun x => fmul x (fdiv fone (loudest t0))) t0, d) ts eq_refl) as (r' & ->); [unfold fmultiply; rewrite Hd; reflexivity |].
  eexists _, _, (fmul x0 (fdiv fone (loudest t0))). split; [reflexivity |]. cbn [fst]. split; [exact (in_map (fun x => fmul x (fdiv fone (loudest t0))) t0 x0 Hx0) |].
  destruct (Ha t0 x0 (or_introl eq_refl) Hx0) as [Fx Bx]. rewrite <- EL in Bx. destruct (scaled (loudest t0) HL x0 Fx Bx) as (A & B & C). split; [apply C; rewrite EL; exact Ex0 | exact B].
Qed.
(** A silent table *)
Lemma one_finite : exists m e B, (fone : fl) = B754_finite false m e B.
Proof.
  pose proof val_fone as V. pose proof fin_fone as Fo. destruct (fone : fl) as [s | s | | s m e B]; try discriminate Fo; [cbn in V; lra |].
  destruct s; [| eauto]. exfalso. change (IZR (Zneg m) * bpow radix2 e = 1) in V. pose proof (bpow_gt_0 radix2 e). pose proof (IZR_lt (Zneg m) 0 eq_refl). nra.
Qed.
Lemma silent_scaler : forall n, fdiv fone (loudest (repeat (fzero : fl) n)) = B754_infinity false.
Proof.
  intros n. assert (E : loudest (repeat (fzero : fl) n) = fzero).
  { unfold loudest. induction n as [| n IH]; cbn [repeat fold_left]; [reflexivity |]. exact IH. }
  rewrite E. destruct one_finite as (m & e & B & ->). reflexivity.
Qed.
Lemma silent_panics : forall n (ts : list (list fl)), (2 <= n)%nat -> normalize (repeat fzero n :: ts) = None.
Proof.
  intros n ts Hn. unfold normalize. cbn [nth_error bind]. rewrite silent_scaler. cbn [map all_some]. unfold fmultiply at 1.
  assert (E : map (fun x : fl => fmul x (B754_infinity false)) (repeat fzero n) = repeat B754_nan n) by (clear Hn; induction n as [| n IH]; cbn [repeat map]; [reflexivity |]; rewrite IH; reflexivity).
  rewrite E. assert (D : diffs (repeat (B754_nan : fl) n) = None); [| rewrite D; reflexivity].
  unfold diffs. destruct (nth_error (repeat B754_nan n) 0) as [a |] eqn:Ea; [| reflexivity]. destruct (nth_error (repeat B754_nan n) 1) as [b |] eqn:Eb; [| reflexivity]. cbn [bind].
  destruct (nth_error (repeat B754_nan n) (length (repeat (B754_nan : fl) n) - 1)) as [z |]; [| reflexivity]. cbn [bind].
  destruct (nth_error (each _ _) 0) as [d0 |]; [| reflexivity]. cbn [bind]. destruct (nth_error (each _ _) _) as [dz |]; [| reflexivity]. cbn [bind].
  apply nth_error_In, repeat_spec in Ea. apply nth_error_In, repeat_spec in Eb. subst a b. cbn. reflexivity.
Qed.
End Float.
