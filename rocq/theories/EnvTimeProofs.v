From Coq Require Import Reals Lra Lia.
From Flocq Require Import Core Relative BinarySingleNaN.
From Verif Require Import Base FloatBase FloatMore EnvModel EnvSpec EnvJumpSpec EnvProofs EnvJumpProofs EnvTimeSpec.
Local Open Scope R_scope.

Section Proofs.
Context {prec emax : Z} {I : ieee prec emax}.
Notation fl := (binary_float prec emax).
Notation env := (env prec emax).
Notation eop := (eop prec emax).
Notation rnd := (@rnd prec emax).
Notation eps := (@eps prec).
Lemma rel_error : forall y, bpow radix2 (-120) <= y -> Rabs (rnd y - y) <= 2 * eps * y.
Proof.
  intros y H. pose proof (bpow_gt_0 radix2 (-120)) as B0. assert (P : (0 < prec)%Z) by (destruct I; unfold FLX.Prec_gt_0 in *; lia).
  pose proof (relative_error_N_FLT radix2 (SpecFloat.emin prec emax) prec P (fun x => negb (Z.even x)) y) as Q.
  assert (L : bpow radix2 (SpecFloat.emin prec emax + prec - 1) <= Rabs y).
  { rewrite Rabs_pos_eq by lra. apply Rle_trans with (2 := H). apply bpow_le. unfold SpecFloat.emin. destruct I. lia. }
  specialize (Q L). rewrite (Rabs_pos_eq y) in Q by lra. eapply Rle_trans; [exact Q |]. right. unfold FloatMore.eps.
  replace (- prec + 1)%Z with ((- prec - 1) + 2)%Z by ring. rewrite bpow_plus. cbn. field.
Qed.
Lemma rate_exact : forall sr (s : fl), (0 < sr <= 2 ^ 24)%N -> proper sr s -> fin (rate_of s sr) /\ rate_for (prec := prec) (samples_of sr s) (val (rate_of s sr)).
Proof.
  intros sr s Hr [Fs Ls]. pose proof (eps_pos (prec := prec)) as Ep. pose proof (eps_small (prec := prec) (emax := emax)) as Es.
  destruct (fz_small (prec := prec) (emax := emax) (Z.of_N sr) ltac:(lia)) as [Vr Fr].
  assert (Rr : 1 <= IZR (Z.of_N sr)) by (apply IZR_le; lia).
  assert (Ps : 0 < val s).
  { destruct (Rlt_le_dec 0 (val s)) as [P | P]; [exact P |]. exfalso.
    assert (val s * IZR (Z.of_N sr) <= 0) by (apply (Rmult_le_compat_r (IZR (Z.of_N sr))) in P; [lra | lra]). lra. }
  unfold rate_of. rewrite feqb_ok by (exact Fs || reflexivity). rewrite val_fzero, Req_bool_false by lra.
  unfold rate_for, samples_of. set (y := val s * IZR (Z.of_N sr)) in *.
  destruct (fmul_ok s (fz (Z.of_N sr)) Fs Fr) as [V1 F1].
  { rewrite Vr. fold y. apply fits with 100%Z; [destruct I; lia |]. rewrite Rabs_pos_eq; lra. }
  rewrite Vr in V1. fold y in V1.
  assert (Y0 : bpow radix2 (-120) <= y) by (apply Rle_trans with 1; [change 1 with (bpow radix2 0); apply bpow_le; lia | lra]).
  pose proof (abs_le _ _ (rel_error y Y0)) as E1.
  assert (G1 : 1 <= rnd y) by (rewrite <- (rnd_1 (prec := prec) (emax := emax)); apply rnd_le; lra).
  assert (G2 : rnd y <= bpow radix2 100) by (rewrite <- (rnd_bpow (prec := prec) (emax := emax) 100) by lia; apply rnd_le; lra).
  set (Y := rnd y) in *.
  assert (I1 : 0 < / Y <= 1) by (split; [apply Rinv_0_lt_compat; lra | rewrite <- Rinv_1; apply Rinv_le_contravar; lra]).
  assert (I2 : bpow radix2 (-120) <= / Y).
  { apply Rle_trans with (bpow radix2 (-100)); [apply bpow_le; lia |]. replace (-100)%Z with (- (100))%Z by reflexivity. rewrite bpow_opp. apply Rinv_le_contravar; lra. }
  destruct (fdiv_ok fone (fmul s (fz (Z.of_N sr))) fin_fone) as [A B].
  { rewrite V1. lra. }
  { rewrite val_fone, V1. unfold Rdiv. rewrite Rmult_1_l. apply fits with 0%Z; [destruct I; lia |]. change (bpow radix2 0) with 1. rewrite Rabs_pos_eq; lra. }
  rewrite val_fone, V1 in A. unfold Rdiv in A. rewrite Rmult_1_l in A. split; [exact B |]. rewrite A.
  pose proof (abs_le _ _ (rel_error (/ Y) I2)) as E2.
  assert (Iy : 0 < / y) by (apply Rinv_0_lt_compat; lra).
  (* 1/Y against 1/y *)
  assert (D : Rabs (/ Y - / y) <= 4 * eps * / y).
  { replace (/ Y - / y) with ((y - Y) * / Y * / y) by (field; lra). rewrite !Rabs_mult, (Rabs_pos_eq (/ y)), (Rabs_pos_eq (/ Y)) by lra.
    apply Rmult_le_compat_r; [lra |]. apply Rmult_le_reg_r with Y; [lra |]. rewrite Rmult_assoc, Rinv_l, Rmult_1_r by lra.
    assert (H1 : Rabs (y - Y) <= 2 * eps * y) by (apply Rabs_le; lra). assert (H2 : y * (1 - 2 * eps) <= Y) by lra.
    assert (H3 : / 2 * y <= Y) by (assert (y * / 2 <= y * (1 - 2 * eps)) by (apply Rmult_le_compat_l; lra); lra).
    assert (H4 : 4 * eps * (/ 2 * y) <= 4 * eps * Y) by (apply Rmult_le_compat_l; lra). lra. }
  assert (D2 : 2 * eps * / Y <= 4 * eps * / y).
  { apply abs_le in D. assert (4 * eps * / y <= 1 * / y) by (apply Rmult_le_compat_r; lra). assert (/ Y <= 2 * / y) by lra.
    assert (2 * eps * / Y <= 2 * eps * (2 * / y)) by (apply Rmult_le_compat_l; lra). lra. }
  apply abs_le in D. apply Rabs_le. lra.
Qed.

(** Equal times have the same rate. *)
Lemma rate_same : forall sr (x y : fl), feqb x y = true -> rate_of x sr = rate_of y sr.
Proof.
  intros sr x y H. unfold feqb in H.
  assert (G : x = y \/ ((exists s, x = B754_zero s) /\ exists s, y = B754_zero s)).
  { destruct x as [s | s | | s m e b]; destruct y as [s' | s' | | s' m' e' b']; try discriminate H; try (destruct s; discriminate H); try (destruct s'; discriminate H).
    - right. split; eexists; reflexivity.
    - left. destruct s, s'; try discriminate H; reflexivity.
    - left. apply B2R_inj; [reflexivity | reflexivity |]. rewrite Beqb_correct in H by reflexivity. destruct (Req_bool_spec (B2R (B754_finite s m e b : fl)) (B2R (B754_finite s' m' e' b' : fl))); [assumption | discriminate H]. }
  destruct G as [-> | [[s ->] [s' ->]]]; [reflexivity |]. unfold rate_of. destruct s, s'; reflexivity.
Qed.
(** Both rates are those of the current times *)
Definition timed (sr : N) (a r : fl) (e : env) : Prop :=
  e_arate e = rate_of a sr /\ e_rrate e = rate_of r sr /\ rate_of (e_asec e) sr = rate_of a sr /\ rate_of (e_rsec e) sr = rate_of r sr.
Lemma timed_init : forall sr a r, timed sr a r (env_init sr (env_new a r)).
Proof.
  intros sr a r. unfold env_init, env_new. cbn [e_state e_t e_asec e_arate e_rsec e_rrate e_scale].
  assert (E : feqb (fone : fl) fone = true) by (rewrite feqb_ok by apply fin_fone; apply Req_bool_true; reflexivity). rewrite E.
  split; [reflexivity |]. split; [reflexivity |]. split; reflexivity.
Qed.
Definition keeps_times (e e' : env) : Prop := e_arate e' = e_arate e /\ e_rrate e' = e_rrate e /\ e_asec e' = e_asec e /\ e_rsec e' = e_rsec e.
Lemma keeps_timed : forall sr a r e e', keeps_times e e' -> timed sr a r e -> timed sr a r e'.
Proof. intros sr a r e e' (A & B & C & D) (P & Q & R & S). unfold timed. rewrite A, B, C, D. auto. Qed.
Lemma asr_keeps : forall e i, keeps_times e (fst (fst (asr_next e i))).
Proof. intros e i. unfold keeps_times, asr_next. destruct (e_state e); try (destruct (fleb _ _)); cbn; auto. Qed.
Lemma ar_keeps : forall e i, keeps_times e (fst (fst (ar_next e i))).
Proof. intros e i. unfold keeps_times, ar_next. destruct (e_state e); try (destruct (fleb _ _)); cbn; auto. Qed.
Lemma samples_keep : forall next, (forall e i, keeps_times e (fst (fst (next e i)))) -> forall fs (e : env), keeps_times e (fst (env_samples next fs e)).
Proof.
  intros next H. induction fs as [| f fs IH]; intros e; cbn [env_samples fst]; [unfold keeps_times; auto |].
  destruct (H e f) as (A & B & C & D). destruct (IH (fst (fst (next e f)))) as (A' & B' & C' & D'). unfold keeps_times. rewrite A', B', C', D'. auto.
Qed.
Lemma timed_attack : forall sr a r s e, timed sr a r e -> timed sr s r (set_attack sr e s).
Proof.
  intros sr a r s e (P & Q & R & S). unfold set_attack. destruct (feqb (e_asec e) s) eqn:E; cbn [negb].
  - apply rate_same with (sr := sr) in E. unfold timed. rewrite P, <- R, E. auto.
  - unfold timed. cbn [e_arate e_rrate e_asec e_rsec]. auto.
Qed.
Lemma timed_release : forall sr a r s e, timed sr a r e -> timed sr a s (set_release sr e s).
Proof.
  intros sr a r s e (P & Q & R & S). unfold set_release. destruct (feqb (e_rsec e) s) eqn:E; cbn [negb].
  - apply rate_same with (sr := sr) in E. unfold timed. rewrite Q, <- S, E. auto.
  - unfold timed. cbn [e_arate e_rrate e_asec e_rsec]. auto.
Qed.
Lemma keeps_t_release : forall e, keeps_times e (t_release e).
Proof. intros e. unfold keeps_times, t_release. destruct (e_state e); cbn; auto. Qed.
Lemma asr_timed : forall sr ops a r e, timed sr a r e -> timed sr (attack_after a ops) (release_after r ops) (fst (env_run (asr_step sr) e ops)).
Proof.
  intros sr. induction ops as [| o ops IH]; intros a r e T; [exact T |]. cbn [env_run fst]. destruct o; cbn [attack_after release_after asr_step fst]; apply IH.
  - apply timed_attack with a. exact T.
  - apply timed_release with r. exact T.
  - apply keeps_timed with (2 := T). apply keeps_t_release.
  - apply keeps_timed with (2 := T). unfold keeps_times; cbn; auto.
  - apply keeps_timed with (2 := T). apply samples_keep. apply asr_keeps.
Qed.
Lemma ar_timed : forall sr ops a r e, timed sr a r e -> timed sr (attack_after a ops) (release_after r ops) (fst (env_run (ar_step sr) e ops)).
Proof.
  intros sr. induction ops as [| o ops IH]; intros a r e T; [exact T |]. cbn [env_run fst]. destruct o; cbn [attack_after release_after ar_step fst]; apply IH.
  - apply timed_attack with a. exact T.
  - apply timed_release with r. exact T.
  - exact T.
  - apply keeps_timed with (2 := T). unfold keeps_times; cbn; auto.
  - apply keeps_timed with (2 := T). apply samples_keep. apply ar_keeps.
Qed.
(** Times short enough not to be lost in rounding *)
Lemma rate_above : forall n rho, 1 <= n <= bpow radix2 (prec - 1) -> rate_for (prec := prec) n rho -> eps < rho.
Proof.
  intros n rho Hn H. pose proof (eps_pos (prec := prec)) as Ep. pose proof (eps_small (prec := prec) (emax := emax)) as Es. unfold rate_for in H. apply abs_le in H.
  assert (E4 : / bpow radix2 (prec - 1) = 4 * eps).
  { rewrite <- bpow_opp. unfold FloatMore.eps. change 4 with (bpow radix2 2). rewrite <- bpow_plus. f_equal. lia. }
  assert (In : 4 * eps <= / n) by (rewrite <- E4; apply Rinv_le_contravar; lra).
  assert (E8 : 8 * eps <= / 2).
  { unfold FloatMore.eps. change 8 with (bpow radix2 3). change (/ 2) with (bpow radix2 (-1)). rewrite <- bpow_plus. apply bpow_le. pose proof (ieee_prec (prec := prec) (emax := emax)). lia. }
  assert (8 * eps * / n <= / 2 * / n) by (apply Rmult_le_compat_r; lra). lra.
Qed.
End Proofs.
