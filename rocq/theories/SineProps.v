(** * C80: the numeric sine oscillator plays the sine it is asked for *)
From Coq Require Import Reals Lra Lia.
From Flocq Require Import Core BinarySingleNaN.
From Verif Require Import Base FloatBase FloatMore SineModel SineSpec SineProofs.
Local Open Scope R_scope.

(** In exact arithmetic, after [init] and without a further [init]: every sample is the sine of the turns made, for all frequencies
    (also negative ones and those above the sample rate) and changes of frequency, offset and phase. *)
Theorem C80_exact : forall c sr l, Forall no_init l ->
  snd (sine_run RYops (sine_new RYops c) (YInit sr :: l)) = wanted (c / sr) 0 0 l.
Proof.
  intros c sr l H. cbn [sine_run sine_step fst snd app]. rewrite (run_wanted l _ 0 0%Z H) by (cbn; ring). cbn.
  destruct (Req_EM_T 0 0); [reflexivity|lra].
Qed.
Print Assumptions C80_exact.
(** Without changes: sample [i] is sin (2 pi i f / sr). *)
Theorem C80_constant : forall c sr n,
  snd (sine_run RYops (sine_new RYops c) (YInit sr :: repeat YSample n)) = map (fun i => sin (2 * PI * (INR i * (c / sr)))) (seq 0 n).
Proof.
  intros c sr n. rewrite C80_exact by (apply Forall_forall; intros o Ho; apply repeat_spec in Ho; subst; exact Logic.I).
  rewrite wanted_samples. apply map_ext. intros i. f_equal. ring.
Qed.
Print Assumptions C80_constant.
Example C80_history : Forall no_init [YSample; YFreq (-3) 4; YOffset (1 / 8); YSample; YReset; YSample].
Proof. repeat constructor. Qed.

(** Any IEEE format, frequencies between zero and the sample rate: the phase stays between 0 and 1 ... *)
Theorem C80_range_partial : forall prec emax (I : ieee prec emax) tau fsin c sr l, op_ok (YFreq c sr) -> Forall op_ok l ->
  let s := fst (sine_run (FYops tau fsin) (sine_new (FYops tau fsin) c) (YInit sr :: l)) in
  fin (y_phase s) /\ 0 <= val (y_phase s) <= 1 /\ fin (y_inc s) /\ 0 <= val (y_inc s) <= 1.
Proof.
  intros prec emax I tau fsin c sr l Hc H. cbn [sine_run fst]. destruct Hc as (H1 & H2 & H3 & H4).
  assert (K : state_ok (fst (sine_step (FYops tau fsin) (sine_new (FYops tau fsin) c) (YInit sr)))).
  { split; cbn; [split; [reflexivity|cbn; lra]|]. apply quotient_unit; assumption. }
  destruct (run_ok tau fsin l _ K H) as [[P1 P2] [D1 D2]]. repeat split; assumption || lra.
Qed.
Print Assumptions C80_range_partial.
(** ... and wanders off by at most [2^-prec] turns each sample.  What is missing from "the sine asked for" is this drift, the rounding of
    the increment and that of [sin], which is left open. *)
Theorem C80_drift_partial : forall prec emax (I : ieee prec emax) tau fsin n (s : sine (binary_float prec emax)), state_ok s ->
  exists k, Rabs (val (y_phase (fst (sine_run (FYops tau fsin) s (repeat YSample n)))) - (val (y_phase s) + INR n * val (y_inc s) - IZR k))
    <= INR n * bpow radix2 (- prec).
Proof. intros prec emax I tau fsin. exact (drifts tau fsin). Qed.
Print Assumptions C80_drift_partial.

(** Above the sample rate the phase grows without bound, also in exact arithmetic (one turn is taken off, not all). *)
Theorem C80_above_rate_refuted : forall c sr b, 0 < sr -> sr < c ->
  exists n, b <= y_phase (fst (sine_run RYops (sine_new RYops c) (YInit sr :: repeat YSample n))).
Proof.
  intros c sr b Hs Hc. assert (D : 0 < c / sr - 1).
  { apply (Rmult_lt_reg_r sr); [exact Hs|]. rewrite Rmult_0_l, Rmult_minus_distr_r. unfold Rdiv. rewrite Rmult_assoc, Rinv_l by lra. lra. }
  assert (U : exists n, b / (c / sr - 1) <= INR n).
  { exists (Z.to_nat (up (b / (c / sr - 1)))). pose proof (archimed (b / (c / sr - 1))) as [Ar _]. rewrite INR_IZR_INZ.
    destruct (Z_le_gt_dec 0 (up (b / (c / sr - 1)))) as [Hz|Hz]; [rewrite Z2Nat.id by exact Hz; lra|].
    apply Z.gt_lt, IZR_lt in Hz. apply Rle_trans with 0; [lra|]. apply (IZR_le 0). apply Nat2Z.is_nonneg. }
  destruct U as [n Hn]. exists n. cbn [sine_run sine_step fst].
  assert (E : sine_init RYops sr (sine_new RYops c) = mk_sine 0 0 (c / sr)).
  { unfold sine_init, sine_new. cbn. destruct (Req_EM_T 0 0); [reflexivity|lra]. }
  rewrite E. eapply Rle_trans; [|apply above_rate; cbn; lra]. cbn.
  assert (b / (c / sr - 1) * (c / sr - 1) <= INR n * (c / sr - 1)) by (apply Rmult_le_compat_r; lra).
  unfold Rdiv at 1 in H. rewrite Rmult_assoc, Rinv_l in H by lra. lra.
Qed.
Print Assumptions C80_above_rate_refuted.

(** A negative frequency in any format: the phase goes down, with less and less precision, until it stands still: from some sample on the
    output is constant, whatever [sin] is. *)
Theorem C80_negative_freezes_refuted : forall prec emax (I : ieee prec emax) tau fsin (c sr : binary_float prec emax), (prec + 3 <= emax)%Z ->
  fin c -> fin sr -> 1 <= val sr -> - val sr <= val c -> val (fdiv c sr) < 0 ->
  exists n y, forall m, let out k := snd (sine_run (FYops tau fsin) (sine_new (FYops tau fsin) c) (YInit sr :: repeat YSample k)) in
    out (n + m)%nat = out n ++ repeat y m.
Proof.
  intros prec emax I tau fsin c sr He Fc Fs S1 C1 D.
  pose (s0 := fst (sine_step (FYops tau fsin) (sine_new (FYops tau fsin) c) (YInit sr))).
  assert (Bq : -1 <= val c / val sr).
  { apply (Rmult_le_reg_r (val sr)); [lra|]. unfold Rdiv. rewrite Rmult_assoc, Rinv_l by lra. lra. }
  assert (Cn : val c < 0).
  { destruct (Rlt_or_le (val c) 0) as [|Hge]; [assumption|exfalso].
    assert (P : 0 <= @rnd prec emax (val c / val sr)) by (rewrite <- (@rnd_0 prec emax); apply rnd_le; apply Rmult_le_pos; [lra|left; apply Rinv_0_lt_compat; lra]).
    destruct (Rlt_or_le (Rabs (@rnd prec emax (val c / val sr))) (@top emax)) as [T|T].
    - destruct (fdiv_ok c sr Fc ltac:(lra) T) as [A _]. lra.
    - assert (Le : val c / val sr <= val c).
      { rewrite <- (Rmult_1_r (val c)) at 2. apply Rmult_le_compat_l; [lra|]. rewrite <- Rinv_1. apply Rinv_le; lra. }
      apply (@rnd_le prec emax) in Le; [|exact I]. rewrite rnd_val in Le. pose proof (val_top c) as Vt. rewrite Rabs_pos_eq in T by exact P. rewrite Rabs_pos_eq in Vt by exact Hge. lra. }
  assert (Q1 : val c / val sr <= 0).
  { apply (Rmult_le_reg_r (val sr)); [lra|]. unfold Rdiv. rewrite Rmult_assoc, Rinv_l by lra. lra. }
  assert (R1 : -1 <= @rnd prec emax (val c / val sr) <= 0).
  { apply rnd_between; [replace (-1) with (- (1)) by ring; rewrite rnd_opp, rnd_1; reflexivity|apply rnd_0|lra]. }
  destruct (fdiv_ok c sr Fc ltac:(lra)) as [A B].
  { apply below_top with 0%Z; [destruct I; lia|]. change (bpow radix2 0) with 1. apply Rabs_le. lra. }
  assert (E0 : s0 = mk_sine fzero fzero (fdiv c sr)) by reflexivity.
  assert (L0 : low_state s0).
  { rewrite E0. unfold low_state. cbn [y_phase y_inc]. change (val (fzero : binary_float prec emax)) with 0. pose proof (bpow_ge_0 radix2 (prec + 1)). repeat split; try assumption; try reflexivity; lra. }
  destruct (low_sample tau fsin s0 He L0) as [L1 _]. set (s1 := fst (sine_sample (FYops tau fsin) s0)) in *.
  assert (V1 : val (y_phase s1) < 0).
  { unfold s1. rewrite E0. unfold sine_sample. cbn [fst y_phase y_inc FYops y_add y_ltb y_one y_sub]. destruct (fadd_ok (fzero : binary_float prec emax) (fdiv c sr) fin_fzero B) as [A1 B1].
    { rewrite val_fzero, Rplus_0_l, rnd_val. apply val_top. }
    rewrite val_fzero, Rplus_0_l, rnd_val in A1. rewrite fltb_ok by (exact fin_fone || exact B1). rewrite A1, val_fone, Rlt_bool_false by lra. rewrite A1. exact D. }
  destruct (negative_stops tau fsin s1 He L1) as [n [Ln Vn]]. set (s := fst (sine_run (FYops tau fsin) s1 (repeat YSample n))) in *.
  pose proof (run_mono tau fsin n s1 He L1) as Mn. fold s in Mn.
  assert (Fx : fst (sine_sample (FYops tau fsin) s) = s).
  { destruct (low_sample tau fsin s He Ln) as [Ln' _]. pose proof (same_phase tau fsin (y_phase (fst (sine_sample (FYops tau fsin) s))) (y_phase s) (proj1 Ln') (proj1 Ln) Vn ltac:(lra)) as X.
    destruct s as [p o i]. cbn in X |- *. f_equal. exact X. }
  exists (S n), (snd (sine_sample (FYops tau fsin) s)). intros m. cbn zeta. cbn [sine_run sine_step fst snd app repeat Nat.add]. fold s0.
  change (sine_init (FYops tau fsin) sr (sine_new (FYops tau fsin) c)) with s0. fold s1. rewrite repeat_app.
  f_equal.
  assert (Ap : forall l1 l2 (q : sine (binary_float prec emax)), snd (sine_run (FYops tau fsin) q (l1 ++ l2)) =
    snd (sine_run (FYops tau fsin) q l1) ++ snd (sine_run (FYops tau fsin) (fst (sine_run (FYops tau fsin) q l1)) l2)).
  { induction l1 as [|o l1 IH]; intros l2 q; [reflexivity|]. cbn [app sine_run fst snd]. rewrite IH, app_assoc. reflexivity. }
  rewrite Ap. f_equal. fold s. rewrite fixed_forever by exact Fx. reflexivity.
Qed.
Print Assumptions C80_negative_freezes_refuted.
Definition f32y : sine_ops f32 := FYops fzero (fun x => x).
Example C80_negative_case : feqb (fdiv (fz (-440)) (fz 48000) : f32) fzero = false /\ fltb (fdiv (fz (-440)) (fz 48000) : f32) fzero = true.
Proof. vm_compute. split; reflexivity. Qed.
Example C80_frozen : (* phase -2^19, frequency -440 at 48000 Hz, f32 *)
  let s := mk_sine (fz (-524288) : f32) fzero (fdiv (fz (-440)) (fz 48000)) in feqb (y_phase (fst (sine_sample f32y s))) (y_phase s) = true.
Proof. vm_compute. reflexivity. Qed.

(** The frequency of the constructor comes back, or is lost: [phase] stands for it until [init], which trusts an increment of zero. *)
(** Frequency 0 set before [init]: the constructor's is played. *)
Theorem C80_zero_frequency_refuted :
  snd (sine_run RYops (sine_new RYops 1) [YFreq 0 4; YInit 4; YSample; YSample]) = [0; 1] /\ wanted (0 / 4) 0 0 [YSample; YSample] = [0; 0].
Proof.
  unfold sine_run, sine_step, sine_sample, sine_init, sine_freq, sine_new, wanted; cbn. destruct (Req_EM_T (0 / 4) 0) as [_|N]; [|exfalso; apply N; field].
  destruct (Rlt_dec 1 (0 + 1 / 4)); [lra|].
  replace ((0 + 0) * (2 * PI)) with 0 by ring. replace ((0 + 1 / 4 + 0) * (2 * PI)) with (PI / 2) by field.
  replace (2 * PI * (0 + 0)) with 0 by ring. replace (2 * PI * (0 + 0 / 4 + 0)) with 0 by field. rewrite sin_0, sin_PI2. split; reflexivity.
Qed.
Print Assumptions C80_zero_frequency_refuted.
(** The phase reset before [init]: silence. *)
Theorem C80_reset_refuted : forall c sr n, snd (sine_run RYops (sine_new RYops c) (YReset :: YInit sr :: repeat YSample n)) = repeat 0 n.
Proof.
  intros c sr n. cbn [sine_run sine_step fst snd app].
  assert (E : sine_init RYops sr (sine_reset RYops (sine_new RYops c)) = mk_sine 0 0 0).
  { unfold sine_init, sine_new, sine_reset. cbn. destruct (Req_EM_T 0 0); [|lra]. f_equal. unfold Rdiv. ring. }
  rewrite E. rewrite (run_wanted _ _ 0 0%Z); [|apply Forall_forall; intros o Ho; apply repeat_spec in Ho; subst; exact Logic.I|cbn; ring].
  rewrite wanted_samples. cbn [y_inc y_offset]. generalize 0%nat. induction n as [|n IH]; intros k; [reflexivity|]. cbn [seq map repeat]. rewrite IH. f_equal.
  replace (2 * PI * (0 + INR k * 0 + 0)) with 0 by ring. apply sin_0.
Qed.
Print Assumptions C80_reset_refuted.
(** A second [init] at twice the sample rate: the increment stays, so the pitch doubles.  And after the frequency has been set to 0, a second
    [init] takes the phase for the frequency (f32). *)
Theorem C80_second_init_refuted :
  feqb (y_inc (fst (sine_run f32y (sine_new f32y (fz 12000)) [YInit (fz 48000); YInit (fz 96000)]))) (fdiv (fz 24000) (fz 96000)) = true /\
  feqb (y_inc (fst (sine_run f32y (sine_new f32y (fz 12000)) [YInit (fz 48000); YSample; YFreq fzero (fz 48000); YInit (fz 2)]))) (fze 1 (-3)) = true.
Proof. vm_compute. split; reflexivity. Qed.
Print Assumptions C80_second_init_refuted.
Example C80_range_case : op_ok (YFreq (fz 440 : f32) (fz 48000)) /\ op_ok (YInit (fz 48000) : sine_op f32).
Proof.
  destruct (fz_small (prec := 24) (emax := 128) 440) as [A B]; [cbn; lia|]. destruct (fz_small (prec := 24) (emax := 128) 48000) as [C D]; [cbn; lia|].
  cbn [op_ok]. rewrite A, C. repeat split; assumption || lra.
Qed.
Example C80_state_case : state_ok (mk_sine (fze 1 (-1)) fzero (fze 1 (-2)) : sine f32).
Proof.
  assert (H : forall k, (-24 <= k <= 0)%Z -> unit_f (fze 1 k : f32)).
  { intros k Hk. assert (E : @rnd 24 128 (IZR 1 * bpow radix2 k) = bpow radix2 k) by (rewrite Rmult_1_l; apply rnd_bpow; lia).
    assert (0 < bpow radix2 k <= 1) by (split; [apply bpow_gt_0|change 1 with (bpow radix2 0); apply bpow_le; lia]).
    destruct (fze_ok (prec := 24) (emax := 128) 1 k) as [A B].
    - rewrite E. apply below_top with 0%Z; [lia|]. change (bpow radix2 0) with 1. rewrite Rabs_pos_eq; lra.
    - split; [exact B|]. rewrite A, E. lra. }
  split; apply H; lia.
Qed.
