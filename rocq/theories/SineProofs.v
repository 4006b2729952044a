From Coq Require Import Reals Lra Lia.
From Flocq Require Import Core BinarySingleNaN Sterbenz.
From Verif Require Import Base FloatBase FloatMore SineModel SineSpec PolyProofs.
Local Open Scope R_scope.

(** ** Exact arithmetic *)
Lemma sin_turns : forall x k, sin (2 * PI * (x + IZR k)) = sin (2 * PI * x).
Proof.
  intros x k. replace (2 * PI * (x + IZR k)) with (2 * PI * x + 2 * IZR k * PI) by ring. destruct (Z_le_gt_dec 0 k) as [H|H].
  - replace (IZR k) with (INR (Z.to_nat k)) by (rewrite INR_IZR_INZ, Z2Nat.id; [reflexivity|lia]). apply sin_period.
  - rewrite <- (sin_period (2 * PI * x + 2 * IZR k * PI) (Z.to_nat (- k))).
    replace (INR (Z.to_nat (- k))) with (- IZR k) by (rewrite INR_IZR_INZ, Z2Nat.id, opp_IZR; [reflexivity|lia]).
    f_equal. ring.
Qed.
Lemma run_wanted : forall l (s : sine R) t k, Forall no_init l -> y_phase s = t - IZR k ->
  snd (sine_run RYops s l) = wanted (y_inc s) (y_offset s) t l.
Proof.
  induction l as [|o l IH]; intros s t k H E; [reflexivity|]. inversion H as [|? ? Ho H']; subst.
  destruct o as [r|f r|o| |]; cbn [sine_run sine_step fst snd wanted app].
  - destruct Ho.
  - apply (IH (sine_freq RYops f r s) t k); assumption.
  - apply (IH (sine_offset o s) t k); assumption.
  - apply (IH (sine_reset RYops s) 0 0%Z); [assumption|]. cbn. ring.
  - f_equal.
    + cbn. rewrite E, <- (sin_turns (t + y_offset s) (- k)). rewrite opp_IZR. f_equal. ring.
    + unfold sine_sample; cbn [fst RYops y_add y_one y_sub y_ltb]. destruct (Rlt_dec 1 (y_phase s + y_inc s)).
      * apply (IH (mk_sine (y_phase s + y_inc s - 1) (y_offset s) (y_inc s)) (t + y_inc s) (k + 1)%Z); [assumption|]. cbn. rewrite E, plus_IZR. ring.
      * apply (IH (mk_sine (y_phase s + y_inc s) (y_offset s) (y_inc s)) (t + y_inc s) k); [assumption|]. cbn. rewrite E. ring.
Qed.
Lemma wanted_samples : forall n per off t, wanted per off t (repeat YSample n) = map (fun i => sin (2 * PI * (t + INR i * per + off))) (seq 0 n).
Proof.
  induction n; intros per off t; [reflexivity|]. cbn [repeat wanted seq map]. f_equal.
  - cbn. f_equal. ring.
  - rewrite IHn, <- seq_shift, map_map. apply map_ext. intros i. rewrite S_INR. f_equal. ring.
Qed.
Lemma above_rate : forall n (s : sine R), 1 < y_inc s -> 0 <= y_phase s ->
  y_phase s + INR n * (y_inc s - 1) <= y_phase (fst (sine_run RYops s (repeat YSample n))).
Proof.
  induction n; intros s H P; [cbn; lra|]. cbn [repeat sine_run sine_step fst].
  assert (Q : y_phase (fst (sine_sample RYops s)) = y_phase s + y_inc s - 1).
  { cbn. destruct (Rlt_dec 1 (y_phase s + y_inc s)); [reflexivity|lra]. }
  eapply Rle_trans; [|apply IHn]; [|cbn; assumption|rewrite Q; lra]. rewrite Q, S_INR. cbn. lra.
Qed.

(** ** Any IEEE format *)
Section Float.
Context {prec emax : Z} {I : ieee prec emax}.
Notation fl := (binary_float prec emax).
Notation fx := (SpecFloat.fexp prec emax).
Variables (tau : fl) (fsin : fl -> fl).
Notation O := (FYops tau fsin).

Definition unit_f (x : fl) : Prop := fin x /\ 0 <= val x <= 1.
Definition state_ok (s : sine fl) : Prop := unit_f (y_phase s) /\ unit_f (y_inc s).
Definition op_ok (o : sine_op fl) : Prop :=
  match o with
  | YInit sr => fin sr /\ 1 <= val sr
  | YFreq f sr => fin f /\ fin sr /\ 1 <= val sr /\ 0 <= val f <= val sr
  | _ => True
  end.
Lemma quotient_unit : forall f sr : fl, fin f -> fin sr -> 1 <= val sr -> 0 <= val f <= val sr -> unit_f (fdiv f sr).
Proof.
  intros f sr Ff Fs S1 S2.
  assert (Q : 0 <= val f / val sr <= 1).
  { split; [apply Rmult_le_pos; [lra|left; apply Rinv_0_lt_compat; lra]|]. apply (Rmult_le_reg_r (val sr)); [lra|].
    unfold Rdiv. rewrite Rmult_assoc, Rinv_l by lra. lra. }
  assert (B : 0 <= @rnd prec emax (val f / val sr) <= 1) by (apply rnd_between; [apply rnd_0|apply rnd_1|exact Q]).
  destruct (fdiv_ok f sr Ff ltac:(lra)) as [A C].
  { apply below_top with 0%Z; [destruct I; lia|]. change (bpow radix2 0) with 1. rewrite Rabs_pos_eq; lra. }
  split; [exact C|]. rewrite A. exact B.
Qed.
Lemma two_error' : forall x, 0 <= x <= 2 -> Rabs (@rnd prec emax x - x) <= bpow radix2 (- prec).
Proof.
  intros x Hx. destruct (Req_dec x 2) as [->|]; [|apply two_error; lra].
  replace (@rnd prec emax 2) with 2 by (symmetry; change 2 with (bpow radix2 1); apply rnd_bpow; lia).
  rewrite Rminus_diag_eq by reflexivity. rewrite Rabs_R0. apply bpow_ge_0.
Qed.
Lemma sample_ok : forall s, state_ok s -> unit_f (y_phase (fst (sine_sample O s))) /\
  exists k, Rabs (val (y_phase (fst (sine_sample O s))) - (val (y_phase s) + val (y_inc s) - IZR k)) <= bpow radix2 (- prec).
Proof.
  intros s [[P1 P2] [D1 D2]]. cbn. 
  assert (R2 : 0 <= @rnd prec emax (val (y_phase s) + val (y_inc s)) <= 2).
  { apply rnd_between; [apply rnd_0|change 2 with (bpow radix2 1); apply rnd_bpow; lia|lra]. }
  destruct (fadd_ok (y_phase s) (y_inc s) P1 D1) as [A B].
  { apply below_top with 1%Z; [destruct I; lia|]. change (bpow radix2 1) with 2. rewrite Rabs_pos_eq; lra. }
  pose proof (two_error' (val (y_phase s) + val (y_inc s)) ltac:(lra)) as E. rewrite <- A in E, R2.
  set (x := fadd (y_phase s) (y_inc s)) in *. clearbody x. rewrite fltb_ok by (exact fin_fone || exact B). rewrite val_fone.
  destruct (Rlt_bool_spec 1 (val x)) as [L|L].
  - assert (X : @rnd prec emax (val x - val (fone : fl)) = val x - 1).
    { rewrite val_fone. apply rnd_format. apply sterbenz; [exact (FLT_exp_valid (SpecFloat.emin prec emax) prec)|exact (FLT_exp_monotone (SpecFloat.emin prec emax) prec)|apply generic_format_B2R| |lra].
      change 1 with (bpow radix2 0). apply bpow_format. lia. }
    destruct (fsub_ok x fone B fin_fone) as [A' B'].
    { rewrite X. apply below_top with 0%Z; [destruct I; lia|]. change (bpow radix2 0) with 1. rewrite Rabs_pos_eq; lra. }
    rewrite X in A'. split; [split; [exact B'|lra]|]. exists 1%Z. rewrite A'.
    replace (val x - 1 - (val (y_phase s) + val (y_inc s) - 1)) with (val x - (val (y_phase s) + val (y_inc s))) by ring. exact E.
  - split; [split; [exact B|lra]|]. exists 0%Z. rewrite Rminus_0_r. exact E.
Qed.
Lemma step_ok : forall s o, state_ok s -> op_ok o -> state_ok (fst (sine_step O s o)).
Proof.
  intros s o [P D] Ho. pose proof (conj P D : state_ok s) as H. destruct o as [sr|f sr|o| |]; cbn [sine_step fst].
  - destruct Ho as [H1 H2]. split; cbn; [split; [reflexivity|cbn; lra]|]. destruct (feqb (y_inc s) fzero); [|exact D].
    destruct P. apply quotient_unit; try assumption. lra.
  - destruct Ho as (H1 & H2 & H3 & H4). split; cbn; [exact P|]. apply quotient_unit; assumption.
  - split; cbn; assumption.
  - split; cbn; [split; [reflexivity|cbn; lra]|exact D].
  - split; [apply sample_ok; exact H|exact D].
Qed.
Lemma run_ok : forall l s, state_ok s -> Forall op_ok l -> state_ok (fst (sine_run O s l)).
Proof.
  induction l as [|o l IH]; intros s H F; [exact H|]. inversion F; subst. cbn [sine_run fst]. apply IH; [apply step_ok|]; assumption.
Qed.
Lemma drifts : forall n s, state_ok s ->
  exists k, Rabs (val (y_phase (fst (sine_run O s (repeat YSample n)))) - (val (y_phase s) + INR n * val (y_inc s) - IZR k)) <= INR n * bpow radix2 (- prec).
Proof.
  induction n; intros s H.
  - exists 0%Z. cbn. match goal with |- Rabs ?x <= _ => replace x with 0 by ring end. rewrite Rabs_R0. lra.
  - cbn [repeat sine_run sine_step fst]. destruct (sample_ok s H) as [U [k K]].
    destruct (IHn (fst (sine_sample O s))) as [m M]; [split; [exact U|exact (proj2 H)]|].
    exists (k + m)%Z. rewrite plus_IZR, S_INR. change (y_inc (fst (sine_sample O s))) with (y_inc s) in M.
    set (a := val (y_phase (fst (sine_sample O s)))) in *. set (b := val (y_phase (fst (sine_run _ _ _)))) in *.
    replace (b - (val (y_phase s) + (INR n + 1) * val (y_inc s) - (IZR k + IZR m))) with
      ((b - (a + INR n * val (y_inc s) - IZR m)) + (a - (val (y_phase s) + val (y_inc s) - IZR k))) by ring.
    eapply Rle_trans; [apply Rabs_triang|]. lra.
Qed.

(** *** A negative increment *)
Lemma far_rounds : forall d, -1 <= d <= 0 -> (prec + 3 <= emax)%Z -> - bpow radix2 (prec + 1) <= @rnd prec emax (- bpow radix2 (prec + 1) + d).
Proof.
  intros d Hd He. replace (- bpow radix2 (prec + 1) + d) with (- (bpow radix2 (prec + 1) + - d)) by ring. rewrite rnd_opp.
  apply Ropp_le_contravar. unfold rnd.
  assert (V : Valid_exp fx) by exact (FLT_exp_valid (SpecFloat.emin prec emax) prec).
  assert (Fm : generic_format radix2 fx (bpow radix2 (prec + 1))) by (apply bpow_format; destruct I; lia).
  apply round_N_le_midp; [exact V|exact Fm|].
  rewrite succ_eq_pos by apply bpow_ge_0. rewrite ulp_bpow.
  replace (fx (prec + 1 + 1)%Z) with 2%Z by (unfold SpecFloat.fexp, SpecFloat.emin; destruct I; lia).
  change (bpow radix2 2) with 4. lra.
Qed.
Definition low_state (s : sine fl) : Prop :=
  fin (y_phase s) /\ fin (y_inc s) /\ -1 <= val (y_inc s) <= 0 /\ - bpow radix2 (prec + 1) <= val (y_phase s) <= 0.
Lemma low_sample : forall s, (prec + 3 <= emax)%Z -> low_state s ->
  low_state (fst (sine_sample O s)) /\ val (y_phase (fst (sine_sample O s))) <= val (y_phase s).
Proof.
  intros s He (P & D & Hd & Hp).
  assert (R1 : - bpow radix2 (prec + 1) <= @rnd prec emax (val (y_phase s) + val (y_inc s))).
  { eapply Rle_trans; [apply (far_rounds (val (y_inc s)) Hd He)|]. apply rnd_le. lra. }
  assert (R2 : @rnd prec emax (val (y_phase s) + val (y_inc s)) <= val (y_phase s)).
  { rewrite <- (rnd_val (y_phase s)) at 2. apply rnd_le. lra. }
  destruct (fadd_ok (y_phase s) (y_inc s) P D) as [A B].
  { apply below_top with (prec + 1)%Z; [lia|]. apply Rabs_le. pose proof (bpow_ge_0 radix2 (prec + 1)). lra. }
  unfold low_state. cbn. rewrite fltb_ok by (exact fin_fone || exact B). rewrite val_fone, A, Rlt_bool_false by lra. rewrite A. repeat split; assumption || lra.
Qed.
Lemma on_grid : forall x : fl, exists m, val x = IZR m * bpow radix2 (SpecFloat.emin prec emax).
Proof.
  intros x. pose proof (generic_format_B2R prec emax x) as G. change (B2R x) with (val x) in G.
  apply (generic_format_FIX_FLT radix2 (SpecFloat.emin prec emax) prec) in G. apply FIX_format_generic in G.
  destruct G as [[m e] E1 E2]. cbn in E2. subst e. exists m. exact E1.
Qed.
Lemma stops : forall N s m, (prec + 3 <= emax)%Z -> low_state s -> val (y_phase s) = IZR m * bpow radix2 (SpecFloat.emin prec emax) ->
  val (y_phase s) + bpow radix2 (prec + 1) <= IZR (Z.of_nat N) * bpow radix2 (SpecFloat.emin prec emax) ->
  exists n, let s' := fst (sine_run O s (repeat YSample n)) in low_state s' /\ val (y_phase (fst (sine_sample O s'))) = val (y_phase s').
Proof.
  induction N; intros s m He L Em B.
  - exists 0%nat. cbn zeta. cbn [repeat sine_run fst]. split; [exact L|]. destruct (low_sample s He L) as [L' D]. destruct L as (_ & _ & _ & L1). destruct L' as (_ & _ & _ & L2).
    change (IZR (Z.of_nat 0)) with 0 in B. lra.
  - destruct (low_sample s He L) as [L' D]. destruct (Req_dec (val (y_phase (fst (sine_sample O s)))) (val (y_phase s))) as [E|N1].
    + exists 0%nat. cbn zeta. split; [exact L|exact E].
    + destruct (on_grid (y_phase (fst (sine_sample O s)))) as [m' Em'].
      assert (G : (m' <= m - 1)%Z).
      { pose proof (bpow_gt_0 radix2 (SpecFloat.emin prec emax)) as U. assert (IZR m' < IZR m).
        { apply (Rmult_lt_reg_r (bpow radix2 (SpecFloat.emin prec emax))); [exact U|]. rewrite <- Em, <- Em'. lra. }
        apply lt_IZR in H. lia. }
      destruct (IHN (fst (sine_sample O s)) m' He L' Em') as [n Hn].
      { rewrite Em'. rewrite Em in B. rewrite Nat2Z.inj_succ, succ_IZR in B. apply IZR_le in G. rewrite minus_IZR in G.
        pose proof (bpow_gt_0 radix2 (SpecFloat.emin prec emax)) as U. set (u := bpow radix2 (SpecFloat.emin prec emax)) in *. clearbody u.
        assert (IZR m' * u <= (IZR m - 1) * u) by (apply Rmult_le_compat_r; lra). lra. }
      exists (S n). exact Hn.
Qed.
Lemma negative_stops : forall s, (prec + 3 <= emax)%Z -> low_state s ->
  exists n, let s' := fst (sine_run O s (repeat YSample n)) in low_state s' /\ val (y_phase (fst (sine_sample O s'))) = val (y_phase s').
Proof.
  intros s He L. destruct (on_grid (y_phase s)) as [m Em]. pose proof (bpow_gt_0 radix2 (SpecFloat.emin prec emax)) as U.
  pose proof (archimed (bpow radix2 (prec + 1) / bpow radix2 (SpecFloat.emin prec emax))) as [Ar _].
  set (u := bpow radix2 (SpecFloat.emin prec emax)) in *. set (z := up (bpow radix2 (prec + 1) / u)) in *.
  assert (Q : 0 < bpow radix2 (prec + 1) / u) by (apply Rdiv_lt_0_compat; [apply bpow_gt_0|exact U]).
  apply (stops (Z.to_nat z) s m He L Em). fold u. rewrite Z2Nat.id by (apply le_IZR; lra).
  destruct L as (_ & _ & _ & L). apply Rle_trans with (bpow radix2 (prec + 1) / u * u); [|apply Rmult_le_compat_r; lra].
  unfold Rdiv. rewrite Rmult_assoc, Rinv_l by lra. lra.
Qed.
Lemma same_phase : forall x y : fl, fin x -> fin y -> val x = val y -> val x <> 0 -> x = y.
Proof.
  intros x y Fx Fy E N. apply B2R_Bsign_inj; [exact Fx|exact Fy|exact E|].
  destruct x; try discriminate Fx; destruct y; try discriminate Fy; try (cbn in N; lra).
  - cbn in E. symmetry in E. exfalso. apply N. exact (eq_sym E).
  - pose proof (sign_true (B754_finite s m e e0) Fx) as S1. pose proof (sign_true (B754_finite s0 m0 e1 e2) Fy) as S2. cbn [Bsign] in *.
    destruct s, s0; try reflexivity; exfalso.
    + specialize (S1 eq_refl). assert (0 < val (B754_finite false m0 e1 e2 : fl)) by (cbn; apply F2R_gt_0; cbn; lia). lra.
    + specialize (S2 eq_refl). assert (0 < val (B754_finite false m e e0 : fl)) by (cbn; apply F2R_gt_0; cbn; lia). lra.
Qed.
Lemma fixed_forever : forall n s, fst (sine_sample O s) = s ->
  sine_run O s (repeat YSample n) = (s, repeat (snd (sine_sample O s)) n).
Proof.
  induction n; intros s E; [reflexivity|]. cbn [repeat sine_run sine_step fst snd]. rewrite E, IHn by exact E. reflexivity.
Qed.
Lemma run_inc : forall n s, y_inc (fst (sine_run O s (repeat YSample n))) = y_inc s /\ y_offset (fst (sine_run O s (repeat YSample n))) = y_offset s.
Proof. induction n; intros s; [split; reflexivity|]. cbn [repeat sine_run sine_step fst]. destruct (IHn (fst (sine_sample O s))) as [A B]. rewrite A, B. split; reflexivity. Qed.
Lemma run_mono : forall n s, (prec + 3 <= emax)%Z -> low_state s -> val (y_phase (fst (sine_run O s (repeat YSample n)))) <= val (y_phase s).
Proof.
  induction n; intros s He L; [cbn; lra|]. cbn [repeat sine_run sine_step fst]. destruct (low_sample s He L) as [L' D].
  eapply Rle_trans; [apply IHn; assumption|exact D].
Qed.
End Float.
