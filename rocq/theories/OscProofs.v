From Coq Require Import Reals Lra.
From Flocq Require Import Core BinarySingleNaN.
From Verif Require Import Base FloatBase FloatMore NoiseModel NoiseSpec NoiseProofs AllpassProofs OscModel OscSpec.
Local Open Scope R_scope.

(** * Limiter *)
Section Limiter.
Context {prec emax : Z} {I : ieee prec emax}.
Notation fl := (binary_float prec emax).
Lemma limit_range : forall x : fl, between (-1) 1 (limit x).
Proof.
  intros x. unfold limit.
  assert (Vn : val (fneg (fone : fl)) = -1) by (rewrite val_fneg, val_fone; reflexivity).
  assert (Fn : fin (fneg (fone : fl))) by (apply fin_fneg; apply fin_fone).
  assert (V1 : val (fone : fl) = 1) by apply val_fone. assert (F1 : fin (fone : fl)) by apply fin_fone.
  assert (Nn : forall y : fl, fin y -> is_nan y = false) by (intros [s | s | | s m e b] H; unfold fin in H; cbn in *; congruence).
  destruct x as [s | [|] | | s m e b].
  - assert (B : between (-1) 1 (clamp (B754_zero s : fl) (fneg fone) fone)) by (apply clamp_ok; reflexivity). rewrite (Nn _ (proj1 B)). exact B.
  - assert (E : clamp (B754_infinity true : fl) (fneg fone) fone = fneg fone).
    { unfold clamp. replace (fltb (B754_infinity true) (fneg fone)) with true.
      - destruct (fltb fone (fneg fone)) eqn:C; [apply fltb_true in C; try assumption; lra | reflexivity].
      - symmetry. destruct (fneg (fone : fl)) as [s | s | | s m e b]; cbn in Fn; try discriminate Fn; reflexivity. }
    rewrite E, (Nn _ Fn). split; [exact Fn | lra].
  - assert (E : clamp (B754_infinity false : fl) (fneg fone) fone = fone).
    { unfold clamp. replace (fltb (B754_infinity false) (fneg fone)) with false.
      - replace (fltb fone (B754_infinity false : fl)) with true; [reflexivity |]. destruct (fone : fl) as [s | s | | s m e b]; cbn in F1; try discriminate F1; reflexivity.
      - destruct (fneg (fone : fl)) as [s | s | | s m e b]; cbn in Fn; try discriminate Fn; reflexivity. }
    rewrite E, (Nn _ F1). split; [exact F1 | lra].
  - replace (clamp (B754_nan : fl) (fneg fone) fone) with (B754_nan : fl).
    + cbn [is_nan]. split; [reflexivity |]. change (val (fzero : fl)) with 0. lra.
    + symmetry. unfold clamp. replace (fltb (B754_nan : fl) (fneg fone)) with false by (destruct (fneg (fone : fl)); reflexivity).
      replace (fltb fone (B754_nan : fl)) with false by (destruct (fone : fl); reflexivity). reflexivity.
  - assert (B : between (-1) 1 (clamp (B754_finite s m e b : fl) (fneg fone) fone)) by (apply clamp_ok; reflexivity). rewrite (Nn _ (proj1 B)). exact B.
Qed.
Lemma limit_same : forall x : fl, between (-1) 1 x -> limit x = x.
Proof.
  intros x [F V]. unfold limit, clamp.
  assert (Vn : val (fneg (fone : fl)) = -1) by (rewrite val_fneg, val_fone; reflexivity).
  assert (Fn : fin (fneg (fone : fl))) by (apply fin_fneg; apply fin_fone).
  assert (V1 : val (fone : fl) = 1) by apply val_fone. assert (F1 : fin (fone : fl)) by apply fin_fone.
  replace (fltb x (fneg fone)) with false; [| symmetry; rewrite fltb_ok by assumption; apply Rlt_bool_false; lra].
  replace (fltb fone x) with false; [| symmetry; rewrite fltb_ok by assumption; apply Rlt_bool_false; lra].
  destruct x as [s | s | | s m e b]; cbn in *; try discriminate F; reflexivity.
Qed.
End Limiter.

(** * Phasor *)
(** Above 1 and below 2^53, subtracting 1 is exact. *)
Lemma minus_one : forall x : f64, fin x -> 1 <= val x < bpow radix2 53 -> fin (fsub x fone) /\ val (fsub x fone) = val x - 1.
Proof.
  intros x Fx Vx.
  assert (E : @rnd 53 1024 (val x - 1) = val x - 1).
  { apply rnd_format. destruct (Req_dec (val x - 1) 0) as [Z | NZ]; [rewrite Z; apply generic_format_0 |].
    assert (G : generic_format radix2 (SpecFloat.fexp 53 1024) (val x)) by apply generic_format_B2R.
    assert (P : Prec_gt_0 53) by reflexivity.
    assert (V : Valid_exp (FLT_exp (SpecFloat.emin 53 1024) 53)) by (apply FLT_exp_valid; exact P).
    replace (SpecFloat.fexp 53 1024) with (FLT_exp (SpecFloat.emin 53 1024) 53) in * by reflexivity.
    set (ex := cexp radix2 (FLT_exp (SpecFloat.emin 53 1024) 53) (val x)) in *.
    assert (Hm : (1 <= mag radix2 (val x) <= 53)%Z).
    { split; [apply mag_ge_bpow; change (bpow radix2 (1 - 1)) with 1; rewrite Rabs_pos_eq; lra | apply mag_le_bpow; [lra | rewrite Rabs_pos_eq; lra]]. }
    assert (Hex : (-52 <= ex <= 0)%Z) by (unfold ex, cexp, FLT_exp, SpecFloat.emin; lia).
    assert (K : exists z, val x - 1 = IZR z * bpow radix2 ex).
    { unfold generic_format, F2R in G. cbn [Fnum Fexp] in G. fold ex in G. exists (Ztrunc (scaled_mantissa radix2 (FLT_exp (SpecFloat.emin 53 1024) 53) (val x)) - 2 ^ (- ex))%Z.
      rewrite minus_IZR, Rmult_minus_distr_r, <- G. f_equal.
      change (2 ^ (- ex))%Z with (Zpower (radix_val radix2) (- ex)). rewrite IZR_Zpower by lia. rewrite <- bpow_plus. replace (- ex + ex)%Z with 0%Z by lia. reflexivity. }
    destruct K as [z K]. rewrite K. apply generic_format_FLT. exists (Float radix2 z ex); [reflexivity | | cbn; unfold SpecFloat.emin; lia].
    cbn [Fnum]. apply lt_IZR. rewrite abs_IZR.
    assert (L : Rabs (IZR z) * bpow radix2 ex < bpow radix2 (53 + ex)).
    { rewrite <- (Rabs_pos_eq (bpow radix2 ex)) at 1 by apply bpow_ge_0. rewrite <- Rabs_mult, <- K. rewrite Rabs_pos_eq by lra.
      apply Rlt_le_trans with (bpow radix2 (mag radix2 (val x))).
      - apply Rlt_trans with (val x); [lra |]. apply Rle_lt_trans with (Rabs (val x)); [apply Rle_abs | apply bpow_mag_gt].
      - apply bpow_le. unfold ex, cexp, FLT_exp, SpecFloat.emin. lia. }
    rewrite bpow_plus in L. apply Rmult_lt_reg_r in L; [| apply bpow_gt_0]. exact L. }
  destruct (fsub_ok x fone Fx fin_fone) as [A B]; rewrite val_fone, E in *.
  - rewrite Rabs_pos_eq by lra. apply Rlt_trans with (val x); [lra |]. apply Rlt_trans with (1 := proj2 Vx). apply bpow_lt. lia.
  - split; assumption.
Qed.
(** The loop ends with the fractional part. *)
Lemma wrap_ok : forall n (x : f64), fin x -> 0 <= val x < bpow radix2 53 -> val x < INR (S n) ->
  exists y, wrap n x = Some y /\ fin y /\ 0 <= val y < 1 /\ exists k, val x = val y + IZR k.
Proof.
  induction n as [| n IH]; intros x Fx Vx Hn; cbn [wrap].
  - destruct (fleb fone x) eqn:C.
    + exfalso. apply fleb_true in C; [| apply fin_fone | exact Fx]. rewrite val_fone in C. cbn in Hn. lra.
    + apply fleb_false in C; [| apply fin_fone | exact Fx]. rewrite val_fone in C. exists x. split; [reflexivity |]. split; [exact Fx |]. split; [lra |]. exists 0%Z. lra.
  - destruct (fleb fone x) eqn:C.
    + apply fleb_true in C; [| apply fin_fone | exact Fx]. rewrite val_fone in C. destruct (minus_one x Fx ltac:(lra)) as [F V].
      rewrite !S_INR in Hn. destruct (IH (fsub x fone) F) as (y & E & Fy & Vy & k & Hk); [rewrite V; lra | rewrite V, S_INR; lra |].
      exists y. split; [exact E |]. split; [exact Fy |]. split; [exact Vy |]. exists (k + 1)%Z. rewrite plus_IZR. lra.
    + apply fleb_false in C; [| apply fin_fone | exact Fx]. rewrite val_fone in C. exists x. split; [reflexivity |]. split; [exact Fx |]. split; [lra |]. exists 0%Z. lra.
Qed.
Definition ph_ok (s : phasor) : Prop := fin (ph_phase s) /\ 0 <= val (ph_phase s) < 1.
(** A step of zero or more and at most [b] *)
Definition step_ok (b : R) (x : f64) : Prop := fin x /\ 0 <= val x <= b.
Lemma sum_small : forall (p s : f64) n, fin p -> 0 <= val p < 1 -> step_ok (INR n) s -> INR n <= bpow radix2 52 ->
  fin (fadd p s) /\ 0 <= val (fadd p s) < bpow radix2 53 /\ val (fadd p s) <= INR (S n).
Proof.
  intros p s n Fp Vp [Fs Vs] Hn.
  assert (B53 : bpow radix2 53 = 2 * bpow radix2 52) by (change 53%Z with (1 + 52)%Z; rewrite bpow_plus; reflexivity).
  assert (B52 : 1 < bpow radix2 52) by (change 1 with (bpow radix2 0); apply bpow_lt; lia).
  destruct (fadd_ok p s Fp Fs) as [A B].
  { apply fits with 53%Z; [lia |]. rewrite Rabs_pos_eq; lra. }
  assert (Hz : (Z.of_nat n <= 2 ^ 52)%Z).
  { apply le_IZR. rewrite <- INR_IZR_INZ. change (IZR (2 ^ 52)) with (bpow radix2 52). exact Hn. }
  assert (R1 : @rnd 53 1024 (INR (S n)) = INR (S n)).
  { rewrite INR_IZR_INZ. rewrite <- (Rmult_1_r (IZR _)). change 1 with (bpow radix2 0). apply rnd_grid; [| lia]. rewrite Nat2Z.inj_succ. change (2 ^ 53)%Z with (2 * 2 ^ 52)%Z. lia. }
  assert (U : 0 <= val (fadd p s) <= INR (S n)).
  { rewrite A. apply rnd_between; [apply rnd_0 | exact R1 |]. rewrite S_INR. lra. }
  split; [exact B |]. rewrite S_INR in *. lra.
Qed.
Definition ph_op_ok (b : R) (s : phasor) (o : ph_op) : Prop :=
  match o with PFreq f => step_ok b (if feqb (ph_mult s) fzero then f else fmul f (ph_mult s)) | PFrame => True end.
Lemma phasor_step_ok : forall n s, ph_ok s -> step_ok (INR n) (ph_step s) -> INR n <= bpow radix2 52 ->
  exists s', phasor_step (S n) s = Some (s', ph_phase s) /\ ph_ok s' /\ ph_step s' = ph_step s /\ ph_mult s' = ph_mult s.
Proof.
  intros n s [Fp Vp] Hs Hn. destruct (sum_small _ _ n Fp Vp Hs Hn) as (F & V & L).
  destruct (wrap_ok (S n) _ F V) as (y & E & Fy & Vy & _); [rewrite !S_INR in *; lra |].
  unfold phasor_step. rewrite E. cbn [bind]. eexists. split; [reflexivity |]. split; [split; assumption | split; reflexivity].
Qed.
Lemma phasor_run_ok : forall n ops s, ph_ok s -> step_ok (INR n) (ph_step s) -> INR n <= bpow radix2 52 -> Forall (ph_op_ok (INR n) s) ops ->
  exists l, phasor_run (S n) s ops = Some l /\ Forall (fun o => fin o /\ 0 <= val o < 1) l.
Proof.
  intros n. induction ops as [| [f |] ops IH]; intros s Hp Hs Hn Ho; cbn [phasor_run]; [exists []; split; [reflexivity | constructor] | |]; inversion Ho as [| ? ? O1 O2]; subst.
  - destruct (IH (phasor_freq f s)) as (l & E & F); [exact Hp | exact O1 | exact Hn | exact O2 |]. exists l. split; assumption.
  - destruct (phasor_step_ok n s Hp Hs Hn) as (s' & E & Hp' & Es & Em). rewrite E. cbn [bind fst snd].
    destruct (IH s') as (l & E2 & F); [exact Hp' | rewrite Es; exact Hs | exact Hn | |].
    { eapply Forall_impl; [| exact O2]. intros [f |] H; [unfold ph_op_ok in *; rewrite Em; exact H | exact Logic.I]. }
    rewrite E2. exists (ph_phase s :: l). split; [reflexivity | constructor; [exact Hp | exact F]].
Qed.

(** * Conversion to f32 *)
Lemma to_f32_ok : forall x : f64, fin x -> 0 <= val x <= 1 -> fin (to_f32 x) /\ val (to_f32 x) = @rnd 24 128 (val x) /\ 0 <= val (to_f32 x) <= 1.
Proof.
  intros x Fx Vx.
  assert (K : 0 <= @rnd 24 128 (val x) <= 1) by (apply rnd_between; [apply rnd_0 | apply rnd_1 | exact Vx]).
  destruct x as [s | s | | s m e b]; try discriminate Fx.
  - cbn [to_f32]. split; [reflexivity |]. change (val (B754_zero s : f64)) with 0. change (val (B754_zero s : f32)) with 0. rewrite rnd_0. split; [reflexivity | lra].
  - cbn [to_f32]. pose proof (binary_normalize_correct 24 128 _ _ mode_NE (cond_Zopp s (Zpos m)) e s) as C. cbv zeta in C.
    change (F2R {| Fnum := cond_Zopp s (Zpos m); Fexp := e |}) with (val (B754_finite s m e b : f64)) in C.
    change (round radix2 (SpecFloat.fexp 24 128) (round_mode mode_NE) (val (B754_finite s m e b : f64))) with (@rnd 24 128 (val (B754_finite s m e b : f64))) in C.
    rewrite Rlt_bool_true in C.
    + destruct C as (C1 & C2 & _). split; [exact C2 |]. split; [exact C1 |]. unfold val in *. rewrite C1. exact K.
    + rewrite Rabs_pos_eq by apply K. apply Rle_lt_trans with 1; [apply K |]. change 1 with (bpow radix2 0). apply bpow_lt. lia.
Qed.

(** * Wavetable *)
Open Scope N_scope.
Lemma integer_ok : forall p, integer_component p = entry p.
Proof.
  intros p. unfold integer_component, entry. change high_mask with (N.ones 14). rewrite N.land_ones, N.shiftr_div_pow2. reflexivity.
Qed.
Lemma entry_bound : forall p, entry p < 16384. Proof. intros. unfold entry. apply N.mod_upper_bound. lia. Qed.
Lemma entry_mod : forall p, entry (p mod M32) = entry p.
Proof.
  intros p. unfold entry, M32. replace 4294967296 with (65536 * 65536) by reflexivity.
  rewrite N.mod_mul_r by lia.
  rewrite (N.mul_comm 65536 (_ mod _)), N.div_add by lia. rewrite N.div_small by (apply N.mod_upper_bound; lia). rewrite N.add_0_l.
  rewrite (N.div_mod (p / 65536) 65536) at 2 by lia. replace (65536 * (p / 65536 / 65536)) with (4 * (p / 65536 / 65536) * 16384) by lia.
  rewrite N.add_comm, N.mod_add by lia. reflexivity.
Qed.
Definition follows (s : sinwt) (x : exact) : Prop := w_phase s = x_total x mod M32 /\ w_offset s = x_offset x /\ w_inc s = x_inc x.
Lemma wt_follows : forall ops s x, follows s x -> map integer_component (wt_run s ops) = map entry (exact_run (w_mult s) x ops).
Proof.
  induction ops as [| o ops IH]; intros s x (H1 & H2 & H3); [reflexivity |]. cbn [wt_run exact_run]. rewrite !map_app.
  destruct o as [f | f | |]; cbn [wt_step exact_step fst snd map app].
  - apply (IH (mk_sinwt _ _ _ (w_mult s)) (mk_exact _ _ _)). split; [exact H1 |]. split; [exact H2 | reflexivity].
  - apply (IH (mk_sinwt _ _ _ (w_mult s)) (mk_exact _ _ _)). split; [exact H1 |]. split; [reflexivity | exact H3].
  - apply (IH (mk_sinwt _ _ _ (w_mult s)) (mk_exact _ _ _)). split; [reflexivity |]. split; assumption.
  - f_equal.
    + rewrite integer_ok. unfold wadd. rewrite H1, H2. rewrite entry_mod. unfold M32. rewrite <- (entry_mod (_ + _)), <- (entry_mod (x_total x + _)). unfold M32.
      rewrite N.add_mod_idemp_l by lia. reflexivity.
    + apply (IH (mk_sinwt (wadd (w_phase s) (w_inc s)) (w_offset s) (w_inc s) (w_mult s)) (mk_exact _ _ _)).
      split; [| split; assumption]. cbn [w_phase x_total]. unfold wadd. rewrite H1, H3. apply N.add_mod_idemp_l. discriminate.
Qed.
Lemma index_bound : forall ls f, (table_index_in ls f <= length ls)%nat.
Proof. induction ls as [| l ls IH]; intros f; cbn [table_index_in length]; [lia |]. destruct (fleb f l); [lia |]. specialize (IH f). lia. Qed.
