From Coq Require Import Reals Lra.
From Flocq Require Import Core BinarySingleNaN.
From Verif Require Import Base FloatBase FloatMore AllpassSpec AllpassProofs NoiseSpec NoiseProofs OscModel BufferModel BufferSpec.
Local Open Scope R_scope.
Notation rnd := (@rnd 53 1024).

Lemma pow24_53 : (2 ^ 24 <= 2 ^ 53)%Z. Proof. discriminate. Qed.
Lemma rnd_z : forall z, (Z.abs z <= 2 ^ 53)%Z -> rnd (IZR z) = IZR z.
Proof. intros z H. pose proof (rnd_grid (prec := 53) (emax := 1024) z 0 H ltac:(lia)) as E. change (bpow radix2 0) with 1 in E. rewrite Rmult_1_r in E. exact E. Qed.
Lemma z_top : forall z, (Z.abs z <= 2 ^ 53)%Z -> Rabs (IZR z) < @top 1024.
Proof.
  intros z H. apply below_top with 53%Z; [lia |]. pose proof (grid_size z 0 53 H ltac:(lia)) as E. change (bpow radix2 0) with 1 in E. rewrite Rmult_1_r in E. exact E.
Qed.
Lemma fz_int : forall z, (Z.abs z <= 2 ^ 53)%Z -> fin (fz z : f64) /\ val (fz z : f64) = IZR z.
Proof.
  intros z H. destruct (fz_ok (prec := 53) (emax := 1024) z) as [A B]; [rewrite rnd_z by exact H; apply z_top; exact H |].
  split; [exact B |]. rewrite A. apply rnd_z. exact H.
Qed.
(** Rounding errors below a power of two *)
Lemma rnd_error : forall x k, (0 <= k)%Z -> 0 <= x < bpow radix2 k -> Rabs (rnd x - x) <= bpow radix2 (k - 54).
Proof.
  intros x k Hk Hx. destruct (Req_dec x 0) as [-> | N].
  - rewrite rnd_0, Rminus_0_r, Rabs_R0. apply bpow_ge_0.
  - eapply Rle_trans; [apply error_le_half_ulp; exact (FLT_exp_valid (SpecFloat.emin 53 1024) 53) |].
    rewrite ulp_neq_0 by exact N. unfold cexp.
    assert (M : (mag radix2 x <= k)%Z) by (apply mag_le_bpow; [exact N | rewrite Rabs_pos_eq; lra]).
    replace (/ 2) with (bpow radix2 (-1)) by reflexivity. rewrite <- bpow_plus. apply bpow_le.
    unfold SpecFloat.fexp, SpecFloat.emin. lia.
Qed.

(** * Reading *)
Lemma trunc_neg : forall x : f64, val x < 0 -> (Btrunc x <= 0)%Z.
Proof.
  intros x H. assert (P : Prec_lt_emax 53 1024) by reflexivity.
  pose proof (@Btrunc_correct 53 1024 P x) as E. unfold round, F2R, scaled_mantissa, cexp, FIX_exp in E. cbn [Fnum Fexp] in E.
  change (bpow radix2 0) with 1 in E. cbn [Z.opp] in E. change (bpow radix2 0) with 1 in E. rewrite !Rmult_1_r in E. apply eq_IZR in E. rewrite E.
  change (B2R x) with (val x). rewrite Ztrunc_ceil by lra. apply Zceil_glb. lra.
Qed.
Lemma as_usize_small : forall F (x : f64), (1 <= F <= 2 ^ 53)%Z -> fleb (fz F) x = false -> (as_usize x < Z.to_N F)%N.
Proof.
  intros F x HF H. destruct (fz_int F ltac:(lia)) as [FF VF].
  assert (G : fin x -> (Z.to_N (Z.min (Btrunc x) 18446744073709551615) < Z.to_N F)%N).
  { intros Fx. apply fleb_false in H; [| exact FF | exact Fx]. rewrite VF in H. destruct (Rlt_le_dec (val x) 0) as [N | P].
    - pose proof (trunc_neg x N). lia.
    - pose proof (trunc_le x P) as [_ [A [B _]]]. assert (IZR (Btrunc x) < IZR F) by lra. apply lt_IZR in H0. lia. }
  destruct x as [s | s | | s m e Bd]; unfold as_usize.
  - apply G. reflexivity.
  - destruct s; [lia |]. exfalso. destruct (fz F : f64) as [s' | s' | | s' m' e' B'] eqn:E; try (unfold fin in FF; discriminate FF); discriminate H.
  - lia.
  - apply G. reflexivity.
Qed.
Lemma reads_inside : forall b x c F, (b_ch b <> 0)%N -> (Z.to_N F * b_ch b <= b_len b)%N -> b_frames b = fz F -> (1 <= F <= 2 ^ 53)%Z -> fleb (b_frames b) x = false -> (c < b_ch b)%N ->
  inside b (reads_at b x c).
Proof.
  intros b x c F HC HL E HF H Hc. rewrite E in H. pose proof (as_usize_small F x HF H) as A.
  unfold inside, reads_at. assert (L : (as_usize x * b_ch b + c < b_len b)%N).
  { apply N.lt_le_trans with (2 := HL). apply N.lt_le_trans with ((as_usize x + 1) * b_ch b)%N; [lia |]. apply N.mul_le_mono_r. lia. }
  repeat constructor; [exact L |]. apply N.mod_upper_bound. lia.
Qed.
Lemma not_past : forall a b c : f64, fin b -> fleb a b = true -> fleb a c = false -> fleb b c = false.
Proof.
  intros a b c Fb H1 H2. destruct (fleb b c) eqn:E; [| reflexivity]. exfalso.
  assert (G : fleb a c = true); [| congruence]. destruct a as [s | s | | s m e B]; destruct c as [s' | s' | | s' m' e' B'];
    try discriminate H1; try (destruct s'; reflexivity); try (destruct s; reflexivity);
    try (destruct s'; reflexivity || (exfalso; destruct b as [t | t | | t n g D]; try discriminate Fb; discriminate E));
    try (destruct b as [t | t | | t n g D]; try discriminate Fb; discriminate E);
    try (destruct s; [destruct s'; reflexivity | exfalso; destruct b as [t | t | | t n g D]; try discriminate Fb; discriminate H1]);
    (rewrite fleb_ok by reflexivity; apply Rle_bool_true; apply fleb_true in E; [| assumption | reflexivity]; apply fleb_true in H1; [| reflexivity | assumption]; lra).
Qed.

Section Play.
Variables (b : buffer) (channels : nat) (F : Z).
Hypothesis HC : (b_ch b <> 0)%N.
Hypothesis HL : (Z.to_N F * b_ch b <= b_len b)%N.
Hypothesis HF : (1 <= F <= 2 ^ 53)%Z.
Hypothesis Efr : b_frames b = fz F.
Hypothesis Hch : (N.of_nat channels <= b_ch b)%N.
(** The read pointer is before the end of the buffer, or playback has finished *)
Definition pointer_ok (s : player) : Prop := pl_fin s = true \/ fleb (b_frames b) (pl_rp s) = false.
Lemma frames_fin : fin (b_frames b). Proof using HF Efr. rewrite Efr. apply fz_int. clear - HF. lia. Qed.
Lemma step_inside : forall s, settings_ok b s -> pointer_ok s ->
  inside b (snd (player_step b channels s)) /\ pointer_ok (fst (player_step b channels s)) /\
  pl_start (fst (player_step b channels s)) = pl_start s /\ pl_end (fst (player_step b channels s)) = pl_end s.
Proof using HC HL HF Efr Hch.
  intros s [Hs He] Hp. unfold player_step. destruct (pl_fin s) eqn:Fi.
  - split; [constructor |]. split; [left; exact Fi |]. split; reflexivity.
  - destruct Hp as [Hp | Hp]; [congruence |]. cbv zeta.
    assert (R : inside b (concat (map (fun c => reads_at b (pl_rp s) (N.of_nat c)) (seq 0 channels)))).
    { unfold inside. apply Forall_forall. intros i Hi. apply in_concat in Hi as [l [Hl Hi]]. apply in_map_iff in Hl as [c [<- Hc]]. apply in_seq in Hc.
      assert (Q : inside b (reads_at b (pl_rp s) (N.of_nat c))) by (apply reads_inside with F; try assumption; lia).
      unfold inside in Q. rewrite Forall_forall in Q. apply Q. exact Hi. }
    cbn [pl_end pl_rp pl_loop pl_start pl_dur pl_rate pl_base].
    destruct (fleb (pl_end s) (fadd (pl_rp s) (fmul (pl_base s) (pl_rate s)))) eqn:Q; cbn [fst snd].
    + split; [exact R |]. destruct (pl_loop s).
      * unfold reset, pointer_ok. cbn [pl_fin pl_rp pl_start pl_end]. split; [right; exact Hs |]. split; reflexivity.
      * unfold pointer_ok. cbn [pl_fin pl_rp pl_start pl_end]. split; [left; reflexivity |]. split; reflexivity.
    + split; [exact R |]. unfold pointer_ok. cbn [pl_fin pl_rp pl_start pl_end]. split; [right | split; reflexivity].
      apply not_past with (pl_end s); [apply frames_fin | exact He | exact Q].
Qed.
Lemma block_inside : forall n s, settings_ok b s -> pointer_ok s ->
  inside b (snd (player_block b channels n s)) /\ pointer_ok (fst (player_block b channels n s)) /\
  pl_start (fst (player_block b channels n s)) = pl_start s /\ pl_end (fst (player_block b channels n s)) = pl_end s.
Proof using HC HL HF Efr Hch.
  induction n as [| n IH]; intros s Hs Hp; cbn [player_block].
  - split; [constructor |]. split; [exact Hp |]. split; reflexivity.
  - destruct (pl_fin s) eqn:Fi; cbn [fst snd].
    + split; [constructor |]. split; [left; exact Fi |]. split; reflexivity.
    + destruct (step_inside s Hs Hp) as [A [B [C D]]]. set (s1 := fst (player_step b channels s)) in *.
      destruct (IH s1) as [A' [B' [C' D']]]; [unfold settings_ok; rewrite C, D; exact Hs | exact B |].
      split; [apply Forall_app; split; assumption |]. split; [exact B' |]. split; congruence.
Qed.
Lemma pop_inside : forall s o, settings_ok b s -> pointer_ok s -> inside b (snd (pop_step b channels s o)) /\ pointer_ok (fst (pop_step b channels s o)).
Proof using HC HL HF Efr Hch.
  intros s o Hs Hp. destruct o; cbn [pop_step fst snd]; try (split; [constructor | exact Hp]).
  - split; [constructor |]. right. cbn [reset pl_rp]. apply Hs.
  - destruct (step_inside s Hs Hp) as [A [B _]]. split; assumption.
  - destruct (block_inside n s Hs Hp) as [A [B _]]. split; assumption.
Qed.
Lemma run_inside : forall ops s, always_ok b channels s ops -> pointer_ok s -> inside b (player_run b channels s ops).
Proof using HC HL HF Efr Hch.
  induction ops as [| o ops IH]; intros s Ha Hp; cbn [player_run]; [constructor |]. cbn [always_ok] in Ha. destruct Ha as [Hs Ha].
  destruct (pop_inside s o Hs Hp) as [A B]. apply Forall_app. split; [exact A | apply IH; assumption].
Qed.
Lemma range_kept : forall ops s, settings_ok b s -> pointer_ok s -> Forall keeps_range ops -> always_ok b channels s ops.
Proof using HC HL HF Efr Hch.
  induction ops as [| o ops IH]; intros s Hs Hp Ho; cbn [always_ok]; split; auto. inversion Ho as [| o' ops' H1 H2]; subst. apply IH; [| apply pop_inside; assumption | exact H2].
  destruct o; cbn [keeps_range] in H1; try contradiction; cbn [pop_step fst]; try exact Hs.
  - destruct (step_inside s Hs Hp) as [_ [_ [C D]]]. unfold settings_ok. rewrite C, D. exact Hs.
  - destruct (block_inside n s Hs Hp) as [_ [_ [C D]]]. unfold settings_ok. rewrite C, D. exact Hs.
Qed.
End Play.

(** * Default settings *)
Lemma as_u32_fin : forall x : f64, fin x -> as_u32 x = Z.to_N (Z.min (Btrunc x) (Z.of_N M32 - 1)).
Proof. intros x F. destruct x as [s | s | | s m e B]; try (exfalso; unfold fin in F; discriminate F); reflexivity. Qed.
Lemma trunc_is : forall (x : f64) z, 0 <= val x -> IZR z <= val x < IZR z + 1 -> Btrunc x = z.
Proof.
  intros x z P H. pose proof (trunc_le x P) as [_ [_ [A B]]]. assert (IZR (Btrunc x) < IZR (z + 1)) by (rewrite plus_IZR; lra).
  assert (IZR z < IZR (Btrunc x + 1)) by (rewrite plus_IZR; lra). apply lt_IZR in H0. apply lt_IZR in H1. lia.
Qed.
Lemma from_secs_zero : from_secs fzero = (0%N, 0%N). Proof. vm_compute. reflexivity. Qed.
(** Converting the length of a buffer to seconds and back does not make it longer, and hardly shorter *)
Lemma length_back : forall F S, (1 <= F)%Z -> (1 <= S <= 2 ^ 24)%Z -> (F < 2 ^ 24 * S)%Z -> (S | tes)%Z ->
  let d := to_samples (fz S) (from_secs (fdiv (fz F) (fz S))) in fin d /\ 0 <= val d <= IZR F /\ IZR F - / 4 <= val d.
Proof.
  intros F S HF HS HL [k Hk] d. assert (F53 : (Z.abs F <= 2 ^ 53)%Z) by nia.
  destruct (fz_int F F53) as [FF VF]. destruct (fz_int S ltac:(lia)) as [FS VS].
  set (q := (F / S)%Z). set (p := (F mod S)%Z).
  assert (HFqp : F = (q * S + p)%Z) by (unfold q, p; rewrite Z.mul_comm; apply Z.div_mod; lia).
  assert (Hp : (0 <= p < S)%Z) by (apply Z.mod_pos_bound; lia).
  assert (Hq : (0 <= q < 2 ^ 24)%Z) by (split; [apply Z.div_pos; lia | apply Z.div_lt_upper_bound; lia]).
  assert (SR : 1 <= IZR S <= 16777216) by (split; apply IZR_le; lia).
  assert (Eq : IZR F / IZR S = IZR q + IZR p / IZR S) by (rewrite HFqp, plus_IZR, mult_IZR; field; lra).
  assert (P0 : 0 <= IZR p / IZR S) by (apply Rmult_le_pos; [apply IZR_le; lia | left; apply Rinv_0_lt_compat; lra]).
  assert (P1 : IZR p / IZR S <= 1 - / IZR S).
  { replace (1 - / IZR S) with ((IZR S - 1) / IZR S) by (field; lra). apply Rmult_le_compat_r; [left; apply Rinv_0_lt_compat; lra |].
    rewrite <- minus_IZR. apply IZR_le. lia. }
  assert (I0 : / 16777216 <= / IZR S) by (apply Rinv_le; lra).
  assert (Q1 : 0 <= IZR q <= 16777215) by (split; apply IZR_le; lia).
  assert (X : 0 <= IZR F / IZR S < bpow radix2 24) by (change (bpow radix2 24) with 16777216; rewrite Eq; lra).
  pose proof (rnd_error _ 24 ltac:(lia) X) as XE. change (bpow radix2 (24 - 54)) with (/ 1073741824) in XE. apply Rabs_le_inv in XE.
  destruct (fdiv_ok (fz F) (fz S) FF) as [VL FL]; [rewrite VS; lra | rewrite VF, VS |].
  { apply fits with 24%Z; [lia |]. rewrite Rabs_pos_eq by apply X. apply Rlt_le, X. }
  rewrite VF, VS in VL. set (L := fdiv (fz F) (fz S) : f64) in *. rewrite <- VL, Eq in XE.
  assert (Lq : IZR q <= val L).
  { rewrite VL. rewrite <- (rnd_z q) by lia. apply rnd_le. rewrite Eq. lra. }
  assert (L1 : val L < IZR q + 1) by lra.
  assert (TL : Btrunc L = q) by (apply trunc_is; [lra | split; assumption]).
  (* the fractional part *)
  destruct (fz_int q ltac:(lia)) as [Fq Vq].
  assert (Y : 0 <= val L - IZR q < bpow radix2 0) by (change (bpow radix2 0) with 1; lra).
  pose proof (rnd_error _ 0 ltac:(lia) Y) as YE. change (bpow radix2 (0 - 54)) with (/ 18014398509481984) in YE. apply Rabs_le_inv in YE.
  destruct (fsub_ok L (fz q) FL Fq) as [Vf Ff]; [rewrite Vq; apply fits with 0%Z; [lia |]; rewrite Rabs_pos_eq by apply Y; apply Rlt_le, Y |].
  rewrite Vq in Vf.
  assert (Efr : fract L = fsub L (fz q)) by (unfold fract; unfold fin in FL; rewrite FL, TL; reflexivity).
  set (f := fsub L (fz q) : f64) in *.
  assert (f0 : 0 <= val f) by (rewrite Vf; rewrite <- (@rnd_0 53 1024); apply rnd_le; apply Y).
  assert (f1 : val f <= IZR p / IZR S + / 1073741824 + / 18014398509481984) by (rewrite <- Vf in YE; lra).
  assert (f2 : val f <= 1).
  { rewrite Vf. replace 1 with (rnd 1) by apply rnd_1. apply rnd_le. change (bpow radix2 0) with 1 in Y. lra. }
  (* tesimals *)
  destruct (fz_int tes ltac:(unfold tes; lia)) as [Ft Vt]. change (IZR tes) with 282240000 in Vt.
  assert (Z1 : 0 <= val f * 282240000 < bpow radix2 29) by (change (bpow radix2 29) with 536870912; lra).
  pose proof (rnd_error _ 29 ltac:(lia) Z1) as ZE. change (bpow radix2 (29 - 54)) with (/ 33554432) in ZE. apply Rabs_le_inv in ZE.
  destruct (fmul_ok f (fz tes) Ff Ft) as [Vx Fx]; [rewrite Vt; apply fits with 29%Z; [lia |]; rewrite Rabs_pos_eq by apply Z1; apply Rlt_le, Z1 |].
  rewrite Vt in Vx. set (x := fmul f (fz tes) : f64) in *.
  assert (x0 : 0 <= val x) by (rewrite Vx; rewrite <- (@rnd_0 53 1024); apply rnd_le; apply Z1).
  assert (KS : IZR k * IZR S = 282240000) by (rewrite <- mult_IZR, <- Hk; reflexivity).
  assert (x1 : val x < IZR (p * k) + 1).
  { rewrite <- Vx in ZE. rewrite mult_IZR. assert (E : IZR p * IZR k = IZR p / IZR S * 282240000) by (rewrite <- KS; field; lra). rewrite E.
    assert (val f * 282240000 <= IZR p / IZR S * 282240000 + / 2) by lra. lra. }
  pose proof (trunc_le x x0) as [_ [t0 [t1 _]]].
  assert (Tx : (Btrunc x <= p * k)%Z).
  { assert (IZR (Btrunc x) < IZR (p * k + 1)) by (rewrite plus_IZR; lra). apply lt_IZR in H. lia. }
  assert (Hkp : (p * k * S <= p * tes)%Z) by (rewrite Hk; nia).
  assert (Hk0 : (0 < k)%Z) by (unfold tes in Hk; nia).
  assert (Hpk : (p * k < tes)%Z) by (rewrite Hk; nia).
  assert (HT : from_secs L = (Z.to_N q, Z.to_N (Btrunc x))).
  { unfold from_secs. rewrite Efr. fold x. rewrite (as_u32_fin L FL), (as_u32_fin x Fx), TL. unfold M32, tes in *. f_equal; f_equal; lia. }
  (* back *)
  set (t := Btrunc x) in *. unfold d. rewrite HT. unfold to_samples. cbn [fst snd]. rewrite !Z2N.id by lia.
  destruct (fz_int t ltac:(unfold tes in *; lia)) as [Ftt Vtt].
  assert (B1 : (Z.abs (q * S) <= 2 ^ 53)%Z) by nia.
  destruct (fmul_ok (fz q) (fz S) Fq FS) as [Va Fa]; [rewrite Vq, VS, <- mult_IZR, rnd_z by exact B1; apply z_top; exact B1 |].
  rewrite Vq, VS, <- mult_IZR, rnd_z in Va by exact B1.
  assert (B2 : (Z.abs (t * S) <= 2 ^ 53)%Z) by (unfold tes in *; nia).
  destruct (fmul_ok (fz t) (fz S) Ftt FS) as [Vb Fb]; [rewrite Vtt, VS, <- mult_IZR, rnd_z by exact B2; apply z_top; exact B2 |].
  rewrite Vtt, VS, <- mult_IZR, rnd_z in Vb by exact B2.
  assert (W : 0 <= IZR (t * S) / 282240000 <= IZR p).
  { split; [apply Rmult_le_pos; [apply IZR_le; nia | lra] |]. apply Rmult_le_reg_r with 282240000; [lra |].
    replace (IZR (t * S) / 282240000 * 282240000) with (IZR (t * S)) by field.
    replace 282240000 with (IZR tes) by reflexivity. rewrite <- mult_IZR. apply IZR_le. nia. }
  assert (W' : 0 <= rnd (IZR (t * S) / 282240000) <= IZR p).
  { split; [rewrite <- (@rnd_0 53 1024) | rewrite <- (rnd_z p) by lia]; apply rnd_le; apply W. }
  destruct (fdiv_ok (fmul (fz t) (fz S)) (fz tes) Fb) as [Vc Fc]; [rewrite Vt; lra | rewrite Vb, Vt |].
  { rewrite Rabs_pos_eq by apply W'. apply Rle_lt_trans with (IZR p); [apply W' |]. eapply Rle_lt_trans; [apply RRle_abs | apply z_top; lia]. }
  rewrite Vb, Vt in Vc.
  assert (U : 0 <= IZR (q * S) + rnd (IZR (t * S) / 282240000) <= IZR F).
  { split; [apply Rplus_le_le_0_compat; [apply IZR_le; nia | apply W'] |]. rewrite HFqp, plus_IZR. apply Rplus_le_compat_l. apply W'. }
  assert (U' : 0 <= rnd (IZR (q * S) + rnd (IZR (t * S) / 282240000)) <= IZR F).
  { split; [rewrite <- (@rnd_0 53 1024) | rewrite <- (rnd_z F) by exact F53]; apply rnd_le; apply U. }
  destruct (fadd_ok (fmul (fz q) (fz S)) (fdiv (fmul (fz t) (fz S)) (fz tes)) Fa Fc) as [Vd Fd].
  { rewrite Va, Vc, Rabs_pos_eq by apply U'. apply Rle_lt_trans with (IZR F); [apply U' |]. eapply Rle_lt_trans; [apply RRle_abs | apply z_top; exact F53]. }
  split; [exact Fd |]. split; [rewrite Vd, Va, Vc; exact U' |]. rewrite Vd, Va, Vc.
  (* not much is lost *)
  assert (f3 : IZR p / IZR S - / 1073741824 - / 18014398509481984 <= val f) by (rewrite <- Vf in YE; lra).
  assert (x2 : IZR (p * k) - / 2 <= val x).
  { rewrite <- Vx in ZE. rewrite mult_IZR. assert (E : IZR p * IZR k = IZR p / IZR S * 282240000) by (rewrite <- KS; field; lra). rewrite E. lra. }
  assert (t2 : (p * k - 1 <= t)%Z).
  { pose proof (trunc_le x x0) as [_ [_ [_ t3]]]. fold t in t3. assert (IZR (p * k - 2) < IZR t) by (rewrite minus_IZR; lra). apply lt_IZR in H. lia. }
  assert (W2 : IZR p - / 16 <= IZR (t * S) / 282240000).
  { apply Rmult_le_reg_r with 282240000; [lra |]. replace (IZR (t * S) / 282240000 * 282240000) with (IZR (t * S)) by field.
    assert (G : (p * tes - S <= t * S)%Z) by (rewrite Hk; nia). apply IZR_le in G. rewrite minus_IZR, mult_IZR in G. change (IZR tes) with 282240000 in G. lra. }
  assert (p24 : IZR p <= 16777215) by (apply IZR_le; lia).
  assert (W3 : 0 <= IZR (t * S) / 282240000 < bpow radix2 24) by (change (bpow radix2 24) with 16777216; lra).
  pose proof (rnd_error _ 24 ltac:(lia) W3) as WE. change (bpow radix2 (24 - 54)) with (/ 1073741824) in WE. apply Rabs_le_inv in WE.
  assert (F48 : (F < 2 ^ 48)%Z) by nia. apply IZR_lt in F48. change (IZR (2 ^ 48)) with (bpow radix2 48) in F48.
  assert (U2 : 0 <= IZR (q * S) + rnd (IZR (t * S) / 282240000) < bpow radix2 48) by (split; [apply U | apply Rle_lt_trans with (1 := proj2 U); exact F48]).
  pose proof (rnd_error _ 48 ltac:(lia) U2) as UE. change (bpow radix2 (48 - 54)) with (/ 64) in UE. apply Rabs_le_inv in UE.
  rewrite HFqp, plus_IZR. lra.
Qed.
Lemma init_ok : forall b F S server rate looping, b_frames b = fz F -> b_sr b = fz S -> (1 <= F)%Z -> (1 <= S <= 2 ^ 24)%Z -> (F < 2 ^ 24 * S)%Z -> (S | tes)%Z ->
  settings_ok b (player_init b server (player_new b rate looping)) /\ pointer_ok b (player_init b server (player_new b rate looping)).
Proof.
  intros b F S server rate looping Ef Es HF HS HL HD. destruct (length_back F S HF HS HL HD) as [Fd [Vd _]].
  assert (F53 : (Z.abs F <= 2 ^ 53)%Z) by nia. destruct (fz_int F F53) as [FF VF]. destruct (fz_int S ltac:(lia)) as [FS VS].
  assert (Z0 : AllpassSpec.silent (to_samples (fz S) (0%N, 0%N))).
  { unfold to_samples. cbn [fst snd]. change (Z.of_N 0) with 0%Z. change (fz 0 : f64) with (fzero : f64).
    assert (M : AllpassSpec.silent (fmul (fzero : f64) (fz S))) by (apply mul_zero_l; [apply silent_zero | exact FS]).
    apply add_silent; [exact M |]. destruct (fz_int tes ltac:(unfold tes; lia)) as [Ft Vt]. change (IZR tes) with 282240000 in Vt.
    destruct M as [MF MV]. destruct (fdiv_ok (fmul (fzero : f64) (fz S)) (fz tes) MF) as [A B]; [rewrite Vt; lra | rewrite MV; unfold Rdiv; rewrite Rmult_0_l, rnd_0, Rabs_R0; apply top_pos |].
    split; [exact B |]. rewrite A, MV. unfold Rdiv. rewrite Rmult_0_l. apply rnd_0. }
  unfold player_init, player_new, length_seconds, settings_ok, pointer_ok, reset. cbn [pl_start pl_dur pl_end pl_fin pl_rp].
  rewrite Ef, Es, from_secs_zero. set (d := to_samples (fz S) (from_secs (fdiv (fz F) (fz S)))) in *.
  destruct (add_zero_l _ d Z0 Fd) as [Fe Ve]. destruct Z0 as [ZF ZV].
  assert (N : fleb (fz F) (to_samples (fz S) (0%N, 0%N)) = false).
  { rewrite fleb_ok by assumption. apply Rle_bool_false. rewrite VF, ZV. apply IZR_lt. lia. }
  split; [split |]; [exact N | | right; exact N]. rewrite fleb_ok by assumption. apply Rle_bool_true. rewrite Ve, VF. apply Vd.
Qed.
