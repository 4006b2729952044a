From Coq Require Import Reals Lra Lia.
From Flocq Require Import Core BinarySingleNaN Relative.
From Verif Require Import Base FloatBase OscModel OscSpec OscProofs WaveModel SinTabModel SinTabSpec.
From Verif Require AllpassProofs BufferProofs PanProofs.
Local Open Scope R_scope.

Section Rounding.
Context {prec emax : Z} {I : ieee prec emax}.
Notation rnd := (@rnd prec emax).
Lemma rnd_error : forall k x, (-100 <= k)%Z -> Rabs x < bpow radix2 k -> (SpecFloat.emin prec emax <= k - prec)%Z -> Rabs (rnd x - x) <= bpow radix2 (k - prec - 1).
Proof.
  intros k x Hk Hx He. destruct (Req_dec x 0) as [-> | H0]; [rewrite rnd_0, Rminus_diag_eq, Rabs_R0 by reflexivity; apply bpow_ge_0 |].
  apply Rle_trans with (/ 2 * ulp radix2 (SpecFloat.fexp prec emax) x); [unfold FloatBase.rnd; apply error_le_half_ulp; exact (FLT_exp_valid (SpecFloat.emin prec emax) prec) |].
  rewrite ulp_neq_0 by exact H0. assert (M : (mag radix2 x <= k)%Z) by (apply mag_le_bpow; [exact H0 | exact Hx]).
  assert (C : (cexp radix2 (SpecFloat.fexp prec emax) x <= k - prec)%Z) by (unfold cexp, SpecFloat.fexp; lia).
  change (/ 2) with (bpow radix2 (-1)). rewrite <- bpow_plus. apply bpow_le. lia.
Qed.
End Rounding.
Lemma err64 : forall k x, (-100 <= k)%Z -> Rabs x < bpow radix2 k -> Rabs (@rnd 53 1024 x - x) <= bpow radix2 (k - 54).
Proof. intros k x Hk Hx. replace (k - 54)%Z with (k - 53 - 1)%Z by lia. apply rnd_error; [exact Hk | exact Hx | unfold SpecFloat.emin; lia]. Qed.
Lemma rel64 : forall x, bpow radix2 (-200) <= Rabs x -> Rabs (@rnd 53 1024 x - x) <= / 9007199254740992 * Rabs x.
Proof.
  intros x Hx. pose proof (relative_error_N_FLT radix2 (SpecFloat.emin 53 1024) 53 ltac:(lia) (fun x => negb (Z.even x)) x) as H.
  assert (B : bpow radix2 (SpecFloat.emin 53 1024 + 53 - 1) <= Rabs x) by (eapply Rle_trans; [apply bpow_le | exact Hx]; vm_compute; discriminate).
  specialize (H B). eapply Rle_trans; [exact H |]. apply Rmult_le_compat_r; [apply Rabs_pos |].
  change (bpow radix2 (- (53) + 1)) with (/ 4503599627370496). lra.
Qed.

(** ** Conversion to f32 *)
Lemma narrow_ok : forall x : f64, fin x -> Rabs (val x) < 2 -> fin (to_f32 x) /\ Rabs (val (to_f32 x) - val x) <= / 16777216.
Proof.
  intros x Fx Vx. pose proof (rnd_error (prec := 24) (emax := 128) 1 (val x) ltac:(lia) Vx ltac:(unfold SpecFloat.emin; lia)) as E.
  change (bpow radix2 (1 - 24 - 1)) with (/ 16777216) in E.
  destruct x as [s | s | | s m e b]; try discriminate Fx.
  - cbn [to_f32]. split; [reflexivity |]. change (val (B754_zero s : f64)) with 0. change (val (B754_zero s : f32)) with 0. rewrite Rminus_0_r, Rabs_R0. lra.
  - cbn [to_f32]. pose proof (binary_normalize_correct 24 128 _ _ mode_NE (cond_Zopp s (Zpos m)) e s) as C. cbv zeta in C.
    change (F2R {| Fnum := cond_Zopp s (Zpos m); Fexp := e |}) with (val (B754_finite s m e b : f64)) in C.
    change (round radix2 (SpecFloat.fexp 24 128) (round_mode mode_NE) (val (B754_finite s m e b : f64))) with (@rnd 24 128 (val (B754_finite s m e b : f64))) in C.
    rewrite Rlt_bool_true in C.
    + destruct C as (C1 & C2 & _). split; [exact C2 |]. unfold val in *. rewrite C1. exact E.
    + apply fits with 1%Z; [lia |]. apply Rlt_le. exact Vx.
Qed.
Lemma narrow_exact : forall x : f64, fin x -> Rabs (val x) < 2 -> @rnd 24 128 (val x) = val x -> fin (to_f32 x) /\ val (to_f32 x) = val x.
Proof.
  intros x Fx Vx R0. destruct x as [s | s | | s m e b]; try discriminate Fx; [split; reflexivity |].
  cbn [to_f32]. pose proof (binary_normalize_correct 24 128 _ _ mode_NE (cond_Zopp s (Zpos m)) e s) as C. cbv zeta in C.
  change (F2R {| Fnum := cond_Zopp s (Zpos m); Fexp := e |}) with (val (B754_finite s m e b : f64)) in C.
  change (round radix2 (SpecFloat.fexp 24 128) (round_mode mode_NE) (val (B754_finite s m e b : f64))) with (@rnd 24 128 (val (B754_finite s m e b : f64))) in C.
  rewrite Rlt_bool_true in C.
  - destruct C as (C1 & C2 & _). split; [exact C2 |]. unfold val in *. rewrite C1. exact R0.
  - apply fits with 1%Z; [lia |]. apply Rlt_le. exact Vx.
Qed.

(** ** The table *)
Lemma pi64_ok : fin pi64 /\ Rabs (val pi64 - PI) <= 1 / 100000000.
Proof.
  assert (B : B2SF pi64 = SpecFloat.S754_finite false 7074237752028440 (-51)) by (vm_compute; reflexivity).
  split; [unfold fin; rewrite <- is_finite_SF_B2SF, B; reflexivity |].
  assert (V : val pi64 = 7074237752028440 / 2251799813685248) by (unfold val; rewrite <- SF2R_B2SF, B; reflexivity).
  rewrite V. pose proof PanProofs.pi_bounds. apply Rabs_le. lra.
Qed.
Definition angle (i : nat) : R := 2 * PI * (INR i / 16384).
Lemma share_ok : forall i, (i < points)%nat -> fin (fdiv (fz (Z.of_nat i)) (fz (Z.of_N table_size)) : f64) /\ val (fdiv (fz (Z.of_nat i)) (fz (Z.of_N table_size)) : f64) = INR i / 16384 /\ 0 <= INR i / 16384 < 1.
Proof.
  intros i H. assert (Hi : (Z.of_nat i < 16384)%Z) by (change points with (N.to_nat 16384) in H; lia).
  destruct (fz_small (prec := 53) (emax := 1024) (Z.of_nat i)) as [V F]; [lia |].
  destruct (fz_small (prec := 53) (emax := 1024) (Z.of_N table_size)) as [V2 F2]; [unfold table_size; lia |].
  change (IZR (Z.of_N table_size)) with 16384 in V2. rewrite <- INR_IZR_INZ in V.
  assert (B : 0 <= INR i / 16384 < 1).
  { assert (INR i < 16384) by (rewrite INR_IZR_INZ; apply IZR_lt; exact Hi). pose proof (pos_INR i). lra. }
  assert (E : @rnd 53 1024 (INR i / 16384) = INR i / 16384).
  { apply rnd_format. apply (generic_format_FLT radix2 (SpecFloat.emin 53 1024) 53).
    exists (Float radix2 (Z.of_nat i) (-14)); [unfold F2R; cbn [Fnum Fexp]; rewrite <- INR_IZR_INZ; change (bpow radix2 (-14)) with (/ 16384); reflexivity | cbn [Fnum]; change (Zpower radix2 53) with 9007199254740992%Z; lia | vm_compute; discriminate]. }
  assert (N0 : val (fz (Z.of_N table_size) : f64) <> 0) by (rewrite V2; lra).
  destruct (fdiv_ok (fz (Z.of_nat i)) (fz (Z.of_N table_size)) F N0) as [A C].
  { rewrite V, V2. apply fits with 0%Z; [lia |]. change (bpow radix2 0) with 1. rewrite Rabs_pos_eq; lra. }
  rewrite V, V2, E in A. split; [exact C |]. split; [exact A | exact B].
Qed.
Lemma angle_ok : forall i, (i < points)%nat -> fin (table_angle i) /\ 0 <= val (table_angle i) <= 7 /\ Rabs (val (table_angle i) - angle i) <= 3 / 100000000.
Proof.
  intros i H. destruct (share_ok i H) as (F1 & V1 & B1). destruct pi64_ok as [F2 E2]. pose proof PanProofs.pi_bounds as Pb. apply Rabs_le_inv in E2.
  set (x := INR i / 16384) in *. unfold table_angle. set (u := fdiv (fz (Z.of_nat i)) (fz (Z.of_N table_size)) : f64) in *.
  assert (P1 : 0 <= x * val pi64 <= 3.2) by (split; [apply Rmult_le_pos; lra | apply Rle_trans with (1 * val pi64); [apply Rmult_le_compat_r; lra | lra]]).
  assert (T1 : Rabs (val u * val pi64) < bpow radix2 2) by (rewrite V1; change (bpow radix2 2) with 4; rewrite Rabs_pos_eq; lra).
  destruct (fmul_ok u pi64 F1 F2) as [A C]; [apply fits with 2%Z; [lia | apply Rlt_le; exact T1] |].
  pose proof (err64 2 _ ltac:(lia) T1) as R1. rewrite <- A in R1. rewrite V1 in R1. change (bpow radix2 (2 - 54)) with (/ 4503599627370496) in R1. apply Rabs_le_inv in R1.
  set (v := fmul u pi64) in *. assert (V0 : 0 <= val v).
  { rewrite A, V1. rewrite <- (@rnd_0 53 1024). apply rnd_le. lra. }
  destruct (fz_small (prec := 53) (emax := 1024) 2) as [V3 F3]; [lia |].
  assert (T2 : Rabs (val v * val (fz 2 : f64)) < bpow radix2 3) by (rewrite V3; change (bpow radix2 3) with 8; rewrite Rabs_pos_eq; lra).
  destruct (fmul_ok v (fz 2) C F3) as [A2 C2]; [apply fits with 3%Z; [lia | apply Rlt_le; exact T2] |].
  pose proof (err64 3 _ ltac:(lia) T2) as R2. rewrite <- A2 in R2. rewrite V3 in R2. change (bpow radix2 (3 - 54)) with (/ 2251799813685248) in R2. apply Rabs_le_inv in R2.
  split; [exact C2 |]. split.
  - split; [| lra]. rewrite A2, V3. rewrite <- (@rnd_0 53 1024). apply rnd_le. lra.
  - unfold angle. fold x. assert (D : Rabs (x * val pi64 - PI * x) <= 1 / 100000000) by (replace (x * val pi64 - PI * x) with (x * (val pi64 - PI)) by ring; rewrite Rabs_mult, (Rabs_pos_eq x) by lra; apply Rle_trans with (1 * Rabs (val pi64 - PI)); [apply Rmult_le_compat_r; [apply Rabs_pos | lra] | rewrite Rmult_1_l; apply Rabs_le; lra]). apply Rabs_le_inv in D. apply Rabs_le. lra.
Qed.
Lemma table_point : forall f g e i, library e g f -> e <= 1 / 4 -> (forall x, -1 <= g x <= 1) -> (forall a b, Rabs (g a - g b) <= Rabs (a - b)) -> (i < points)%nat ->
  exists y, nth_error (trig_table f) i = Some y /\ fin y /\ Rabs (val y - g (angle i)) <= e + / 8388608.
Proof.
  intros f g e i L He G1 G2 H. destruct (angle_ok i H) as (F & B & D). destruct (L _ F B) as [Ff E].
  assert (V : Rabs (val (f (table_angle i))) < 2) by (specialize (G1 (val (table_angle i))); apply Rabs_le_inv in E; apply Rabs_def1; lra).
  destruct (narrow_ok _ Ff V) as [Fy Ey]. exists (to_f32 (f (table_angle i))). split; [| split; [exact Fy |]].
  - unfold trig_table. rewrite nth_error_map, nth_error_nth' with (d := 0%nat) by (rewrite seq_length; exact H). rewrite seq_nth by exact H. reflexivity.
  - specialize (G2 (val (table_angle i)) (angle i)). apply Rabs_le_inv in E, Ey. assert (G3 := Rle_trans _ _ _ G2 D). apply Rabs_le_inv in G3. apply Rabs_le. lra.
Qed.

(** ** The phase step *)
Lemma step_ok : forall f sr : f64, sample_rate sr -> fin f -> 0 <= val f <= val sr -> Rabs (IZR (Z.of_N (as_u32 (fmul f (wt_mult sr)))) - 1073741824 * (val f / val sr)) <= 1 + / 1048576.
Proof.
  intros f sr (z & Hz & Fs & Vs) Ff Vf. assert (Z1 : 1 <= IZR z <= 4294967296) by (split; apply IZR_le; lia).
  assert (I1 : / 4294967296 <= / IZR z <= 1) by (split; [apply Rinv_le; lra | rewrite <- Rinv_1; apply Rinv_le; lra]).
  unfold wt_mult. assert (V1 : val (fone : f64) = 1) by apply val_fone.
  destruct (fdiv_ok (fone : f64) sr fin_fone ltac:(lra)) as [A C].
  { rewrite V1. apply fits with 0%Z; [lia |]. unfold Rdiv. rewrite Rmult_1_l, Vs. change (bpow radix2 0) with 1. rewrite Rabs_pos_eq; lra. }
  rewrite V1, Vs in A. unfold Rdiv in A. rewrite Rmult_1_l in A. set (w := / IZR z) in *. set (u := fdiv fone sr : f64) in *.
  pose proof (rel64 w) as R1. rewrite (Rabs_pos_eq w) in R1 by lra. specialize (R1 ltac:(apply Rle_trans with (bpow radix2 (-32)); [apply bpow_le; lia | change (bpow radix2 (-32)) with (/ 4294967296); lra])). rewrite <- A in R1. apply Rabs_le_inv in R1.
  assert (B : B2SF (fmul (fz (Z.of_N table_size)) (fz fractional_part) : f64) = SpecFloat.S754_finite false 4503599627370496 (-22)) by (vm_compute; reflexivity).
  set (t := fmul (fz (Z.of_N table_size)) (fz fractional_part) : f64) in *.
  assert (Ft : fin t) by (unfold fin; rewrite <- is_finite_SF_B2SF, B; reflexivity).
  assert (Vt : val t = 1073741824) by (unfold val; rewrite <- SF2R_B2SF, B; change (IZR 4503599627370496 * / IZR 4194304 = 1073741824); lra).
  assert (U : / 8589934592 <= val u <= 2) by lra.
  destruct (fmul_ok t u Ft C) as [A2 C2]; [apply fits with 31%Z; [lia |]; rewrite Vt; change (bpow radix2 31) with 2147483648; rewrite Rabs_pos_eq; lra |].
  rewrite Vt in A2. set (m := fmul t u) in *.
  pose proof (rel64 (1073741824 * val u)) as R2. rewrite (Rabs_pos_eq (1073741824 * val u)) in R2 by lra.
  specialize (R2 ltac:(apply Rle_trans with (bpow radix2 (-32)); [apply bpow_le; lia | change (bpow radix2 (-32)) with (/ 4294967296); lra])). rewrite <- A2 in R2. apply Rabs_le_inv in R2.
  assert (Q : 0 <= val f * w <= 1).
  { split; [apply Rmult_le_pos; lra |]. apply Rle_trans with (val sr * w); [apply Rmult_le_compat_r; lra |]. rewrite Vs. unfold w. rewrite Rinv_r; lra. }
  assert (M : Rabs (val m - 1073741824 * w) <= / 4000000 * w) by (apply Rabs_le; lra).
  assert (K : Rabs (val f * val m - 1073741824 * (val f * w)) <= / 4000000).
  { replace (val f * val m - 1073741824 * (val f * w)) with (val f * (val m - 1073741824 * w)) by ring. rewrite Rabs_mult, (Rabs_pos_eq (val f)) by lra.
    apply Rle_trans with (val f * (/ 4000000 * w)); [apply Rmult_le_compat_l; [lra | exact M] |]. lra. }
  apply Rabs_le_inv in K. assert (Vm : 0 <= val m) by (apply Rabs_le_inv in M; lra).
  assert (P : 0 <= val f * val m) by (apply Rmult_le_pos; lra).
  assert (T : Rabs (val f * val m) < bpow radix2 31) by (change (bpow radix2 31) with 2147483648; rewrite Rabs_pos_eq; lra).
  destruct (fmul_ok f m Ff C2) as [A3 C3]; [apply fits with 31%Z; [lia | apply Rlt_le; exact T] |].
  pose proof (err64 31 _ ltac:(lia) T) as R3. rewrite <- A3 in R3. change (bpow radix2 (31 - 54)) with (/ 8388608) in R3. apply Rabs_le_inv in R3.
  assert (P3 : 0 <= val (fmul f m)) by (rewrite A3, <- (@rnd_0 53 1024); apply rnd_le; exact P).
  destruct (AllpassProofs.trunc_le (fmul f m) P3) as (_ & T0 & T1).
  rewrite BufferProofs.as_u32_fin by exact C3. set (b := Btrunc (fmul f m)) in *.
  assert (B32 : (b < 4294967295)%Z) by (apply lt_IZR; lra).
  rewrite Z.min_l by (unfold M32; lia). rewrite Z2N.id by exact T0. unfold Rdiv. rewrite Vs. fold w. apply Rabs_le. lra.
Qed.

(** ** Entries *)
Lemma entry_angle : forall p, Rabs (sin (angle (N.to_nat (entry p))) - sin (2 * PI * (IZR (Z.of_N p) / 1073741824))) <= 2 * PI * / 16384.
Proof.
  intros p. set (q := (p / 65536 / 16384)%N). set (r := (p mod 65536)%N).
  assert (E : p = (1073741824 * q + 65536 * entry p + r)%N).
  { unfold q, r, entry. pose proof (N.div_mod p 65536 ltac:(lia)). pose proof (N.div_mod (p / 65536) 16384 ltac:(lia)). lia. }
  assert (Hr : (r < 65536)%N) by (apply N.mod_upper_bound; lia).
  assert (ER : IZR (Z.of_N p) = 1073741824 * IZR (Z.of_N q) + 65536 * IZR (Z.of_N (entry p)) + IZR (Z.of_N r)).
  { rewrite <- !mult_IZR, <- !plus_IZR. f_equal. lia. }
  assert (BR : 0 <= IZR (Z.of_N r) <= 65536) by (split; apply IZR_le; lia).
  assert (EI : INR (N.to_nat (entry p)) = IZR (Z.of_N (entry p))) by (rewrite INR_IZR_INZ; f_equal; lia).
  unfold angle. rewrite EI. set (a := IZR (Z.of_N (entry p))) in *.
  replace (2 * PI * (IZR (Z.of_N p) / 1073741824)) with (2 * PI * (a / 16384 + IZR (Z.of_N r) / 1073741824) + 2 * INR (N.to_nat q) * PI).
  2: { rewrite ER, INR_IZR_INZ, N_nat_Z. field. }
  rewrite sin_period. eapply Rle_trans; [apply PanProofs.sin_cos_slow |].
  replace (2 * PI * (a / 16384) - 2 * PI * (a / 16384 + IZR (Z.of_N r) / 1073741824)) with (- (2 * PI * (IZR (Z.of_N r) / 1073741824))) by ring.
  pose proof PI_RGT_0. rewrite Rabs_Ropp, Rabs_pos_eq by (apply Rmult_le_pos; lra). apply Rmult_le_compat_l; lra.
Qed.
Lemma turns_near : forall a b d, Rabs (a - b) <= d -> Rabs (sin (2 * PI * a) - sin (2 * PI * b)) <= 2 * PI * d.
Proof.
  intros a b d H. pose proof PI_RGT_0. eapply Rle_trans; [apply PanProofs.sin_cos_slow |]. replace (2 * PI * a - 2 * PI * b) with (2 * PI * (a - b)) by ring.
  rewrite Rabs_mult, (Rabs_pos_eq (2 * PI)) by lra. apply Rmult_le_compat_l; lra.
Qed.

(** ** Histories *)
Definition drift : R := (1 + / 1048576) / 1073741824.
Lemma exact_near : forall sr, sample_rate sr -> forall ops x per t n, Forall (plain (val sr)) ops -> x_offset x = 0%N ->
  Rabs (IZR (Z.of_N (x_inc x)) / 1073741824 - per) <= drift -> Rabs (IZR (Z.of_N (x_total x)) / 1073741824 - t) <= INR n * drift ->
  length (exact_run (wt_mult sr) x ops) = length (sine_wanted (val sr) per 0 t ops) /\
  forall k p w, nth_error (exact_run (wt_mult sr) x ops) k = Some p -> nth_error (sine_wanted (val sr) per 0 t ops) k = Some w ->
    Rabs (sin (2 * PI * (IZR (Z.of_N p) / 1073741824)) - w) <= 2 * PI * (INR (n + k) * drift).
Proof.
  intros sr Hs. assert (D0 : 0 < drift) by (unfold drift; lra). induction ops as [| o ops IH]; intros x per t n Ho X Di Dt; [split; [reflexivity | intros [| k]; discriminate] |].
  inversion Ho as [| o0 l0 H1 H2]; subst. destruct o as [f | f | |]; cbn [exact_run exact_step sine_wanted fst snd app plain] in *.
  - apply (IH (mk_exact _ _ _)); [exact H2 | exact X | | exact Dt]. cbn [x_inc]. pose proof (step_ok f sr Hs (proj1 H1) (proj2 H1)) as S1. unfold drift.
    replace (IZR (Z.of_N (as_u32 (fmul f (wt_mult sr)))) / 1073741824 - val f / val sr) with ((IZR (Z.of_N (as_u32 (fmul f (wt_mult sr)))) - 1073741824 * (val f / val sr)) / 1073741824) by (field; destruct Hs as (z & Hz & _ & ->); apply not_0_IZR; lia).
    unfold Rdiv at 1. rewrite Rabs_mult, (Rabs_pos_eq (/ 1073741824)) by lra. apply Rmult_le_compat_r; [lra | exact S1].
  - contradiction.
  - destruct (IH (mk_exact 0 (x_offset x) (x_inc x)) per 0 0%nat H2 X Di) as [L K].
    { cbn [x_total INR]. change (IZR (Z.of_N 0)) with 0. unfold Rdiv. rewrite !Rmult_0_l, Rminus_0_r, Rabs_R0. lra. }
    split; [exact L |]. intros k p w E1 E2. eapply Rle_trans; [apply (K k p w E1 E2) |]. pose proof PI_RGT_0. apply Rmult_le_compat_l; [lra |].
    apply Rmult_le_compat_r; [lra |]. apply le_INR. lia.
  - destruct (IH (mk_exact (x_total x + x_inc x) (x_offset x) (x_inc x)) per (t + per) (S n) H2 X Di) as [L K].
    { cbn [x_total]. rewrite N2Z.inj_add, plus_IZR, S_INR. apply Rabs_le_inv in Di, Dt. apply Rabs_le. lra. }
    cbn [length]. split; [f_equal; exact L |]. intros [| k] p w E1 E2; cbn [nth_error] in E1, E2.
    + injection E1 as <-. injection E2 as <-. rewrite X, N.add_0_r, Rplus_0_r. apply turns_near. rewrite Nat.add_0_r. exact Dt.
    + replace (n + S k)%nat with (S n + k)%nat by lia. apply (K k p w E1 E2).
Qed.
Lemma get_point : forall V (t : list V) p, table_get t p = nth_error t (N.to_nat (entry p)).
Proof. intros V t p. unfold table_get. rewrite integer_ok. reflexivity. Qed.
Lemma play_entries : forall lib freq sr ops, sinwt_play lib (sinwt_init freq sr) ops =
  map (fun p => nth_error (trig_table lib) (N.to_nat (entry p))) (exact_run (wt_mult sr) (mk_exact 0 0 (as_u32 (fmul freq (wt_mult sr)))) ops).
Proof.
  intros lib freq sr ops. unfold sinwt_play.
  assert (E : map integer_component (wt_run (sinwt_init freq sr) ops) = map entry (exact_run (wt_mult sr) (mk_exact 0 0 (as_u32 (fmul freq (wt_mult sr)))) ops)).
  { apply (wt_follows ops (sinwt_init freq sr)). split; [reflexivity |]. split; reflexivity. }
  apply (f_equal (map (fun i => nth_error (trig_table lib) (N.to_nat i)))) in E. rewrite !map_map in E. exact E.
Qed.
Lemma entry_in : forall p, (N.to_nat (entry p) < points)%nat.
Proof. intros p. pose proof (entry_bound p). change points with (N.to_nat 16384). lia. Qed.
Lemma play_near : forall lib e freq sr ops, library e sin lib -> e <= 1 / 4 -> sample_rate sr -> plain (val sr) (WFreq freq) -> Forall (plain (val sr)) ops ->
  let out := sinwt_play lib (sinwt_init freq sr) ops in let w := sine_wanted (val sr) (val freq / val sr) 0 0 ops in
  length out = length w /\ forall k o x, nth_error out k = Some o -> nth_error w k = Some x ->
    exists y, o = Some y /\ fin y /\ Rabs (val y - x) <= 2 * PI * turn_error k + e + / 8388608.
Proof.
  intros lib e freq sr ops L He Hs Hf Ho. cbv zeta. rewrite play_entries.
  destruct (exact_near sr Hs ops (mk_exact 0 0 (as_u32 (fmul freq (wt_mult sr)))) (val freq / val sr) 0 0%nat Ho eq_refl) as [Len K].
  - cbn [x_inc]. pose proof (step_ok freq sr Hs (proj1 Hf) (proj2 Hf)) as S1. unfold drift.
    replace (IZR (Z.of_N (as_u32 (fmul freq (wt_mult sr)))) / 1073741824 - val freq / val sr) with ((IZR (Z.of_N (as_u32 (fmul freq (wt_mult sr)))) - 1073741824 * (val freq / val sr)) / 1073741824) by (field; destruct Hs as (z & Hz & _ & ->); apply not_0_IZR; lia).
    unfold Rdiv at 1. rewrite Rabs_mult, (Rabs_pos_eq (/ 1073741824)) by lra. apply Rmult_le_compat_r; [lra | exact S1].
  - cbn [x_total INR]. change (IZR (Z.of_N 0)) with 0. unfold Rdiv. rewrite !Rmult_0_l, Rminus_0_r, Rabs_R0. lra.
  - split; [rewrite map_length; exact Len |]. intros k o x E1 E2. rewrite nth_error_map in E1.
    destruct (nth_error (exact_run _ _ ops) k) as [p |] eqn:E3; [| discriminate]. cbn [option_map] in E1. injection E1 as <-.
    destruct (table_point lib sin e (N.to_nat (entry p)) L He SIN_bound (fun a b => proj1 (PanProofs.sin_cos_slow a b)) (entry_in p)) as (y & Ey & Fy & By).
    exists y. split; [exact Ey |]. split; [exact Fy |]. specialize (K k p x E3 E2). cbn [Nat.add] in K. pose proof (entry_angle p) as Q.
    unfold turn_error. unfold drift in K. apply Rabs_le_inv in By, K, Q. apply Rabs_le. lra.
Qed.
(** An oscillator whose phase step is zero *)
Lemma still : forall lib freq sr n, as_u32 (fmul freq (wt_mult sr)) = 0%N -> nth_error (sinwt_play lib (sinwt_init freq sr) (repeat WSample (S n))) n = Some (nth_error (trig_table lib) 0).
Proof.
  intros lib freq sr n H. rewrite play_entries, H. rewrite nth_error_map.
  assert (G : forall m k, (k < m)%nat -> nth_error (exact_run (wt_mult sr) (mk_exact 0 0 0) (repeat WSample m)) k = Some 0%N).
  { induction m as [| m IH]; intros [| k] Hk; try lia; cbn [repeat exact_run exact_step fst snd app nth_error x_total x_offset x_inc]; [reflexivity |]. apply IH. lia. }
  rewrite G by lia. reflexivity.
Qed.
Lemma wanted_samples : forall rate per n k t, (k < n)%nat -> nth_error (sine_wanted rate per 0 t (repeat WSample n)) k = Some (sin (2 * PI * (t + INR k * per))).
Proof.
  intros rate per. induction n as [| n IH]; intros [| k] t Hk; try lia; cbn [repeat sine_wanted nth_error].
  - cbn [INR]. do 2 f_equal. ring.
  - rewrite IH by lia. rewrite S_INR. do 2 f_equal. ring.
Qed.
Lemma first_point : forall lib e, library e sin lib -> e <= 1 / 4 -> exists y, nth_error (trig_table lib) 0 = Some y /\ fin y /\ Rabs (val y) <= 1 / 2.
Proof.
  intros lib e L He. destruct (table_point lib sin e 0 L He SIN_bound (fun a b => proj1 (PanProofs.sin_cos_slow a b))) as (y & E & F & B).
  { change points with (N.to_nat 16384). lia. }
  exists y. split; [exact E |]. split; [exact F |]. unfold angle in B. cbn [INR] in B. replace (2 * PI * (0 / 16384)) with 0 in B by lra. rewrite sin_0, Rminus_0_r in B. lra.
Qed.
(** ** The sawtooth *)
Lemma saw_format : forall prec emax (I : ieee prec emax) i, (24 <= prec)%Z -> (Z.of_nat i < 16384)%Z -> @rnd prec emax (-1 + INR i / 8192) = -1 + INR i / 8192.
Proof.
  intros prec emax I i Hp Hi. apply rnd_format. apply (generic_format_FLT radix2 (SpecFloat.emin prec emax) prec).
  exists (Float radix2 (Z.of_nat i - 8192) (-13)).
  - unfold F2R. cbn [Fnum Fexp]. rewrite minus_IZR, <- INR_IZR_INZ. change (bpow radix2 (-13)) with (/ 8192). lra.
  - cbn [Fnum]. apply Z.lt_le_trans with (radix2 ^ 24)%Z; [change (radix2 ^ 24)%Z with 16777216%Z; lia | apply Zpower_le; exact Hp].
  - cbn [Fexp]. destruct I. unfold SpecFloat.emin. lia.
Qed.
Lemma saw_ok : forall i, (i < points)%nat -> fin (saw_point i) /\ val (saw_point i) = -1 + INR i / 8192 /\ -1 <= -1 + INR i / 8192 < 1.
Proof.
  intros i H. assert (Hi : (Z.of_nat i < 16384)%Z) by (change points with (N.to_nat 16384) in H; lia).
  destruct (fz_small (prec := 53) (emax := 1024) (Z.of_nat i)) as [V F]; [lia |]. rewrite <- INR_IZR_INZ in V.
  assert (Bi : 0 <= INR i < 16384) by (split; [apply pos_INR | rewrite INR_IZR_INZ; apply IZR_lt; exact Hi]).
  assert (B : B2SF (fdiv (fz 2) (fz (Z.of_N table_size)) : f64) = SpecFloat.S754_finite false 4503599627370496 (-65)) by (vm_compute; reflexivity).
  unfold saw_point. set (d := fdiv (fz 2) (fz (Z.of_N table_size)) : f64) in *.
  assert (Fd : fin d) by (unfold fin; rewrite <- is_finite_SF_B2SF, B; reflexivity).
  assert (Vd : val d = / 8192) by (unfold val; rewrite <- SF2R_B2SF, B; change (IZR 4503599627370496 * / IZR 36893488147419103232 = / 8192); lra).
  assert (E : @rnd 53 1024 (/ 8192 * INR i) = / 8192 * INR i).
  { apply rnd_format. apply (generic_format_FLT radix2 (SpecFloat.emin 53 1024) 53).
    exists (Float radix2 (Z.of_nat i) (-13)); [unfold F2R; cbn [Fnum Fexp]; rewrite <- INR_IZR_INZ; change (bpow radix2 (-13)) with (/ 8192); lra | cbn [Fnum]; change (Zpower radix2 53) with 9007199254740992%Z; lia | vm_compute; discriminate]. }
  destruct (fmul_ok d (fz (Z.of_nat i)) Fd F) as [A C].
  { rewrite V, Vd. apply fits with 1%Z; [lia |]. change (bpow radix2 1) with 2. rewrite Rabs_pos_eq; lra. }
  rewrite V, Vd, E in A. set (m := fmul d (fz (Z.of_nat i))) in *.
  assert (V1 : val (fneg fone : f64) = -1) by (rewrite val_fneg, val_fone; lra).
  assert (F1 : fin (fneg fone : f64)) by reflexivity.
  destruct (fadd_ok (fneg fone : f64) m F1 C) as [A2 C2].
  { rewrite V1, A. apply fits with 0%Z; [lia |]. change (bpow radix2 0) with 1. apply Rabs_le. lra. }
  split; [exact C2 |]. split; [| lra]. rewrite A2, V1, A. replace (-1 + / 8192 * INR i) with (-1 + INR i / 8192) by lra. apply (saw_format 53 1024 ieee_f64); [lia | exact Hi].
Qed.
(** The nearest multiple of 2^-24: a function that meets [library] *)
Definition near64 (g : R -> R) (a : f64) : f64 := fze (ZnearestE (g (val a) * 16777216)) (-24).
Lemma near64_all : forall g, (forall x, -1 <= g x <= 1) -> forall a, fin (near64 g a) /\ Rabs (val (near64 g a) - g (val a)) <= / 33554432.
Proof.
  intros g Hg a. unfold near64. set (m := ZnearestE (g (val a) * 16777216)). specialize (Hg (val a)).
  pose proof (Znearest_half (fun x => negb (Z.even x)) (g (val a) * 16777216)) as H. fold m in H. apply Rabs_le_inv in H.
  assert (M : (- 16777216 <= m <= 16777216)%Z).
  { assert (A1 : IZR m < IZR 16777217) by lra. assert (A2 : IZR (-16777217) < IZR m) by lra. apply lt_IZR in A1. apply lt_IZR in A2. lia. }
  assert (MR : -16777216 <= IZR m <= 16777216) by (split; apply IZR_le; lia).
  assert (B : @rnd 53 1024 (IZR m * bpow radix2 (-24)) = IZR m * bpow radix2 (-24)).
  { apply rnd_format. apply (generic_format_FLT radix2 (SpecFloat.emin 53 1024) 53).
    exists (Float radix2 m (-24)); [reflexivity | cbn [Fnum]; change (Zpower radix2 53) with 9007199254740992%Z; lia | vm_compute; discriminate]. }
  change (bpow radix2 (-24)) with (/ 16777216) in B.
  destruct (fze_ok (prec := 53) (emax := 1024) m (-24)) as [V F0].
  { change (bpow radix2 (-24)) with (/ 16777216). rewrite B. apply below_top with 0%Z; [lia |]. change (bpow radix2 0) with 1. apply Rabs_le. lra. }
  change (bpow radix2 (-24)) with (/ 16777216) in V. split; [exact F0 |]. rewrite V, B. apply Rabs_le. lra.
Qed.
Lemma near64_ok : forall g, (forall x, -1 <= g x <= 1) -> library (/ 33554432) g (near64 g).
Proof. intros g Hg a _ _. apply near64_all. exact Hg. Qed.
