From Coq Require Import Reals Lra.
From Flocq Require Import Core BinarySingleNaN.
From Verif Require Import Base FloatBase FloatMore AllpassSpec AllpassProofs NoiseSpec NoiseProofs OscModel BufferModel BufferSpec BufferProofs EnvJumpProofs PlayModel PlaySpec.
Local Open Scope R_scope.

(** * The position *)
Lemma fract_exact : forall (x : f64) z, fin x -> 0 <= val x -> (z = Zfloor (val x))%Z -> (z <= 2 ^ 53)%Z ->
  Btrunc x = z /\ fin (fract x) /\ val (fract x) = val x - IZR z.
Proof.
  intros x z Fx Px Ez Hz. assert (z0 : (0 <= z)%Z) by (rewrite Ez; apply Zfloor_lub; exact Px).
  pose proof (Zfloor_lb (val x)) as L. pose proof (Zfloor_ub (val x)) as U. rewrite <- Ez in L, U.
  assert (T : Btrunc x = z) by (apply trunc_is; [exact Px | split; assumption]).
  destruct (fz_int z ltac:(lia)) as [Fz Vz].
  assert (E : rnd (val x - IZR z) = val x - IZR z).
  { assert (G : FLT_format radix2 (SpecFloat.emin 53 1024) 53 (val x)) by (apply FLT_format_generic; [reflexivity | exact (generic_format_B2R 53 1024 x)]).
    destruct G as [[M e] V MB EB]. cbn [Fnum Fexp] in MB, EB. unfold F2R in V. cbn [Fnum Fexp] in V. set (v := val x) in *.
    destruct (Z_lt_le_dec e 0) as [Ne | Pe].
    + (* a fraction with the same exponent *)
      assert (W : v - IZR z = IZR (M - z * 2 ^ (- e)) * bpow radix2 e).
      { change (2 ^ (- e))%Z with (radix2 ^ (- e))%Z. rewrite minus_IZR, mult_IZR, (IZR_Zpower radix2 (- e)) by lia. rewrite Rmult_minus_distr_r, Rmult_assoc, <- bpow_plus.
        replace (- e + e)%Z with 0%Z by lia. change (bpow radix2 0) with 1. rewrite <- V. ring. }
      rewrite W. apply rnd_format. apply (generic_format_FLT radix2 (SpecFloat.emin 53 1024) 53).
      exists (Float radix2 (M - z * 2 ^ (- e)) e); [reflexivity | | exact EB]. cbn [Fnum].
      assert (P : 0 < bpow radix2 e) by apply bpow_gt_0.
      assert (Q0 : 0 <= IZR (M - z * 2 ^ (- e))) by (apply Rmult_le_reg_r with (bpow radix2 e); [exact P |]; rewrite <- W; lra).
      apply le_IZR in Q0. assert (Q1 : (M - z * 2 ^ (- e) <= M)%Z) by (assert (0 <= z * 2 ^ (- e))%Z by (apply Z.mul_nonneg_nonneg; [exact z0 | apply Z.pow_nonneg; lia]); lia). lia.
    + (* a whole number *)
      assert (W : v = IZR (M * 2 ^ e)) by (change (2 ^ e)%Z with (radix2 ^ e)%Z; rewrite mult_IZR, (IZR_Zpower radix2 e) by exact Pe; exact V).
      assert (z = M * 2 ^ e)%Z by (rewrite Ez; rewrite W; apply Zfloor_IZR). rewrite W, H. unfold Rminus. rewrite Rplus_opp_r. apply rnd_0. }
  split; [exact T |].
  assert (Ef : fract x = fsub x (fz z)) by (unfold fract; unfold fin in Fx; rewrite Fx, T; reflexivity). rewrite Ef.
  destruct (fsub_ok x (fz z) Fx Fz) as [A B]; [rewrite Vz, E; apply below_top with 0%Z; [lia |]; change (bpow radix2 0) with 1; rewrite Rabs_pos_eq by lra; lra |].
  split; [exact B |]. rewrite A, Vz. exact E.
Qed.
Lemma as_usize_floor : forall x : f64, fin x -> 0 <= val x < bpow radix2 53 -> as_usize x = Z.to_N (Zfloor (val x)).
Proof.
  intros x Fx [P L]. change (bpow radix2 53) with (IZR (2 ^ 53)) in L.
  assert (z53 : (Zfloor (val x) < 2 ^ 53)%Z) by (apply lt_IZR; eapply Rle_lt_trans; [apply Zfloor_lb | exact L]).
  destruct (fract_exact x _ Fx P eq_refl ltac:(lia)) as [T _].
  destruct x as [s | s | | s m e B]; try discriminate Fx; unfold as_usize; rewrite T; f_equal; lia.
Qed.
(** * A value *)
Section Interp.
Context {prec emax : Z} {I : ieee prec emax}.
Local Notation fl := (binary_float prec emax).
Local Notation rnd := (@FloatBase.rnd prec emax).
Local Notation eps := (@eps prec).
Lemma from_f64_ok : forall x : f64, fin x -> Rabs (rnd (val x)) < @top emax -> fin (from_f64 x : fl) /\ val (from_f64 x : fl) = rnd (val x).
Proof.
  intros x Fx Vx. destruct x as [s | s | | s m e b]; try discriminate Fx.
  - cbn [from_f64]. split; [reflexivity |]. change (val (B754_zero s : f64)) with 0. change (val (B754_zero s : fl)) with 0. rewrite rnd_0. reflexivity.
  - cbn [from_f64]. pose proof (binary_normalize_correct prec emax _ _ mode_NE (cond_Zopp s (Zpos m)) e s) as C. cbv zeta in C.
    change (F2R {| Fnum := cond_Zopp s (Zpos m); Fexp := e |}) with (val (B754_finite s m e b : f64)) in C.
    change (round radix2 (SpecFloat.fexp prec emax) (round_mode mode_NE) (val (B754_finite s m e b : f64))) with (rnd (val (B754_finite s m e b : f64))) in C.
    rewrite Rlt_bool_true in C by exact Vx. destruct C as (C1 & C2 & _). split; [exact C2 |]. exact C1.
Qed.
Lemma le1_fits : forall x, Rabs x <= 1 -> Rabs (rnd x) < @top emax.
Proof. intros x H. apply fits with 0%Z; [pose proof (ieee_emax (prec := prec) (emax := emax)); lia | exact H]. Qed.
Lemma abs_unit_error : forall x, Rabs x <= 1 -> Rabs (rnd x - x) <= eps.
Proof.
  intros x H. destruct (Rle_dec 0 x) as [P | P].
  - rewrite Rabs_pos_eq in H by exact P. apply unit_error'. lra.
  - replace (rnd x - x) with (- (rnd (- x) - (- x))) by (rewrite rnd_opp; ring). rewrite Rabs_Ropp. apply unit_error'. rewrite Rabs_left in H by lra. lra.
Qed.
(** Just above 1, rounding goes down to 1 *)
Lemma rnd_near_one : forall x, Rabs x <= 1 + eps -> Rabs (rnd x) <= 1 /\ Rabs (rnd x - x) <= eps.
Proof.
  assert (G : forall x, 0 <= x <= 1 + eps -> 0 <= rnd x <= 1 /\ Rabs (rnd x - x) <= eps).
  { intros x [P H]. destruct (Rle_dec x 1) as [L | L].
    - split; [apply rnd_between; [apply rnd_0 | apply rnd_1 | lra] | apply unit_error'; lra].
    - assert (E : rnd x = 1).
      { apply Rle_antisym.
        - unfold FloatBase.rnd. apply round_N_le_midp with (u := 1); [exact (FLT_exp_valid _ _) | change 1 with (bpow radix2 0); apply bpow_format; lia |].
          rewrite succ_eq_pos by lra. replace (ulp radix2 (SpecFloat.fexp prec emax) 1) with (bpow radix2 (SpecFloat.fexp prec emax (0 + 1))) by (change 1 with (bpow radix2 0); rewrite ulp_bpow; reflexivity).
          assert (K : (SpecFloat.fexp prec emax (0 + 1) = 1 - prec)%Z) by (unfold SpecFloat.fexp, SpecFloat.emin; pose proof (ieee_prec (prec := prec) (emax := emax)); pose proof (ieee_emax (prec := prec) (emax := emax)); lia).
          rewrite K. assert (Q : bpow radix2 (1 - prec) = 4 * eps).
          { unfold FloatMore.eps. change 4 with (bpow radix2 2). rewrite <- bpow_plus. f_equal. lia. }
          rewrite Q. pose proof (eps_pos (prec := prec)). lra.
        - rewrite <- (rnd_1 (prec := prec) (emax := emax)). apply rnd_le. lra. }
      rewrite E. split; [lra |]. rewrite Rabs_left1 by lra. lra. }
  intros x H. destruct (Rle_dec 0 x) as [P | P].
  - rewrite Rabs_pos_eq in H by exact P. destruct (G x (conj P H)) as [A B]. split; [| exact B]. rewrite Rabs_pos_eq; apply A.
  - rewrite Rabs_left in H by lra. destruct (G (- x)) as [A B]; [lra |]. rewrite rnd_opp in A, B. split.
    + rewrite <- Rabs_Ropp. rewrite Rabs_pos_eq; apply A.
    + replace (rnd x - x) with (- (- rnd x - (- x))) by ring. rewrite Rabs_Ropp. exact B.
Qed.
Lemma scaled_le : forall u w : fl, Rabs (val u) <= 1 -> 0 <= val w -> Rabs (rnd (val u * val w)) <= val w.
Proof.
  intros u w U W. rewrite <- rnd_abs. rewrite <- (rnd_val w) at 2. apply rnd_le. rewrite Rabs_mult, (Rabs_pos_eq (val w)) by exact W.
  rewrite <- (Rmult_1_l (val w)) at 2. apply Rmult_le_compat_r; assumption.
Qed.
(** Interpolation between two samples in -1..1 *)
Lemma mix_near : forall (u v : fl) (x : f64) f, fin u -> fin v -> Rabs (val u) <= 1 -> Rabs (val v) <= 1 -> fin x -> val x = f -> 0 <= f < 1 ->
  let z := fadd (fmul u (fsub fone (from_f64 x))) (fmul v (from_f64 x)) in fin z /\ Rabs (val z) <= 1 /\ Rabs (val z - ((1 - f) * val u + f * val v)) <= 6 * eps.
Proof.
  intros u v x f Fu Fv Bu Bv Fx Ef Hf z. pose proof (eps_pos (prec := prec)) as E0.
  destruct (from_f64_ok x Fx) as [Fm Vm]; [rewrite Ef; apply le1_fits; rewrite Rabs_pos_eq; lra |]. rewrite Ef in Vm. set (m := from_f64 x : fl) in *.
  assert (M1 : 0 <= val m <= 1) by (rewrite Vm; apply rnd_between; [apply rnd_0 | apply rnd_1 | lra]).
  assert (M2 : Rabs (val m - f) <= eps) by (rewrite Vm; apply unit_error'; lra).
  destruct (fsub_ok fone m fin_fone Fm) as [Vw Fw]; [rewrite val_fone; apply le1_fits; rewrite Rabs_pos_eq; lra |]. rewrite val_fone in Vw. set (w := fsub fone m : fl) in *.
  assert (W1 : 0 <= val w <= 1) by (rewrite Vw; apply rnd_between; [apply rnd_0 | apply rnd_1 | lra]).
  assert (W2 : Rabs (val w - (1 - val m)) <= eps) by (rewrite Vw; apply unit_error'; lra).
  assert (P1 : Rabs (val u * val w) <= 1) by (rewrite Rabs_mult, (Rabs_pos_eq (val w)) by apply W1; rewrite <- (Rmult_1_l 1); apply Rmult_le_compat; [apply Rabs_pos | apply W1 | exact Bu | apply W1]).
  assert (P2 : Rabs (val v * val m) <= 1) by (rewrite Rabs_mult, (Rabs_pos_eq (val m)) by apply M1; rewrite <- (Rmult_1_l 1); apply Rmult_le_compat; [apply Rabs_pos | apply M1 | exact Bv | apply M1]).
  destruct (fmul_ok u w Fu Fw (le1_fits _ P1)) as [Vp Fp]. destruct (fmul_ok v m Fv Fm (le1_fits _ P2)) as [Vq Fq].
  pose proof (scaled_le u w Bu (proj1 W1)) as Sp. rewrite <- Vp in Sp. pose proof (scaled_le v m Bv (proj1 M1)) as Sq. rewrite <- Vq in Sq.
  pose proof (abs_unit_error _ P1) as Ep. rewrite <- Vp in Ep. pose proof (abs_unit_error _ P2) as Eq. rewrite <- Vq in Eq.
  set (p := fmul u w : fl) in *. set (q := fmul v m : fl) in *.
  assert (Sm : Rabs (val p + val q) <= 1 + eps).
  { eapply Rle_trans; [apply Rabs_triang |]. apply abs_le in W2. lra. }
  destruct (rnd_near_one _ Sm) as [R1 R2].
  destruct (fadd_ok p q Fp Fq) as [Vz Fz].
  { apply below_top with 0%Z; [pose proof (ieee_emax (prec := prec) (emax := emax)); lia | exact R1]. }
  fold z in Vz, Fz. split; [exact Fz |]. rewrite Vz. split; [exact R1 |].
  replace (rnd (val p + val q) - ((1 - f) * val u + f * val v)) with
    ((rnd (val p + val q) - (val p + val q)) + ((val p - val u * val w) + ((val q - val v * val m) + (val u * (val w - (1 - val m)) + ((val v - val u) * (val m - f)))))) by ring.
  assert (T1 : Rabs (val u * (val w - (1 - val m))) <= eps).
  { rewrite Rabs_mult. rewrite <- (Rmult_1_l eps). apply Rmult_le_compat; try apply Rabs_pos; assumption. }
  assert (T2 : Rabs ((val v - val u) * (val m - f)) <= 2 * eps).
  { rewrite Rabs_mult. apply Rmult_le_compat; try apply Rabs_pos; try assumption. unfold Rminus. eapply Rle_trans; [apply Rabs_triang |]. rewrite Rabs_Ropp. lra. }
  eapply Rle_trans; [apply Rabs_triang |]. eapply Rle_trans; [apply Rplus_le_compat_l, Rabs_triang |].
  eapply Rle_trans; [apply Rplus_le_compat_l, Rplus_le_compat_l, Rabs_triang |]. eapply Rle_trans; [apply Rplus_le_compat_l, Rplus_le_compat_l, Rplus_le_compat_l, Rabs_triang |].
  lra.
Qed.
(** The samples between which a position is *)
Section Memory.
Variables (b : buffer) (mem : list fl) (ch n : nat).
Hypothesis Hch : b_ch b = N.of_nat ch.
Hypothesis Hlen : b_len b = N.of_nat (n * ch).
Hypothesis Hmem : length mem = (n * ch)%nat.
Hypothesis ch0 : (0 < ch)%nat.
Hypothesis n0 : (0 < n)%nat.
Hypothesis n53 : (Z.of_nat n <= 2 ^ 53)%Z.
Lemma stored_in : forall c k, (c < ch)%nat -> (k < n)%nat -> nth_error mem (k * ch + c) = Some (stored mem ch c k).
Proof using Hmem.
  intros c k Hc Hk. unfold stored. apply nth_error_nth'. rewrite Hmem. clear - Hc Hk. nia.
Qed.
Lemma INR_53 : INR n <= bpow radix2 53.
Proof using n53. rewrite INR_IZR_INZ. change (bpow radix2 53) with (IZR (2 ^ 53)). apply IZR_le. exact n53. Qed.
Lemma floor_small : forall x, 0 <= x < INR n -> (0 <= Zfloor x)%Z /\ (Z.to_nat (Zfloor x) < n)%nat.
Proof.
  intros x [P H]. assert (A : (0 <= Zfloor x)%Z) by (apply Zfloor_lub; exact P). split; [exact A |].
  assert (B : IZR (Zfloor x) < IZR (Z.of_nat n)) by (rewrite <- INR_IZR_INZ; eapply Rle_lt_trans; [apply Zfloor_lb | exact H]). apply lt_IZR in B. clear - A B. lia.
Qed.
Lemma interp_reads : forall x c, fin x -> 0 <= val x < INR n -> (c < ch)%nat ->
  let k := Z.to_nat (Zfloor (val x)) in
  interp b mem x (N.of_nat c) = Some (fadd (fmul (stored mem ch c k) (fsub fone (from_f64 (fract x)))) (fmul (stored mem ch c ((k + 1) mod n)) (from_f64 (fract x)))).
Proof using Hch Hlen Hmem ch0 n0 n53.
  intros x c Fx Hx Hc k. destruct (floor_small _ Hx) as [Z0 K]. fold k in K. pose proof INR_53 as I53.
  unfold interp. rewrite as_usize_floor; [| exact Fx | lra]. rewrite Hch, Hlen.
  assert (E : (Z.to_N (Zfloor (val x)) * N.of_nat ch + N.of_nat c = N.of_nat (k * ch + c))%N) by (unfold k; lia).
  rewrite E. rewrite Nat2N.id, stored_in by assumption.
  assert (E2 : ((N.of_nat (k * ch + c) + N.of_nat ch) mod N.of_nat (n * ch) = N.of_nat (((k + 1) mod n) * ch + c))%N).
  { replace (N.of_nat (k * ch + c) + N.of_nat ch)%N with (N.of_nat ((k + 1) * ch + c)) by lia.
    destruct (Nat.eq_dec (k + 1) n) as [Q | Q].
    - rewrite Q, Nat.mod_same by lia. cbn [Nat.mul]. rewrite Nat.add_0_l.
      replace (N.of_nat (n * ch + c)) with (N.of_nat c + 1 * N.of_nat (n * ch))%N by lia. rewrite N.mod_add by (clear - ch0 n0; nia). apply N.mod_small.
      clear - Hc n0. nia.
    - rewrite Nat.mod_small by lia. apply N.mod_small. assert (k + 2 <= n)%nat by lia. clear - Hc H. nia. }
  rewrite E2, Nat2N.id, stored_in; [reflexivity | exact Hc | apply Nat.mod_upper_bound; lia].
Qed.
Lemma stored_all : forall (P : fl -> Prop) c k, Forall P mem -> (c < ch)%nat -> (k < n)%nat -> P (stored mem ch c k).
Proof using Hmem.
  intros P c k H Hc Hk. rewrite Forall_forall in H. apply H. eapply nth_error_In. apply stored_in; assumption.
Qed.
Lemma fract_of : forall x, fin x -> 0 <= val x < INR n -> fin (fract x) /\ val (fract x) = val x - IZR (Zfloor (val x)).
Proof using n53.
  intros x Fx Hx. pose proof INR_53 as I53. destruct (fract_exact x _ Fx (proj1 Hx) eq_refl) as [_ A]; [| exact A].
  apply le_IZR. eapply Rle_trans; [apply Zfloor_lb |]. change (IZR (2 ^ 53)) with (bpow radix2 53). lra.
Qed.
Lemma interp_line : forall x c, full_scale mem -> fin x -> 0 <= val x < INR n -> (c < ch)%nat -> near (6 * eps) (interp b mem x (N.of_nat c)) (line mem ch c n (val x)).
Proof using Hch Hlen Hmem ch0 n0 n53.
  intros x c Hf Fx Hx Hc. rewrite (interp_reads x c Fx Hx Hc). cbv zeta. destruct (floor_small _ Hx) as [Z0 K]. destruct (fract_of x Fx Hx) as [Ff Vf].
  pose proof (Zfloor_lb (val x)) as L. pose proof (Zfloor_ub (val x)) as U. set (k := Z.to_nat (Zfloor (val x))) in *.
  destruct (stored_all _ c k Hf Hc K) as [F1 B1]. destruct (stored_all _ c ((k + 1) mod n) Hf Hc) as [F2 B2]; [apply Nat.mod_upper_bound; lia |].
  pose proof (mix_near (stored mem ch c k) (stored mem ch c ((k + 1) mod n)) (fract x) _ F1 F2 B1 B2 Ff Vf) as M. destruct M as (M1 & M2 & M3); [lra |].
  eexists. split; [reflexivity |]. split; [exact M1 |]. split; [exact M2 |]. exact M3.
Qed.
(** At a whole position: the sample itself *)
Lemma interp_whole : forall x c k, all_fin mem -> fin x -> val x = INR k -> (k < n)%nat -> (c < ch)%nat -> shows (interp b mem x (N.of_nat c)) (val (stored mem ch c k)).
Proof using Hch Hlen Hmem ch0 n0 n53.
  intros x c k Hf Fx Vx Hk Hc. assert (Hx : 0 <= val x < INR n) by (rewrite Vx; split; [apply pos_INR | apply lt_INR; exact Hk]).
  rewrite (interp_reads x c Fx Hx Hc). cbv zeta. destruct (fract_of x Fx Hx) as [Ff Vf].
  rewrite Vx in *. rewrite INR_IZR_INZ, Zfloor_IZR in *. rewrite Nat2Z.id. unfold Rminus in Vf. rewrite Rplus_opp_r in Vf.
  pose proof (stored_all _ c k Hf Hc Hk) as F1. assert (F2 : fin (stored mem ch c ((k + 1) mod n))) by (apply (stored_all _ c _ Hf Hc); apply Nat.mod_upper_bound; lia).
  set (u := stored mem ch c k) in *. set (v := stored mem ch c ((k + 1) mod n)) in *.
  assert (M : AllpassSpec.silent (from_f64 (fract x) : fl)).
  { destruct (from_f64_ok (fract x) Ff) as [A B]; [rewrite Vf, rnd_0, Rabs_R0; apply top_pos |]. split; [exact A |]. rewrite B, Vf. apply rnd_0. }
  set (m := from_f64 (fract x) : fl) in *. destruct M as [Fm Vm].
  destruct (fsub_ok fone m fin_fone Fm) as [Vw Fw]; [rewrite val_fone, Vm, Rminus_0_r; apply le1_fits; rewrite Rabs_R1; lra |].
  rewrite val_fone, Vm, Rminus_0_r, rnd_1 in Vw.
  destruct (fmul_ok u (fsub fone m) F1 Fw) as [Vp Fp]; [rewrite Vw, Rmult_1_r, rnd_val; apply val_top |]. rewrite Vw, Rmult_1_r, rnd_val in Vp.
  assert (Q : AllpassSpec.silent (fmul v m)).
  { destruct (fmul_ok v m F2 Fm) as [A B]; [rewrite Vm, Rmult_0_r, rnd_0, Rabs_R0; apply top_pos |]. split; [exact B |]. rewrite A, Vm, Rmult_0_r. apply rnd_0. }
  destruct Q as [Fq Vq]. destruct (fadd_ok (fmul u (fsub fone m)) (fmul v m) Fp Fq) as [A B]; [rewrite Vp, Vq, Rplus_0_r, rnd_val; apply val_top |].
  eexists. split; [reflexivity |]. split; [exact B |]. rewrite A, Vp, Vq, Rplus_0_r. apply rnd_val.
Qed.
End Memory.
End Interp.

(** * Blocks *)
Section Frames.
Context {prec emax : Z} {I : ieee prec emax}.
Local Notation fl := (binary_float prec emax).
Local Notation rnd := (@FloatBase.rnd 53 1024).
Local Notation eps := (@eps prec).
Variables (b : buffer) (mem : list fl) (channels : nat).
Lemma fin_frames : forall ds s, pl_fin s = true ->
  play_frames b mem channels ds s = (s, repeat (repeat (Some fzero) channels) (length ds), map (fun _ => None) ds).
Proof.
  induction ds as [| d ds IH]; intros s H; [reflexivity |]. cbn [play_frames length map repeat]. unfold play_frame. rewrite H. cbn [fst snd]. rewrite IH by exact H. reflexivity.
Qed.
Lemma map_const : forall A B (x : B) (l : list A), map (fun _ => x) l = repeat x (length l).
Proof. induction l as [| a l IH]; cbn [map repeat length]; [reflexivity | rewrite IH; reflexivity]. Qed.
Lemma block_frames : forall n i s, play_block b mem channels (N.of_nat i) n s = play_frames b mem channels (map N.of_nat (seq (S i) n)) s.
Proof.
  induction n as [| n IH]; intros i s; [reflexivity |]. cbn [play_block]. destruct (pl_fin s) eqn:E.
  - rewrite fin_frames by exact E. rewrite map_const, map_length, seq_length. reflexivity.
  - cbn [seq map play_frames]. replace (N.of_nat i + 1)%N with (N.of_nat (S i)) by lia. rewrite IH. reflexivity.
Qed.
Lemma frames_app : forall ds es s, let r := play_frames b mem channels ds s in let q := play_frames b mem channels es (fst (fst r)) in
  play_frames b mem channels (ds ++ es) s = (fst (fst q), snd (fst r) ++ snd (fst q), snd r ++ snd q).
Proof.
  induction ds as [| d ds IH]; intros es s; cbn [play_frames app fst snd].
  - destruct (play_frames b mem channels es s) as [[x y] z]. reflexivity.
  - rewrite IH. reflexivity.
Qed.
Lemma blocks_frames : forall sizes s, play_blocks b mem channels sizes s = play_frames b mem channels (ends_of sizes) s.
Proof.
  induction sizes as [| n sizes IH]; intros s; [reflexivity |]. unfold ends_of. cbn [play_blocks map concat]. rewrite frames_app. rewrite IH.
  change 0%N with (N.of_nat 0). rewrite block_frames. reflexivity.
Qed.
Lemma out_zero : forall k m c, (c < channels)%nat -> (k < m)%nat -> shows (out_at (repeat (repeat (Some (fzero : fl)) channels) m) k c) 0.
Proof.
  intros k m c Hc Hk. unfold out_at. rewrite (nth_indep _ [] (repeat (Some fzero) channels)) by (rewrite repeat_length; exact Hk). rewrite nth_repeat.
  exists fzero. split; [| split; reflexivity]. rewrite (nth_indep _ None (Some fzero)) by (rewrite repeat_length; exact Hc). apply nth_repeat.
Qed.
Lemma out_first : forall d ds s c, pl_fin s = false -> (c < channels)%nat -> out_at (snd (fst (play_frames b mem channels (d :: ds) s))) 0 c = interp b mem (pl_rp s) (N.of_nat c).
Proof.
  intros d ds s c E Hc. cbn [play_frames]. unfold play_frame. rewrite E. cbn [fst snd out_at nth]. unfold out_at. cbn [nth].
  rewrite (nth_indep _ None (interp b mem (pl_rp s) (N.of_nat 0))) by (rewrite map_length, seq_length; exact Hc).
  rewrite (map_nth (fun c => interp b mem (pl_rp s) (N.of_nat c))). rewrite seq_nth by exact Hc. reflexivity.
Qed.
Lemma frames_next : forall d ds s, pl_fin s = false -> let s' := fst (player_step b channels s) in
  snd (fst (play_frames b mem channels (d :: ds) s)) = map (fun c => interp b mem (pl_rp s) (N.of_nat c)) (seq 0 channels) :: snd (fst (play_frames b mem channels ds s')) /\
  snd (play_frames b mem channels (d :: ds) s) = (if pl_fin s' then Some d else None) :: snd (play_frames b mem channels ds s').
Proof. intros d ds s E s'. cbn [play_frames]. unfold play_frame. rewrite E. cbn [fst snd]. split; reflexivity. Qed.

Variables (ch n : nat).
Hypothesis Hch : b_ch b = N.of_nat ch.
Hypothesis Hlen : b_len b = N.of_nat (n * ch).
Hypothesis Hmem : length mem = (n * ch)%nat.
Hypothesis n0 : (0 < n)%nat.
Hypothesis n53 : (Z.of_nat n <= 2 ^ 53)%Z.
Hypothesis Hc : (channels <= ch)%nat.
(** A frame is [n] frames long up to a quarter of a frame, playback started at 0 *)
Definition ranged (s : player) : Prop := fin (pl_end s) /\ INR n - / 4 <= val (pl_end s) <= INR n /\ AllpassSpec.silent (pl_start s).
Definition step_of (s : player) : f64 := fmul (pl_base s) (pl_rate s).

(** ** At the own rate of the buffer *)
Definition own (s : player) (k : nat) : Prop :=
  pl_fin s = false /\ fin (pl_rp s) /\ val (pl_rp s) = INR k /\ fin (step_of s) /\ val (step_of s) = 1 /\ ranged s.
Lemma INR_le53 : forall k, (k <= n)%nat -> rnd (INR k) = INR k /\ Rabs (INR k) < @top 1024.
Proof.
  intros k H. rewrite INR_IZR_INZ. split; [apply rnd_z | apply z_top]; lia.
Qed.
Lemma own_next : forall s k, own s k -> (k < n)%nat -> let s' := fst (player_step b channels s) in pl_loop s' = pl_loop s /\
  (if Nat.ltb (S k) n then own s' (S k) else if pl_loop s then own s' 0 else pl_fin s' = true).
Proof.
  intros s k (E & F & V & FS & VS & (FE & VE & Z)) Hk. destruct (INR_le53 (S k) ltac:(lia)) as [R T].
  destruct (fadd_ok (pl_rp s) (step_of s) F FS) as [Va Fa]; [rewrite V, VS, <- S_INR, R; exact T |]. rewrite V, VS, <- S_INR, R in Va.
  unfold player_step. rewrite E. cbv zeta. cbn [pl_end pl_rp pl_loop pl_start pl_dur pl_rate pl_base pl_fin]. fold (step_of s).
  rewrite fleb_ok by assumption. rewrite Va. destruct (Nat.ltb_spec (S k) n) as [L | L].
  - rewrite Rle_bool_false by (apply Rlt_le_trans with (2 := proj1 VE); apply le_INR in L; rewrite (S_INR (S k)) in L; lra). cbn [fst pl_loop]. split; [reflexivity |].
    split; [reflexivity |]. split; [exact Fa |]. split; [exact Va |]. split; [exact FS |]. split; [exact VS |]. split; [exact FE |]. split; assumption.
  - rewrite Rle_bool_true by (apply Rle_trans with (1 := proj2 VE); apply le_INR; exact L). cbn [fst]. destruct (pl_loop s) eqn:Lp; cbn [pl_loop reset pl_fin]; split; try reflexivity; try exact Lp.
    destruct Z as [ZF ZV].
    split; [reflexivity |]. split; [exact ZF |]. split; [exact ZV |]. split; [exact FS |]. split; [exact VS |]. split; [exact FE |]. split; [exact VE | split; assumption].
Qed.
Lemma own_frames : forall ds s k, all_fin mem -> own s k -> (k < n)%nat ->
  (forall i c, (i < length ds)%nat -> (c < channels)%nat -> shows (out_at (snd (fst (play_frames b mem channels ds s))) i c)
    (if pl_loop s then val (stored mem ch c ((k + i) mod n)) else if Nat.ltb (k + i) n then val (stored mem ch c (k + i)) else 0)) /\
  snd (play_frames b mem channels ds s) = if pl_loop s then map (fun _ => None) ds else reports (n - 1 - k) ds.
Proof.
  induction ds as [| d ds IH]; intros s k Hf O Hk.
  - split; [intros i c H; cbn [length] in H; lia |]. cbn [play_frames snd map reports]. destruct (pl_loop s); reflexivity.
  - pose proof O as (E & F & V & _). destruct (own_next s k O Hk) as [Lp Nx]. destruct (frames_next d ds s E) as [N1 N2]. set (s' := fst (player_step b channels s)) in *.
    assert (First : forall c, (c < channels)%nat -> shows (interp b mem (pl_rp s) (N.of_nat c)) (val (stored mem ch c k))).
    { intros c H. apply interp_whole with n; try assumption; lia. }
    assert (Z : forall c, (c < channels)%nat -> out_at (snd (fst (play_frames b mem channels (d :: ds) s))) 0 c = interp b mem (pl_rp s) (N.of_nat c)) by (intros c H; apply out_first; assumption).
    assert (S1 : forall i c, out_at (snd (fst (play_frames b mem channels (d :: ds) s))) (S i) c = out_at (snd (fst (play_frames b mem channels ds s'))) i c) by (intros i c; rewrite N1; reflexivity).
    rewrite N2. destruct (Nat.ltb_spec (S k) n) as [L | L].
    + destruct (IH s' (S k) Hf Nx L) as [A B]. pose proof Nx as (E' & _). split.
      * intros [| i] c Hi H.
        -- rewrite (Z c H), Nat.add_0_r. rewrite Nat.mod_small by exact Hk. replace (k <? n)%nat with true by (symmetry; apply Nat.ltb_lt; exact Hk). destruct (pl_loop s); apply First; exact H.
        -- rewrite S1. cbn [length] in Hi. specialize (A i c ltac:(lia) H). rewrite Lp in A. replace (k + S i)%nat with (S k + i)%nat by lia. exact A.
      * rewrite E', B, Lp. cbn [map reports]. destruct (pl_loop s); [reflexivity |]. replace (n - 1 - k)%nat with (S (n - 1 - S k)) by lia. reflexivity.
    + assert (Kn : k = (n - 1)%nat) by lia. destruct (pl_loop s) eqn:Lo.
      * destruct (IH s' 0%nat Hf Nx n0) as [A B]. pose proof Nx as (E' & _). rewrite Lp in A, B. split.
        -- intros [| i] c Hi H.
           ++ rewrite (Z c H), Nat.add_0_r. rewrite Nat.mod_small by exact Hk. apply First; exact H.
           ++ rewrite S1. cbn [length] in Hi. specialize (A i c ltac:(lia) H). replace (k + S i)%nat with (i + 1 * n)%nat by lia. rewrite Nat.mod_add by lia. exact A.
        -- rewrite E', B. reflexivity.
      * rewrite (fin_frames ds s' Nx) in *. cbn [fst snd] in *. split.
        -- intros [| i] c Hi H.
           ++ rewrite (Z c H), Nat.add_0_r. replace (k <? n)%nat with true by (symmetry; apply Nat.ltb_lt; exact Hk). apply First; exact H.
           ++ rewrite S1. replace (k + S i <? n)%nat with false by (symmetry; apply Nat.ltb_ge; lia). cbn [length] in Hi. apply out_zero; [exact H | lia].
        -- rewrite Nx. replace (n - 1 - k)%nat with 0%nat by lia. reflexivity.
Qed.

(** ** At any rate *)
Variables (k : Z) (sigma : R).
Hypothesis k_ok : (0 <= k <= 1000)%Z.
Hypothesis Hk : INR n + sigma < bpow radix2 k.
Let e := bpow radix2 (k - 54).
Hypothesis sigma_ok : e < sigma.
(** After [j] frames *)
Definition at_frame (s : player) (j : nat) : Prop :=
  pl_fin s = false /\ pl_loop s = false /\ fin (pl_rp s) /\ 0 <= val (pl_rp s) < INR n /\ Rabs (val (pl_rp s) - INR j * sigma) <= INR j * e /\
  fin (step_of s) /\ val (step_of s) = sigma /\ ranged s.
Lemma e_pos : 0 < e. Proof. apply bpow_gt_0. Qed.
Lemma frame_next : forall s j, at_frame s j -> let s' := fst (player_step b channels s) in
  (at_frame s' (S j) \/ (pl_fin s' = true /\ INR n - / 4 <= INR (S j) * (sigma + e))).
Proof.
  intros s j (E & Lo & F & V & D & FS & VS & (FE & VE & Z)). pose proof e_pos as E0.
  assert (Sm : 0 <= val (pl_rp s) + sigma < bpow radix2 k) by lra.
  pose proof (rnd_error _ k ltac:(lia) Sm) as Er. fold e in Er.
  assert (Bd : Rabs (rnd (val (pl_rp s) + val (step_of s))) < @top 1024).
  { rewrite VS. apply fits with k; [lia |]. rewrite Rabs_pos_eq; lra. }
  destruct (fadd_ok (pl_rp s) (step_of s) F FS Bd) as [Va Fa]. rewrite VS in Va.
  assert (D' : Rabs (val (fadd (pl_rp s) (step_of s)) - INR (S j) * sigma) <= INR (S j) * e).
  { rewrite Va, S_INR. replace (rnd (val (pl_rp s) + sigma) - (INR j + 1) * sigma) with ((rnd (val (pl_rp s) + sigma) - (val (pl_rp s) + sigma)) + (val (pl_rp s) - INR j * sigma)) by ring.
    eapply Rle_trans; [apply Rabs_triang |]. lra. }
  assert (P' : 0 <= val (fadd (pl_rp s) (step_of s))) by (rewrite Va; rewrite <- (@rnd_0 53 1024); apply rnd_le; apply Sm).
  unfold player_step. rewrite E. cbv zeta. cbn [pl_end pl_rp pl_loop pl_start pl_dur pl_rate pl_base pl_fin]. fold (step_of s).
  rewrite fleb_ok by assumption. destruct (Rle_bool_spec (val (pl_end s)) (val (fadd (pl_rp s) (step_of s)))) as [L | L]; cbn [fst].
  - right. rewrite Lo. split; [reflexivity |]. apply abs_le in D'. lra.
  - left. split; [reflexivity |]. split; [exact Lo |]. split; [exact Fa |]. split; [cbn [pl_rp]; lra |]. split; [exact D' |]. split; [exact FS |]. split; [exact VS |]. split; [exact FE | split; assumption].
Qed.
Definition plays (s : player) (j K : nat) : Prop := (j < K)%nat /\ (INR K - 1) * (sigma - e) < INR n /\ INR n - / 4 <= INR K * (sigma + e) /\
  forall ds, let r := play_frames b mem channels ds s in
  (forall i, (i < length ds)%nat ->
     if Nat.ltb (j + i) K then exists pos, Rabs (pos - INR (j + i) * sigma) <= INR (j + i) * e /\ 0 <= pos < INR n /\
       forall c, (c < channels)%nat -> near (6 * eps) (out_at (snd (fst r)) i c) (line mem ch c n pos)
     else forall c, (c < channels)%nat -> shows (out_at (snd (fst r)) i c) 0) /\
  snd r = reports (K - 1 - j) ds.
Lemma frame_bound : forall s j, at_frame s j -> INR j * (sigma - e) < INR n.
Proof. intros s j (_ & _ & _ & V & D & _). apply abs_le in D. lra. Qed.
Lemma plays_in : full_scale mem -> forall M s j, at_frame s j -> (exists K, plays s j K) \/ (exists s', at_frame s' (j + M)).
Proof.
  intros Hf. induction M as [| M IH]; intros s j A; [right; exists s; rewrite Nat.add_0_r; exact A |].
  pose proof A as (E & Lo & F & V & D & _). pose proof (frame_bound s j A) as Bd.
  assert (First : forall c, (c < channels)%nat -> near (6 * eps) (interp b mem (pl_rp s) (N.of_nat c)) (line mem ch c n (val (pl_rp s)))).
  { intros c H. apply interp_line; try assumption; lia. }
  destruct (frame_next s j A) as [A' | [Fi Lw]].
  - destruct (IH _ _ A') as [(K & K1 & K2 & K3 & KP) | [s2 S2]]; [| right; exists s2; replace (j + S M)%nat with (S j + M)%nat by lia; exact S2].
    left. exists K. split; [lia |]. split; [exact K2 |]. split; [exact K3 |]. intros [| d ds].
    + split; [intros i H; cbn [length] in H; lia | reflexivity].
    + destruct (frames_next d ds s E) as [N1 N2]. destruct (KP ds) as [P1 P2]. cbv zeta. split.
      * intros [| i] Hi.
        -- rewrite Nat.add_0_r. replace (j <? K)%nat with true by (symmetry; apply Nat.ltb_lt; lia).
           exists (val (pl_rp s)). split; [exact D |]. split; [exact V |]. intros c H. rewrite out_first by assumption. apply First. exact H.
        -- cbn [length] in Hi. specialize (P1 i ltac:(lia)). replace (j + S i)%nat with (S j + i)%nat by lia. rewrite N1. exact P1.
      * rewrite N2, P2. pose proof A' as (E' & _). rewrite E'. replace (K - 1 - j)%nat with (S (K - 1 - S j)) by lia. reflexivity.
  - left. exists (S j). split; [lia |]. split; [rewrite S_INR; replace (INR j + 1 - 1) with (INR j) by ring; exact Bd |]. split; [exact Lw |]. intros [| d ds].
    + split; [intros i H; cbn [length] in H; lia | reflexivity].
    + destruct (frames_next d ds s E) as [N1 N2]. rewrite (fin_frames ds _ Fi) in N1, N2. cbn [fst snd] in N1, N2. cbv zeta. split.
      * intros [| i] Hi.
        -- rewrite Nat.add_0_r. replace (j <? S j)%nat with true by (symmetry; apply Nat.ltb_lt; lia).
           exists (val (pl_rp s)). split; [exact D |]. split; [exact V |]. intros c H. rewrite out_first by assumption. apply First. exact H.
        -- replace (j + S i <? S j)%nat with false by (symmetry; apply Nat.ltb_ge; lia). intros c H. rewrite N1. cbn [length] in Hi.
           change (shows (out_at (repeat (repeat (Some (fzero : fl)) channels) (length ds)) i c) 0). apply out_zero; [exact H | lia].
      * rewrite N2, Fi. replace (S j - 1 - j)%nat with 0%nat by lia. reflexivity.
Qed.
Lemma plays_all : full_scale mem -> forall s, at_frame s 0 -> exists K, plays s 0 K.
Proof.
  intros Hf s A. destruct (archimed (INR n / (sigma - e))) as [Ar _].
  assert (Q : 0 < sigma - e) by lra. assert (P : 0 < INR n / (sigma - e)) by (apply Rmult_lt_0_compat; [apply lt_0_INR; exact n0 | apply Rinv_0_lt_compat; exact Q]).
  set (M := Z.to_nat (up (INR n / (sigma - e)))).
  assert (EM : INR M = IZR (up (INR n / (sigma - e)))).
  { unfold M. rewrite INR_IZR_INZ, Z2Nat.id; [reflexivity |]. apply le_IZR. lra. }
  destruct (plays_in Hf M s 0 A) as [R | [s' A']]; [exact R |]. exfalso. apply frame_bound in A'. rewrite Nat.add_0_l in A'.
  assert (INR n < INR M * (sigma - e)); [| lra]. rewrite EM. apply Rmult_lt_reg_r with (/ (sigma - e)); [apply Rinv_0_lt_compat; exact Q |].
  rewrite Rmult_assoc, Rinv_r, Rmult_1_r by lra. exact Ar.
Qed.
End Frames.

(** * A new player *)
Section Start.
Variables (b : buffer) (n ch : nat) (sr : N).
Hypothesis Hb : from_vec_interleaved (N.of_nat (n * ch)) (N.of_nat ch) (fz (Z.of_N sr)) = Some b.
Hypothesis n0 : (0 < n)%nat.
Hypothesis sr_ok : (1 <= sr <= 2 ^ 24)%N.
Hypothesis n_ok : (N.of_nat n < 2 ^ 24 * sr)%N.
Hypothesis sr_tes : (Z.of_N sr | 282240000)%Z.
Lemma buffer_facts : (0 < ch)%nat /\ b_ch b = N.of_nat ch /\ b_len b = N.of_nat (n * ch) /\ b_frames b = fz (Z.of_nat n) /\ b_sr b = fz (Z.of_N sr) /\ (Z.of_nat n <= 2 ^ 53)%Z.
Proof using Hb sr_ok n_ok.
  clear sr_tes n0. unfold from_vec_interleaved in Hb. destruct (N.eqb_spec (N.of_nat ch) 0) as [| C0]; [discriminate Hb |]. injection Hb as <-. cbn [b_ch b_len b_frames b_sr].
  split; [lia |]. split; [reflexivity |]. split; [reflexivity |]. split; [| split; [reflexivity | nia]].
  f_equal. replace (N.of_nat (n * ch)) with (N.of_nat n * N.of_nat ch)%N by lia. rewrite N.div_mul by exact C0. lia.
Qed.
Lemma start_facts : forall server rate looping, let s := player_init b server (player_new b rate looping) in
  pl_fin s = false /\ pl_loop s = looping /\ AllpassSpec.silent (pl_rp s) /\ pl_base s = fdiv (fz (Z.of_N sr)) (fz (Z.of_N server)) /\ pl_rate s = rate /\ ranged n s.
Proof using Hb n0 sr_ok n_ok sr_tes.
  intros server rate looping s. destruct buffer_facts as (_ & _ & _ & Ef & Es & N53).
  destruct (length_back (Z.of_nat n) (Z.of_N sr)) as [Fd [Vd Ld]]; try lia; [exact sr_tes |].
  destruct (fz_int (Z.of_N sr) ltac:(lia)) as [FS VS].
  assert (Z0 : AllpassSpec.silent (to_samples (fz (Z.of_N sr)) (0%N, 0%N))).
  { unfold to_samples. cbn [fst snd]. change (Z.of_N 0) with 0%Z. change (fz 0 : f64) with (fzero : f64).
    assert (M : AllpassSpec.silent (fmul (fzero : f64) (fz (Z.of_N sr)))) by (apply mul_zero_l; [apply silent_zero | exact FS]).
    apply add_silent; [exact M |]. destruct (fz_int tes ltac:(unfold tes; lia)) as [Ft Vt]. change (IZR tes) with 282240000 in Vt.
    destruct M as [MF MV]. destruct (fdiv_ok (fmul (fzero : f64) (fz (Z.of_N sr))) (fz tes) MF) as [A B]; [rewrite Vt; lra | rewrite MV; unfold Rdiv; rewrite Rmult_0_l, rnd_0, Rabs_R0; apply top_pos |].
    split; [exact B |]. rewrite A, MV. unfold Rdiv. rewrite Rmult_0_l. apply rnd_0. }
  unfold s, player_init, player_new, length_seconds, reset, ranged, buf_rate_scale. cbn [pl_start pl_dur pl_end pl_fin pl_rp pl_loop pl_base pl_rate].
  rewrite Ef, Es, from_secs_zero. set (d := to_samples (fz (Z.of_N sr)) (from_secs (fdiv (fz (Z.of_nat n)) (fz (Z.of_N sr))))) in *.
  destruct (add_zero_l _ d Z0 Fd) as [Fe Ve].
  split; [reflexivity |]. split; [reflexivity |]. split; [exact Z0 |]. split; [reflexivity |]. split; [reflexivity |]. split; [exact Fe |].
  split; [rewrite Ve, INR_IZR_INZ; split; [exact Ld | apply Vd] | exact Z0].
Qed.
Lemma base_own : fin (fdiv (fz (Z.of_N sr)) (fz (Z.of_N sr)) : f64) /\ val (fdiv (fz (Z.of_N sr)) (fz (Z.of_N sr)) : f64) = 1.
Proof using sr_ok.
  clear - sr_ok. destruct (fz_int (Z.of_N sr) ltac:(lia)) as [FS VS]. assert (P : 1 <= IZR (Z.of_N sr)) by (apply IZR_le; lia).
  assert (E : IZR (Z.of_N sr) / IZR (Z.of_N sr) = 1) by (field; lra).
  destruct (fdiv_ok (fz (Z.of_N sr)) (fz (Z.of_N sr)) FS) as [A B]; [rewrite VS; lra | rewrite VS, E, rnd_1, Rabs_R1; change 1 with (bpow radix2 0); apply bpow_lt; lia |].
  split; [exact B |]. rewrite A, VS, E. apply rnd_1.
Qed.
End Start.

Section Results.
Context {prec emax : Z} {I : ieee prec emax}.
Local Notation fl := (binary_float prec emax).
Variables (b : buffer) (mem : list fl) (n ch channels : nat) (sr : N).
Hypothesis Hb : from_vec_interleaved (N.of_nat (n * ch)) (N.of_nat ch) (fz (Z.of_N sr)) = Some b.
Hypothesis Hmem : length mem = (n * ch)%nat.
Hypothesis n0 : (0 < n)%nat.
Hypothesis sr_ok : (1 <= sr <= 2 ^ 24)%N.
Hypothesis n_ok : (N.of_nat n < 2 ^ 24 * sr)%N.
Hypothesis sr_tes : (Z.of_N sr | 282240000)%Z.
Hypothesis Hc : (channels <= ch)%nat.
Lemma own_rate : forall looping sizes, all_fin mem ->
  let r := play_blocks b mem channels sizes (player_init b sr (player_new b fone looping)) in
  (forall i c, (i < length (ends_of sizes))%nat -> (c < channels)%nat -> shows (out_at (snd (fst r)) i c)
    (if looping then val (stored mem ch c (i mod n)) else if Nat.ltb i n then val (stored mem ch c i) else 0)) /\
  snd r = if looping then map (fun _ => None) (ends_of sizes) else reports (n - 1) (ends_of sizes).
Proof using Hb Hmem n0 sr_ok n_ok sr_tes Hc.
  intros looping sizes Hf r. unfold r. rewrite blocks_frames. destruct (buffer_facts b n ch sr Hb sr_ok n_ok) as (C0 & Ec & El & Ef & Es & N53).
  destruct (start_facts b n ch sr Hb n0 sr_ok n_ok sr_tes sr fone looping) as (S1 & S2 & [S3 S3'] & S4 & S5 & S6).
  destruct (base_own sr sr_ok) as [FB VB].
  assert (O : own n (player_init b sr (player_new b fone looping)) 0).
  { split; [exact S1 |]. split; [exact S3 |]. split; [exact S3' |].
    unfold step_of. rewrite S4, S5. destruct (fmul_ok (fdiv (fz (Z.of_N sr)) (fz (Z.of_N sr))) fone FB fin_fone) as [A B];
      [rewrite VB, val_fone, Rmult_1_l, rnd_1, Rabs_R1; change 1 with (bpow radix2 0); apply bpow_lt; lia |].
    rewrite VB, val_fone, Rmult_1_l, rnd_1 in A. split; [exact B |]. split; [exact A | exact S6]. }
  destruct (own_frames b mem channels ch n Ec El Hmem n0 N53 Hc (ends_of sizes) _ 0 Hf O n0) as [A B]. rewrite S2 in A, B. rewrite Nat.sub_0_r in B. split; [exact A | exact B].
Qed.
Lemma any_rate : forall server rate (k : Z), (1 <= server <= 2 ^ 32)%N -> full_scale mem -> let step := fmul (fdiv (fz (Z.of_N sr)) (fz (Z.of_N server))) rate : f64 in
  let e := bpow radix2 (k - 54) in
  (0 <= k <= 1000)%Z -> fin step -> e < val step -> INR n + val step < bpow radix2 k ->
  exists K, (0 < K)%nat /\ (INR K - 1) * (val step - e) < INR n /\ INR n - / 4 <= INR K * (val step + e) /\
  forall sizes, let r := play_blocks b mem channels sizes (player_init b server (player_new b rate false)) in
  (forall i, (i < length (ends_of sizes))%nat ->
     if Nat.ltb i K then exists pos, Rabs (pos - INR i * val step) <= INR i * e /\ 0 <= pos < INR n /\
       forall c, (c < channels)%nat -> near (6 * @eps prec) (out_at (snd (fst r)) i c) (line mem ch c n pos)
     else forall c, (c < channels)%nat -> shows (out_at (snd (fst r)) i c) 0) /\
  snd r = reports (K - 1) (ends_of sizes).
Proof using Hb Hmem n0 sr_ok n_ok sr_tes Hc.
  intros server rate k Hs Hf step e Hk Fs Es' Ek. destruct (buffer_facts b n ch sr Hb sr_ok n_ok) as (C0 & Ec & El & Ef & Es & N53).
  destruct (start_facts b n ch sr Hb n0 sr_ok n_ok sr_tes server rate false) as (S1 & S2 & [S3 S3'] & S4 & S5 & S6).
  assert (A : at_frame n k (val step) (player_init b server (player_new b rate false)) 0).
  { split; [exact S1 |]. split; [exact S2 |]. split; [exact S3 |]. rewrite S3'. split; [split; [lra | apply lt_0_INR; exact n0] |].
    split; [cbn [INR]; rewrite Rmult_0_l, Rminus_0_r, Rabs_R0; lra |]. unfold step_of. rewrite S4, S5. fold step. split; [exact Fs |]. split; [reflexivity | exact S6]. }
  destruct (plays_all b mem channels ch n Ec El Hmem n0 N53 Hc k (val step) Hk Ek Es' Hf _ A) as (K & K1 & K2 & K3 & K4).
  exists K. split; [exact K1 |]. split; [exact K2 |]. split; [exact K3 |]. intros sizes. cbv zeta. rewrite blocks_frames. destruct (K4 (ends_of sizes)) as [P Q].
  split; [exact P |]. rewrite Nat.sub_0_r in Q. exact Q.
Qed.
End Results.
