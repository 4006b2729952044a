(** The sum of the pink noise and the bounds of the one-pole filter. *)
From Coq Require Import Reals Lra.
From Flocq Require Import Core BinarySingleNaN.
From Flocq Require Import Mult_error.
From Verif Require Import Base FloatBase FloatMore SegProofs NoiseModel NoiseSpec NoiseProofs.
Local Open Scope R_scope.

Definition zsum (l : list Z) : Z := fold_right Z.add 0%Z l.
Definition rsum (l : list R) : R := fold_right Rplus 0 l.
Definition small (z : Z) : Prop := (- 2 ^ 23 <= z <= 2 ^ 23)%Z.
Lemma zsum_small : forall l, Forall small l -> (Z.abs (zsum l) <= Z.of_nat (length l) * 2 ^ 23)%Z.
Proof.
  induction l as [| z l IH]; intros H; [cbn; lia |]. inversion H as [| ? ? Hz Hl]; subst. specialize (IH Hl). unfold small in Hz. cbn [zsum fold_right length] in *. fold (zsum l) in *. lia.
Qed.
Lemma zsum_set : forall l i old z l', nth_error l i = Some old -> set_nth l i z = Some l' -> zsum l' = (zsum l - old + z)%Z.
Proof.
  induction l as [| y l IH]; intros [| i] old z l' E S; cbn in E, S; try discriminate.
  - injection E as ->. injection S as <-. cbn [zsum fold_right]. fold (zsum l). lia.
  - destruct (set_nth l i z) as [l2 |] eqn:S2; [| discriminate S]. injection S as <-. cbn [zsum fold_right]. fold (zsum l) (zsum l2). rewrite (IH _ _ _ _ E S2). lia.
Qed.
Lemma Forall_setz : forall l i z l', Forall small l -> small z -> set_nth l i z = Some l' -> Forall small l'.
Proof.
  induction l as [| y l IH]; intros [| i] z l' H Hz S; cbn in S; try discriminate; inversion H; subst.
  - injection S as <-. constructor; assumption.
  - destruct (set_nth l i z) as [l2 |] eqn:S2; [| discriminate S]. injection S as <-. constructor; [assumption | apply (IH i z); assumption].
Qed.

Section Pink.
Context {prec emax : Z} {I : ieee prec emax}.
Notation fl := (binary_float prec emax).
Notation rnd := (@rnd prec emax).
Definition rows (ws : list fl) (zs : list Z) : Prop := Forall2 (on_grid (-23)) ws zs /\ Forall small zs.
Lemma rows_nth : forall ws zs i old, rows ws zs -> nth_error ws i = Some old -> exists z, nth_error zs i = Some z /\ on_grid (-23) old z /\ small z.
Proof.
  intros ws zs i old [H S]. revert i. induction H as [| w z ws zs Hw H IH]; intros [| i] E; cbn [nth_error] in *; try discriminate; inversion S; subst.
  - injection E as <-. exists z. split; [reflexivity |]. split; assumption.
  - apply IH; assumption.
Qed.
Lemma rows_set : forall ws zs i w z ws', rows ws zs -> on_grid (-23) w z -> small z -> set_nth ws i w = Some ws' -> exists zs', set_nth zs i z = Some zs' /\ rows ws' zs'.
Proof.
  intros ws zs i w z ws' [H S] Hw Hz E.
  assert (K : exists zs', set_nth zs i z = Some zs' /\ Forall2 (on_grid (-23)) ws' zs').
  { clear S. revert i ws' E. induction H as [| a b ws zs Ha H IH]; intros [| i] ws' E; cbn [set_nth] in *; try discriminate.
    - injection E as <-. eexists. split; [reflexivity |]. constructor; assumption.
    - destruct (set_nth ws i w) as [l |] eqn:E2; [| discriminate E]. injection E as <-. destruct (IH i l E2) as (zs' & Es & F). rewrite Es. eexists. split; [reflexivity |]. constructor; assumption. }
  destruct K as (zs' & Es & F). exists zs'. split; [exact Es |]. split; [exact F |]. apply (Forall_setz zs i z); assumption.
Qed.
Lemma rows_length : forall ws zs, rows ws zs -> length zs = length ws.
Proof. intros ws zs [H _]. induction H; cbn [length]; congruence. Qed.
Definition sum_ok (s : pink prec emax) : Prop := pink_ok s /\ exists zs on, rows (p_ws s) zs /\ on_grid (-23) (p_on s) on /\ small on /\ on_grid (-23) (p_sum s) (zsum zs + on).
Lemma ten_ok : fin (fadd (fz (Z.of_nat octaves)) fone : fl) /\ val (fadd (fz (Z.of_nat octaves)) fone : fl) = 10.
Proof.
  pose proof (ieee_emax (prec := prec) (emax := emax)). change (Z.of_nat octaves) with 9%Z. destruct (fz_small (prec := prec) (emax := emax) 9) as [V F]; [lia |].
  destruct (fadd_ok (fz 9 : fl) fone F fin_fone) as [A B]; rewrite V, val_fone in *.
  - apply fits with 4%Z; [lia |]. rewrite Rabs_pos_eq; [cbn |]; lra.
  - split; [exact B |]. rewrite A. replace (9 + 1) with (IZR 10) by lra. apply rnd_int. lia.
Qed.
Lemma sum_step : forall s w1 w2, (28 <= prec)%Z -> sum_ok s -> white w1 -> white w2 ->
  exists s' o, pink_step s w1 w2 = Some (s', o) /\ sum_ok s' /\ between (-1) 1 o.
Proof.
  intros s w1 w2 Hp [Hs (zs & on & Hr & Ho & So & Hsum)] (z1 & G1 & S1) (z2 & G2 & S2).
  pose proof (ieee_emax (prec := prec) (emax := emax)).
  assert (P28 : (2 ^ 28 <= 2 ^ prec)%Z) by (apply Z.pow_le_mono_r; lia).
  destruct (pink_step_ok s w1 w2 Hs) as (i & old & ws & c & Hi & En & Es & E & H'). cbv zeta in E, H'. set (p := fadd _ w2) in *.
  destruct (rows_nth _ _ _ _ Hr En) as (zo & Ezo & Go & Szo).
  destruct (rows_set _ _ _ w1 z1 _ Hr G1 S1 Es) as (zs' & Ezs & Hr').
  pose proof (zsum_set _ _ _ _ _ Ezo Ezs) as Z'.
  pose proof (zsum_small zs (proj2 Hr)) as B1. rewrite (rows_length _ _ Hr), (proj1 Hs) in B1.
  pose proof (zsum_small zs' (proj2 Hr')) as B2. rewrite (rows_length _ _ Hr'), (set_nth_length _ _ _ _ Es), (proj1 Hs) in B2. change (Z.of_nat octaves) with 9%Z in *.
  unfold small in *.
  assert (Gp : on_grid (-23) p (zsum zs' + z2)).
  { unfold p. replace (zsum zs' + z2)%Z with (zsum zs + on - zo + z1 - on + z2)%Z by lia.
    apply grid_add; [| exact G2 | lia | lia]. apply grid_sub; [| exact Ho | lia | lia]. apply grid_add; [| exact G1 | lia | lia]. apply grid_sub; [exact Hsum | exact Go | lia | lia]. }
  eexists. eexists. split; [exact E |]. split.
  - split; [exact H' |]. exists zs', z2. cbn [p_ws p_on p_sum]. split; [exact Hr' |]. split; [exact G2 |]. split; [exact S2 | exact Gp].
  - destruct ten_ok as [Ft Vt]. destruct Gp as [Fp Vp].
    assert (Q : Rabs (val p / 10) <= 1).
    { rewrite Vp. unfold Rdiv. rewrite !Rabs_mult. rewrite (Rabs_pos_eq (bpow _ _)) by apply bpow_ge_0. rewrite (Rabs_pos_eq (/ 10)) by lra. rewrite <- abs_IZR.
      assert (IZR (Z.abs (zsum zs' + z2)) <= IZR (10 * 2 ^ 23)) by (apply IZR_le; lia). rewrite mult_IZR in H0.
      apply Rle_trans with (10 * IZR (2 ^ 23) * bpow radix2 (-23) * / 10).
      - apply Rmult_le_compat_r; [lra |]. apply Rmult_le_compat_r; [apply bpow_ge_0 | exact H0].
      - change (IZR (2 ^ 23)) with (bpow radix2 23). replace (10 * bpow radix2 23 * bpow radix2 (-23) * / 10) with (bpow radix2 23 * bpow radix2 (-23)) by field.
        rewrite <- bpow_plus. change (bpow radix2 (23 + -23)) with 1. lra. }
    destruct (fdiv_ok p (fadd (fz 9) fone) Fp) as [A B].
    + change 9%Z with (Z.of_nat octaves). rewrite Vt. apply Rgt_not_eq. lra.
    + change 9%Z with (Z.of_nat octaves). rewrite Vt. apply fits with 0%Z; [lia |]. exact Q.
    + change 9%Z with (Z.of_nat octaves) in *. split; [exact B |]. rewrite A, Vt. pose proof (rnd_bound (prec := prec) (emax := emax) (val p / 10) 0 ltac:(lia) Q) as K. change (bpow radix2 0) with 1 in K. apply Rabs_le_inv in K. lra.
Qed.
Lemma sum_run : forall ws s, (28 <= prec)%Z -> sum_ok s -> Forall (fun w => white (fst w) /\ white (snd w)) ws ->
  exists s' l, pink_run s ws = Some (s', l) /\ sum_ok s' /\ Forall (between (-1) 1) l.
Proof.
  induction ws as [| [w1 w2] ws IH]; intros s Hp H Hw; [exists s, []; split; [reflexivity | split; [exact H | constructor]] |].
  inversion Hw as [| ? ? [W1 W2] Hw']; subst. destruct (sum_step s w1 w2 Hp H W1 W2) as (s1 & o & E & H1 & B). cbn [pink_run fst snd]. rewrite E. cbn [bind fst snd].
  destruct (IH s1 Hp H1 Hw') as (s' & l & E2 & H2 & F). rewrite E2. cbn [bind fst snd]. exists s', (o :: l). split; [reflexivity |]. split; [exact H2 | constructor; assumption].
Qed.
Lemma sum_new : sum_ok pink_new.
Proof.
  split; [apply pink_new_ok |]. exists (repeat 0%Z 9), 0%Z. split; [| split; [apply grid_zero | split; [unfold small; lia | apply grid_zero]]].
  split; [| apply Forall_forall; intros z Hz; apply repeat_spec in Hz; subst z; unfold small; lia].
  cbn [pink_new p_ws octaves repeat]. repeat (constructor; [apply grid_zero |]). constructor.
Qed.
(** The sum in real numbers *)
Lemma sum_real : forall s, sum_ok s -> val (p_sum s) = rsum (map val (p_ws s)) + val (p_on s).
Proof.
  intros s [_ (zs & on & [Hr _] & [_ Ho] & _ & [_ Hs])]. rewrite Hs, Ho, plus_IZR, Rmult_plus_distr_r. f_equal.
  clear Hs. induction Hr as [| w z ws zs [_ Hw] H IH]; [apply Rmult_0_l |].
  change (zsum (z :: zs)) with (z + zsum zs)%Z. change (rsum (map val (w :: ws))) with (val w + rsum (map val ws)).
  rewrite plus_IZR, Rmult_plus_distr_r, Hw, IH. reflexivity.
Qed.

(** * One-pole filter *)
Lemma rnd_below_pow : forall k x, (-100 <= k <= 100)%Z -> x < bpow radix2 k * (1 + bpow radix2 (- prec)) -> rnd x <= bpow radix2 k.
Proof.
  intros k x Hk H. pose proof (ieee_prec (prec := prec) (emax := emax)). pose proof (ieee_emax (prec := prec) (emax := emax)). pose proof (ieee_lt (prec := prec) (emax := emax)).
  assert (P : Prec_gt_0 prec) by (unfold Prec_gt_0; lia).
  assert (V : Valid_exp (FLT_exp (3 - emax - prec) prec)) by (apply FLT_exp_valid; exact P).
  assert (G : generic_format radix2 (FLT_exp (3 - emax - prec) prec) (bpow radix2 k)) by (apply (bpow_format k); lia).
  apply (@round_N_le_midp radix2 (FLT_exp (3 - emax - prec) prec) V (fun z => negb (Z.even z)) (bpow radix2 k) x G).
  rewrite succ_eq_pos by apply bpow_ge_0. rewrite ulp_bpow.
  replace (FLT_exp (3 - emax - prec) prec (k + 1)) with (1 + (k + - prec))%Z by (unfold FLT_exp; lia).
  rewrite !bpow_plus. change (bpow radix2 1) with 2. lra.
Qed.
Lemma rnd_scaled : forall (a : fl) k, (0 <= k)%Z -> rnd (val a * bpow radix2 k) = val a * bpow radix2 k.
Proof.
  intros a k Hk. apply rnd_format. pose proof (ieee_prec (prec := prec) (emax := emax)).
  assert (P : Prec_gt_0 prec) by (unfold Prec_gt_0; lia). apply (mult_bpow_pos_exact_FLT radix2 (SpecFloat.emin prec emax) prec); [| exact Hk]. apply generic_format_B2R.
Qed.
Lemma coeffs_ok : forall b : fl, unit_ b -> unit_ (fsub fone b) /\ val (fsub fone b) + val b < 1 + bpow radix2 (- prec).
Proof.
  intros b [Fb Vb]. pose proof (ieee_emax (prec := prec) (emax := emax)).
  destruct (fsub_ok fone b fin_fone Fb) as [A B].
  { rewrite val_fone. apply fits with 0%Z; [lia |]. change (bpow radix2 0) with 1. rewrite Rabs_pos_eq; lra. }
  rewrite val_fone in A. pose proof (bpow_gt_0 radix2 (- prec)) as P0. pose proof (bpow_gt_0 radix2 (- prec - 1)) as P1.
  assert (P2 : bpow radix2 (- prec - 1) < bpow radix2 (- prec)) by (apply bpow_lt; lia).
  split; [split; [exact B |]; rewrite A; apply rnd_between; [apply rnd_0 | apply rnd_1 | lra] |]. rewrite A.
  destruct (Rle_lt_dec (val b) 0) as [L | L].
  - replace (val b) with 0 by lra. rewrite Rminus_0_r, rnd_1. lra.
  - pose proof (unit_error (prec := prec) (emax := emax) (1 - val b) ltac:(lra)) as Er. unfold eps in Er. apply Rabs_le_inv in Er. lra.
Qed.
Definition within_pow (k : Z) (x : fl) : Prop := fin x /\ Rabs (val x) <= bpow radix2 k.
Notation lp := (op_lp fadd fmul).
Lemma lp_bound : forall k s x, (0 <= k <= 100)%Z -> within_pow k x -> within_pow k (o_last s) -> unit_ (o_a0 s) -> unit_ (o_b1 s) ->
  val (o_a0 s) + val (o_b1 s) < 1 + bpow radix2 (- prec) -> within_pow k (o_last (lp x s)).
Proof.
  intros k s x Hk [Fx Vx] [Fl Vl] [Fa Va] [Fb Vb] Hab. pose proof (ieee_emax (prec := prec) (emax := emax)). pose proof (bpow_gt_0 radix2 k) as Pk.
  assert (T : forall (y c : fl), fin y -> Rabs (val y) <= bpow radix2 k -> fin c -> 0 <= val c <= 1 -> fin (fmul y c) /\ Rabs (val (fmul y c)) <= val c * bpow radix2 k).
  { intros y c Fy Vy Fc Vc.
    assert (B : Rabs (val y * val c) <= val c * bpow radix2 k) by (rewrite Rabs_mult, (Rabs_pos_eq (val c)) by lra; rewrite Rmult_comm; apply Rmult_le_compat_l; lra).
    destruct (fmul_ok y c Fy Fc) as [A1 A2]; [apply fits with k; [lia |]; apply Rle_trans with (1 := B); rewrite <- (Rmult_1_l (bpow radix2 k)) at 2; apply Rmult_le_compat_r; lra |].
    split; [exact A2 |]. rewrite A1, <- rnd_abs, <- (rnd_scaled c k) by lia. apply rnd_le. exact B. }
  destruct (T x (o_a0 s) Fx Vx Fa Va) as [F1 B1]. destruct (T (o_last s) (o_b1 s) Fl Vl Fb Vb) as [F2 B2].
  cbn [op_lp o_last]. set (p := fmul x (o_a0 s)) in *. set (q := fmul (o_last s) (o_b1 s)) in *.
  assert (Sb : Rabs (val p + val q) < bpow radix2 k * (1 + bpow radix2 (- prec))).
  { apply Rle_lt_trans with (1 := Rabs_triang _ _). apply Rle_lt_trans with (bpow radix2 k * (val (o_a0 s) + val (o_b1 s))); [lra |]. apply Rmult_lt_compat_l; assumption. }
  assert (Rb : Rabs (rnd (val p + val q)) <= bpow radix2 k) by (rewrite <- rnd_abs; apply rnd_below_pow; [lia | exact Sb]).
  destruct (fadd_ok p q F1 F2) as [A1 A2]; [apply Rle_lt_trans with (1 := Rb); apply bpow_lt; lia |].
  split; [exact A2 |]. rewrite A1. exact Rb.
Qed.
Definition lp_op_ok (k : Z) (o : lp_op fl) : Prop := match o with LCoeff b => unit_ b | LIn x => within_pow k x end.
Lemma lp_run_bound : forall k ops s, (0 <= k <= 100)%Z -> within_pow k (o_last s) -> unit_ (o_a0 s) -> unit_ (o_b1 s) -> val (o_a0 s) + val (o_b1 s) < 1 + bpow radix2 (- prec) ->
  Forall (lp_op_ok k) ops -> Forall (within_pow k) (lp_run fadd fsub fmul fone s ops).
Proof.
  intros k. induction ops as [| [b | x] ops IH]; intros s Hk Hl Ha Hb Hab Ho; cbn [lp_run]; [constructor | |]; inversion Ho as [| ? ? O1 O2]; subst.
  - apply IH; try assumption; cbn [op_coeff o_last o_a0 o_b1]; (exact O1 || (apply coeffs_ok; exact O1)).
  - assert (B : within_pow k (o_last (lp x s))) by (apply lp_bound; assumption). constructor; [exact B |]. apply IH; assumption.
Qed.
End Pink.

(** In real numbers *)
Definition lp_real_ok (lo hi : R) (o : lp_op R) : Prop := match o with LCoeff b => 0 <= b <= 1 | LIn x => lo <= x <= hi end.
Lemma lp_real : forall lo hi ops s, lo <= o_last s <= hi -> 0 <= o_b1 s <= 1 -> o_a0 s = 1 - o_b1 s -> Forall (lp_real_ok lo hi) ops ->
  Forall (fun o => lo <= o <= hi) (lp_run Rplus Rminus Rmult 1 s ops).
Proof.
  intros lo hi. induction ops as [| [b | x] ops IH]; intros s Hl Hb Ha Ho; cbn [lp_run]; [constructor | |]; inversion Ho as [| ? ? O1 O2]; subst; cbn [lp_real_ok] in O1.
  - apply IH; try assumption. reflexivity.
  - assert (B : lo <= o_last (op_lp Rplus Rmult x s) <= hi) by (cbn [op_lp o_last]; rewrite Ha; nra). constructor; [exact B |]. apply IH; assumption.
Qed.
