(** Proofs about the one-pole filters with rounding *)
From Coq Require Import Reals Lra Psatz.
From Flocq Require Import Core BinarySingleNaN.
From Coquelicot Require Import Complex.
From Verif Require Import Base FloatBase FloatMore NoiseModel NoiseMore PoleModel PoleSpec PoleProofs PoleFloatSpec SvfRespSpec.
Local Open Scope R_scope.

Section P.
Context {prec emax : Z} {I : ieee prec emax}.
Notation fl := (binary_float prec emax).
Context (O : pole_ops fl).
Lemma f_run_app : forall (smp : fl -> op fl -> op fl * fl) l1 l2 s,
  pole_run O smp s (l1 ++ l2) = let r := pole_run O smp s l1 in let q := pole_run O smp (fst r) l2 in (fst q, snd r ++ snd q).
Proof.
  intros smp l1; induction l1 as [|o l1 IH]; intros l2 s; cbn [app pole_run].
  - cbn. destruct (pole_run O smp s l2). reflexivity.
  - cbv zeta. rewrite IH. cbn [fst snd]. rewrite app_assoc. reflexivity.
Qed.
Definition f_fed (k : kind) (s : op fl) (x : nat -> fl) (n : nat) : op fl := fst (pole_run O (f_sample O k) s (map (fun i => ZIn (x i)) (seq 0 n))).
Definition f_outs (k : kind) (s : op fl) (x : nat -> fl) (n : nat) : list fl := snd (pole_run O (f_sample O k) s (map (fun i => ZIn (x i)) (seq 0 n))).
Lemma f_outs_S : forall k s x n, f_outs k s x (S n) = f_outs k s x n ++ [snd (f_sample O k (x n) (f_fed k s x n))].
Proof. intros. unfold f_outs, f_fed. rewrite seq_S, map_app. cbn [map Nat.add]. rewrite f_run_app. cbn. reflexivity. Qed.
Lemma f_fed_S : forall k s x n, f_fed k s x (S n) = fst (f_sample O k (x n) (f_fed k s x n)).
Proof. intros. unfold f_fed. rewrite seq_S, map_app. cbn [map Nat.add]. rewrite f_run_app. cbn. reflexivity. Qed.
Lemma f_outs_length : forall k s x n, length (f_outs k s x n) = n.
Proof. intros k s x n; induction n; [reflexivity|]. rewrite f_outs_S, app_length, IHn. cbn. lia. Qed.
Lemma f_heard_eq : forall k s x n, f_heard O k s x n = snd (f_sample O k (x n) (f_fed k s x n)).
Proof. intros. unfold f_heard. fold (f_outs k s x (S n)). rewrite f_outs_S, app_nth2; rewrite f_outs_length; [|lia]. rewrite Nat.sub_diag. reflexivity. Qed.
Lemma f_sample_state : forall k x s, fst (f_sample O k x s) = op_lp (z_add O) (z_mul O) x s.
Proof. destruct k; reflexivity. Qed.
Lemma f_fed_kind : forall k s x n, f_fed k s x n = f_fed LowPass s x n.
Proof. intros k s x n; induction n; [reflexivity|]. rewrite !f_fed_S, !f_sample_state, IHn. reflexivity. Qed.
Lemma f_fed_coeffs : forall k s x n, o_a0 (f_fed k s x n) = o_a0 s /\ o_b1 (f_fed k s x n) = o_b1 s.
Proof. intros k s x n; induction n; [split; reflexivity|]. rewrite f_fed_S, f_sample_state. destruct IHn as [A B]. split; cbn; assumption. Qed.
Lemma f_low_heard : forall s x n, f_heard O LowPass s x n = o_last (f_fed LowPass s x (S n)).
Proof. intros. rewrite f_heard_eq, f_fed_S. reflexivity. Qed.
Lemma f_high_heard : forall s x n, f_heard O HighPass s x n = z_sub O (x n) (f_heard O LowPass s x n).
Proof. intros. rewrite !f_heard_eq. rewrite (f_fed_kind HighPass). reflexivity. Qed.
End P.

Section Round.
Context {prec emax : Z} {I : ieee prec emax}.
Notation fl := (binary_float prec emax).
(** Rounding a number below 2^(k+1) *)
Lemma rnd_err : forall (k : Z) y, (0 <= k)%Z -> Rabs y < bpow radix2 (k + 1) -> Rabs (@rnd prec emax y - y) <= bpow radix2 (k - prec).
Proof.
  intros k y Hk H. destruct (Req_dec y 0) as [-> | N].
  - rewrite rnd_0, Rminus_0_r, Rabs_R0. apply bpow_ge_0.
  - eapply Rle_trans; [apply error_le_half_ulp; exact (FLT_exp_valid (SpecFloat.emin prec emax) prec) |].
    rewrite ulp_neq_0 by exact N. unfold cexp.
    assert (M : (mag radix2 y <= k + 1)%Z) by (apply mag_le_bpow; assumption).
    replace (/ 2) with (bpow radix2 (-1)) by reflexivity. rewrite <- bpow_plus. apply bpow_le.
    unfold SpecFloat.fexp, SpecFloat.emin. destruct I. lia.
Qed.
Lemma lp_error : forall k (s : op fl) x, (0 <= k <= 100)%Z -> within_pow k x -> within_pow k (o_last s) -> fin (o_b1 s) -> 0 < val (o_b1 s) < 1 -> o_a0 s = fsub fone (o_b1 s) ->
  Rabs (val (o_last (op_lp fadd fmul x s)) - (val x * (1 - val (o_b1 s)) + val (o_last s) * val (o_b1 s))) <= 4 * bpow radix2 (k - prec).
Proof.
  intros k s x Hk [Fx Vx] [Fl Vl] Fb Vb Ea. pose proof (ieee_emax (prec := prec) (emax := emax)) as He. pose proof (ieee_prec (prec := prec) (emax := emax)) as Hp.
  pose proof (bpow_gt_0 radix2 k) as Pk. pose proof (bpow_gt_0 radix2 (k - prec)) as Pe.
  assert (Ub : unit_ (o_b1 s)) by (split; [exact Fb | lra]). destruct (coeffs_ok _ Ub) as [Ua Hab]. rewrite <- Ea in Ua, Hab.
  assert (Ev : Rabs (val (o_a0 s) - (1 - val (o_b1 s))) <= bpow radix2 (- prec - 1)).
  { rewrite Ea. destruct (fsub_ok fone (o_b1 s) fin_fone Fb) as [A _].
    { rewrite val_fone. apply fits with 0%Z; [lia |]. change (bpow radix2 0) with 1. rewrite Rabs_pos_eq; lra. }
    rewrite A, val_fone. apply (unit_error (1 - val (o_b1 s))). lra. }
  destruct Ua as [Fa Va].
  assert (K1 : bpow radix2 (k + 1) = 2 * bpow radix2 k) by (rewrite bpow_plus; change (bpow radix2 1) with 2; ring).
  assert (T : forall (y c : fl), fin y -> Rabs (val y) <= bpow radix2 k -> fin c -> 0 <= val c <= 1 ->
    fin (fmul y c) /\ Rabs (val (fmul y c)) <= val c * bpow radix2 k /\ Rabs (val (fmul y c) - val y * val c) <= bpow radix2 (k - prec)).
  { intros y c Fy Vy Fc Vc.
    assert (B : Rabs (val y * val c) <= val c * bpow radix2 k) by (rewrite Rabs_mult, (Rabs_pos_eq (val c)) by lra; rewrite Rmult_comm; apply Rmult_le_compat_l; lra).
    assert (B2 : Rabs (val y * val c) <= bpow radix2 k) by (apply Rle_trans with (1 := B); rewrite <- (Rmult_1_l (bpow radix2 k)) at 2; apply Rmult_le_compat_r; lra).
    destruct (fmul_ok y c Fy Fc) as [A1 A2]; [apply fits with k; [lia | exact B2] |].
    split; [exact A2 |]. split; [rewrite A1, <- rnd_abs, <- (rnd_scaled c k) by lia; apply rnd_le; exact B |].
    rewrite A1. apply rnd_err; [lia |]. rewrite K1. lra. }
  destruct (T x (o_a0 s) Fx Vx Fa Va) as (F1 & B1 & E1). destruct (T (o_last s) (o_b1 s) Fl Vl Fb ltac:(lra)) as (F2 & B2 & E2).
  cbn [op_lp o_last]. set (p := fmul x (o_a0 s)) in *. set (q := fmul (o_last s) (o_b1 s)) in *.
  assert (Q1 : bpow radix2 (- prec) <= / 2) by (change (/ 2) with (bpow radix2 (-1)); apply bpow_le; lia).
  assert (Sb : Rabs (val p + val q) < 2 * bpow radix2 k).
  { apply Rle_lt_trans with (1 := Rabs_triang _ _). apply Rle_lt_trans with (bpow radix2 k * (val (o_a0 s) + val (o_b1 s))); [lra |].
    rewrite Rmult_comm. apply Rmult_lt_compat_r; lra. }
  assert (Rb : Rabs (rnd (val p + val q)) <= bpow radix2 (k + 1)) by (apply rnd_bound; [lia | lra]).
  destruct (fadd_ok p q F1 F2) as [A1 A2]; [apply Rle_lt_trans with (1 := Rb); apply bpow_lt; lia |].
  rewrite A1. pose proof (rnd_err k (val p + val q) ltac:(lia) ltac:(lra)) as E3.
  assert (E4 : Rabs (val x * (val (o_a0 s) - (1 - val (o_b1 s)))) <= bpow radix2 (k - prec)).
  { rewrite Rabs_mult. apply Rle_trans with (bpow radix2 k * bpow radix2 (- prec - 1)); [apply Rmult_le_compat; try apply Rabs_pos; assumption |].
    rewrite <- bpow_plus. apply bpow_le. lia. }
  apply Rabs_le_inv in E1, E2, E3, E4. apply Rabs_le. lra.
Qed.
(** The whole run *)
Definition tuned (s : op fl) : Prop := fin (o_b1 s) /\ 0 < val (o_b1 s) < 1 /\ o_a0 s = fsub fone (o_b1 s).
Context (m2pi : fl) (fexp : fl -> fl).
Let O := fpole_ops m2pi fexp.
Lemma fed_sized : forall k s x n, (0 <= k <= 100)%Z -> tuned s -> sized k (o_last s) -> (forall i, sized k (x i)) -> sized k (o_last (f_fed O LowPass s x n)).
Proof.
  intros k s x n Hk (Fb & Vb & Ea) Hl Hx. induction n as [| n IH]; [exact Hl |]. rewrite f_fed_S, f_sample_state. destruct (f_fed_coeffs O LowPass s x n) as [A B].
  assert (Ub : unit_ (o_b1 s)) by (split; [exact Fb | lra]). destruct (coeffs_ok _ Ub) as [Ua Hab]. rewrite <- Ea in Ua, Hab.
  apply (lp_bound k (f_fed O LowPass s x n) (x n) Hk (Hx n) IH); rewrite ?A, ?B; assumption.
Qed.
Lemma exact_last : forall s x n, o_last (fed LowPass (exact s) x (S n)) = x n * (1 - val (o_b1 (s : op fl))) + o_last (fed LowPass (exact s) x n) * val (o_b1 s).
Proof. intros. rewrite fed_last. reflexivity. Qed.
Lemma fed_error : forall k s x n, (0 <= k <= 100)%Z -> tuned s -> sized k (o_last s) -> (forall i, sized k (x i)) ->
  Rabs (val (o_last (f_fed O LowPass s x n)) - o_last (fed LowPass (exact s) (fun i => val (x i)) n)) <= 4 * bpow radix2 (k - prec) / (1 - val (o_b1 s)).
Proof.
  intros k s x n Hk T Hl Hx. pose proof T as (Fb & Vb & Ea). pose proof (bpow_gt_0 radix2 (k - prec)) as P.
  assert (E0 : 0 <= 4 * bpow radix2 (k - prec) / (1 - val (o_b1 s))) by (apply Rmult_le_pos; [lra | left; apply Rinv_0_lt_compat; lra]).
  induction n as [| n IH].
  - cbn. rewrite Rminus_diag_eq, Rabs_R0 by reflexivity. exact E0.
  - rewrite exact_last, f_fed_S, f_sample_state. destruct (f_fed_coeffs O LowPass s x n) as [A B].
    pose proof (lp_error k (f_fed O LowPass s x n) (x n) Hk (Hx n) (fed_sized k s x n Hk T Hl Hx)) as Er. rewrite A, B in Er. specialize (Er Fb Vb Ea).
    set (y := o_last (f_fed O LowPass s x n)) in *. set (z := o_last (fed LowPass (exact s) (fun i => val (x i)) n)) in *. set (b := val (o_b1 s)) in *.
    set (D := 4 * bpow radix2 (k - prec) / (1 - b)) in *.
    assert (Hd : 4 * bpow radix2 (k - prec) = D * (1 - b)) by (unfold D; field; lra).
    assert (Hz : Rabs ((val y - z) * b) <= D * b) by (rewrite Rabs_mult, (Rabs_pos_eq b) by lra; apply Rmult_le_compat_r; lra).
    change (z_add O) with (@fadd prec emax I). change (z_mul O) with (@fmul prec emax I).
    apply Rabs_le_inv in Er, Hz. apply Rabs_le. lra.
Qed.
End Round.
