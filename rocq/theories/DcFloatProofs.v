(** Removing the constant part with rounding: the floating-point loop beside the exact one *)
From Coq Require Import Reals Lra Psatz.
From Flocq Require Import Core BinarySingleNaN.
From Verif Require Import Base FloatBase DcModel DcSpec DcProofs PoleFloatProofs.
Local Open Scope R_scope.

Section F.
Context {prec emax : Z} {I : ieee prec emax}.
Notation fl := (binary_float prec emax).
Context (factor : fl) (k : Z).
Hypothesis Hk : (0 <= k <= 100)%Z.
Hypothesis Ff : fin factor.
Hypothesis Vf : Rabs (val factor - 999 / 1000) <= bpow radix2 (- prec).
Let M := bpow radix2 k.
Let u := bpow radix2 (k - prec).
Definition drift : R := 11000 * u.
(** A channel: sample and output before, in floating point and exactly *)
Definition beside (p l : fl) (p' l' : R) : Prop := fin p /\ fin l /\ val p = p' /\ Rabs p' <= M /\ Rabs (p' - l') <= M /\ Rabs (val l - l') <= drift.
Lemma u_small : 0 < u <= / 16777216 * M.
Proof.
  split; [apply bpow_gt_0 |]. unfold u, M. change (/ 16777216) with (bpow radix2 (-24)). rewrite <- bpow_plus. apply bpow_le. destruct I. lia.
Qed.
Lemma pow_up : forall j, bpow radix2 (k + j) = bpow radix2 j * M.
Proof. intros j. unfold M. rewrite bpow_plus. ring. Qed.
Lemma dc_step : forall p l p' l' x, beside p l p' l' -> fin x -> Rabs (val x) <= M ->
  beside x (fsub (fadd (fmul l factor) x) p) (val x) (l' * (999 / 1000) + val x - p').
Proof.
  intros p l p' l' x (Fp & Fl & Vp & Bp & Bl & El) Fx Bx. destruct u_small as [U0 U1]. pose proof (bpow_gt_0 radix2 k) as M0. fold M in M0.
  pose proof (ieee_prec (prec := prec) (emax := emax)) as Pp. pose proof (ieee_emax (prec := prec) (emax := emax)) as Pe.
  unfold drift in El.
  assert (K2 : bpow radix2 (k + 1 + 1) = 4 * M) by (replace (k + 1 + 1)%Z with (k + 2)%Z by lia; rewrite pow_up; reflexivity).
  assert (K3 : bpow radix2 (k + 2 + 1) = 8 * M) by (replace (k + 2 + 1)%Z with (k + 3)%Z by lia; rewrite pow_up; reflexivity).
  assert (K2' : bpow radix2 (k + 2) = 4 * M) by (rewrite pow_up; reflexivity).
  assert (K3' : bpow radix2 (k + 3) = 8 * M) by (rewrite pow_up; reflexivity).
  assert (W1 : bpow radix2 (k + 1 - prec) = 2 * u) by (unfold u; replace (k + 1 - prec)%Z with (1 + (k - prec))%Z by lia; rewrite bpow_plus; reflexivity).
  assert (W2 : bpow radix2 (k + 2 - prec) = 4 * u) by (unfold u; replace (k + 2 - prec)%Z with (2 + (k - prec))%Z by lia; rewrite bpow_plus; reflexivity).
  assert (Lb : Rabs (val l) <= 21 / 10 * M).
  { apply Rabs_le_inv in El, Bl, Bp. apply Rabs_le. lra. }
  (* the coefficient *)
  assert (Ec : Rabs (val l * (val factor - 999 / 1000)) <= 21 / 10 * u).
  { rewrite Rabs_mult. apply Rle_trans with (21 / 10 * M * bpow radix2 (- prec)); [apply Rmult_le_compat; try apply Rabs_pos; assumption |].
    unfold u. replace (k - prec)%Z with (k + - prec)%Z by lia. rewrite bpow_plus. fold M. lra. }
  assert (E1 : Rabs (val l * val factor) <= 22 / 10 * M).
  { assert (A : Rabs (val l * (999 / 1000)) <= 21 / 10 * M) by (rewrite Rabs_mult, (Rabs_pos_eq (999 / 1000)) by lra; pose proof (Rabs_pos (val l)); lra).
    apply Rabs_le_inv in A, Ec. apply Rabs_le. lra. }
  destruct (fmul_ok l factor Fl Ff) as [A1 A2]; [apply fits with (k + 2)%Z; [lia | lra] |].
  pose proof (rnd_err (k + 1) (val l * val factor) ltac:(lia) ltac:(lra)) as R1. rewrite W1 in R1. rewrite <- A1 in R1.
  assert (E2 : Rabs (val (fmul l factor) + val x) <= 33 / 10 * M) by (apply Rabs_le_inv in R1, E1, Bx; apply Rabs_le; lra).
  destruct (fadd_ok (fmul l factor) x A2 Fx) as [B1 B2]; [apply fits with (k + 2)%Z; [lia | lra] |].
  assert (R2 : Rabs (@rnd prec emax (val (fmul l factor) + val x) - (val (fmul l factor) + val x)) <= bpow radix2 (k + 1 - prec)) by (apply rnd_err; [lia | lra]). rewrite W1 in R2. rewrite <- B1 in R2.
  assert (E3 : Rabs (val (fadd (fmul l factor) x) - val p) <= 44 / 10 * M) by (rewrite Vp; apply Rabs_le_inv in R2, E2, Bp; apply Rabs_le; lra).
  destruct (fsub_ok (fadd (fmul l factor) x) p B2 Fp) as [C1 C2]; [apply fits with (k + 3)%Z; [lia | lra] |].
  assert (R3 : Rabs (@rnd prec emax (val (fadd (fmul l factor) x) - val p) - (val (fadd (fmul l factor) x) - val p)) <= bpow radix2 (k + 2 - prec)) by (apply rnd_err; [lia | lra]). rewrite W2 in R3. rewrite <- C1 in R3.
  unfold beside, drift. split; [exact Fx |]. split; [exact C2 |]. split; [reflexivity |]. split; [exact Bx |]. rewrite Vp in R3.
  apply Rabs_le_inv in R1, R2, R3, Ec, El, Bp, Bl. split; apply Rabs_le; lra.
Qed.
Definition besides (ch : nat) (st : list fl * list fl) (st' : list R * list R) : Prop :=
  length (fst st) = ch /\ length (snd st) = ch /\ length (fst st') = ch /\ length (snd st') = ch /\
  forall c, (c < ch)%nat -> exists p l p' l', nth_error (fst st) c = Some p /\ nth_error (snd st) c = Some l /\ nth_error (fst st') c = Some p' /\ nth_error (snd st') c = Some l' /\ beside p l p' l'.
Lemma dc_samples : forall ch i x st st', (0 < ch)%nat -> besides ch st st' -> fin x -> Rabs (val x) <= M ->
  exists q y q' y', dc_sample factor fadd fsub fmul ch i x st = Some (q, y) /\ dc_sample (999 / 1000) Rplus Rminus Rmult ch i (val x) st' = Some (q', y') /\
    besides ch q q' /\ fin y /\ Rabs (val y - y') <= drift.
Proof.
  intros ch i x st st' H (L1 & L2 & L3 & L4 & S) Fx Bx. pose proof (Nat.mod_upper_bound i ch ltac:(lia)) as C. destruct (S _ C) as (p & l & p' & l' & E1 & E2 & E3 & E4 & B).
  pose proof (dc_step p l p' l' x B Fx Bx) as N. unfold dc_sample. assert (Hz : (ch =? 0)%nat = false) by (apply Nat.eqb_neq; lia). rewrite Hz, E1, E2, E3, E4. cbn [bind].
  set (y := fsub (fadd (fmul l factor) x) p) in *. set (y' := l' * (999 / 1000) + val x - p') in *.
  destruct (set_nth_some (fst st) (i mod ch)%nat x ltac:(lia)) as [ps P]. destruct (set_nth_some (snd st) (i mod ch)%nat y ltac:(lia)) as [ls L].
  destruct (set_nth_some (fst st') (i mod ch)%nat (val x) ltac:(lia)) as [ps' P']. destruct (set_nth_some (snd st') (i mod ch)%nat y' ltac:(lia)) as [ls' L'].
  rewrite P, L, P', L'. cbn [bind]. exists (ps, ls), y, (ps', ls'), y'. split; [reflexivity |]. split; [reflexivity |]. split.
  - unfold besides. cbn [fst snd]. rewrite (set_nth_length _ _ _ _ P), (set_nth_length _ _ _ _ L), (set_nth_length _ _ _ _ P'), (set_nth_length _ _ _ _ L').
    repeat (split; [assumption |]). intros d D. rewrite (nth_error_set _ _ _ _ _ d P), (nth_error_set _ _ _ _ _ d L), (nth_error_set _ _ _ _ _ d P'), (nth_error_set _ _ _ _ _ d L').
    destruct (Nat.eqb_spec d (i mod ch)); [| exact (S d D)]. exists x, y, (val x), y'. repeat (split; [reflexivity |]). exact N.
  - destruct N as (_ & F & _ & _ & _ & E). split; assumption.
Qed.
Lemma dc_loops : forall ch buf i st st', (0 < ch)%nat -> besides ch st st' -> Forall (fun x => fin x /\ Rabs (val x) <= M) buf ->
  exists o o', dc_loop factor fadd fsub fmul ch i buf st = Some o /\ dc_loop (999 / 1000) Rplus Rminus Rmult ch i (map val buf) st' = Some o' /\
    Forall2 (fun y y' => fin y /\ Rabs (val y - y') <= drift) o o'.
Proof.
  intros ch buf. induction buf as [| x buf IH]; intros i st st' H Hs B; [exists [], []; repeat split; constructor |].
  inversion B as [| ? ? [Fx Bx] B']; subst. destruct (dc_samples ch i x st st' H Hs Fx Bx) as (q & y & q' & y' & E & E' & S' & Fy & Ey).
  destruct (IH (S i) q q' H S' B') as (o & o' & O & O' & A). cbn [dc_loop map]. rewrite E, E'. cbn [bind fst snd]. rewrite O, O'. cbn [bind].
  exists (y :: o), (y' :: o'). split; [reflexivity |]. split; [reflexivity |]. constructor; [split; assumption | exact A].
Qed.
End F.
