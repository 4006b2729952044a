From Coq Require Import Reals Lra.
From Flocq Require Import Core BinarySingleNaN Relative.
From Verif Require Import Base FloatBase FloatMore SegModel SegSpec.
Local Open Scope R_scope.

Section Proofs.
Context {prec emax : Z} {I : ieee prec emax}.
Notation fl := (binary_float prec emax).
Notation senv := (senv prec emax).
Notation seg := (seg prec emax).
Notation rnd := (@rnd prec emax).

Lemma rel_error : forall x, bpow radix2 (2 - emax) <= Rabs x -> Rabs (rnd x - x) <= bpow radix2 (- prec) * Rabs x.
Proof.
  intros x H. pose proof (ieee_prec (prec := prec) (emax := emax)). pose proof (ieee_emax (prec := prec) (emax := emax)).
  assert (P : Prec_gt_0 prec) by (unfold Prec_gt_0; lia).
  pose proof (relative_error_N_FLT radix2 (3 - emax - prec) prec P (fun z => negb (Z.even z)) x) as E.
  assert (L : bpow radix2 (3 - emax - prec + prec - 1) <= Rabs x) by (apply Rle_trans with (2 := H); apply bpow_le; lia).
  specialize (E L). replace (bpow radix2 (- prec)) with (/ 2 * bpow radix2 (- prec + 1)); [exact E |].
  rewrite bpow_plus. change (bpow radix2 1) with 2. field.
Qed.
(** Rounds to at most 1 *)
Lemma rnd_below_one : forall x, x < 1 + bpow radix2 (- prec) -> rnd x <= 1.
Proof.
  intros x H. pose proof (ieee_prec (prec := prec) (emax := emax)). pose proof (ieee_emax (prec := prec) (emax := emax)). pose proof (ieee_lt (prec := prec) (emax := emax)).
  assert (P : Prec_gt_0 prec) by (unfold Prec_gt_0; lia).
  assert (V : Valid_exp (FLT_exp (3 - emax - prec) prec)) by (apply FLT_exp_valid; exact P).
  assert (G : generic_format radix2 (FLT_exp (3 - emax - prec) prec) 1) by (apply (bpow_format 0); lia).
  apply (@round_N_le_midp radix2 (FLT_exp (3 - emax - prec) prec) V (fun z => negb (Z.even z)) 1 x G).
  rewrite succ_eq_pos by lra. 
  assert (U : ulp radix2 (FLT_exp (3 - emax - prec) prec) 1 = bpow radix2 (1 - prec)).
  { change 1 with (bpow radix2 0) at 1. rewrite ulp_bpow. f_equal. unfold FLT_exp. lia. }
  rewrite U. replace (1 - prec)%Z with (- prec + 1)%Z by lia. rewrite bpow_plus. change (bpow radix2 1) with 2. lra.
Qed.

(** The recorded reciprocal *)
Lemma recip_ok : forall d : fl, fin d -> bpow radix2 (-64) <= val d <= bpow radix2 20 ->
  fin (fdiv fone d) /\ 0 < val (fdiv fone d) <= bpow radix2 64 /\ val (fdiv fone d) <= / val d * (1 + bpow radix2 (- prec)).
Proof.
  intros d Fd [L U]. pose proof (ieee_emax (prec := prec) (emax := emax)).
  assert (P : 0 < val d) by (apply Rlt_le_trans with (2 := L); apply bpow_gt_0).
  assert (B : bpow radix2 (-20) <= / val d <= bpow radix2 64).
  { change (-20)%Z with (- (20))%Z. change 64%Z with (- -64)%Z. rewrite !bpow_opp. split; apply Rinv_le; try assumption. apply bpow_gt_0. }
  assert (Pi : 0 < / val d) by (apply Rinv_0_lt_compat; exact P).
  destruct (fdiv_ok fone d fin_fone ltac:(lra)) as [A1 A2].
  { rewrite val_fone. unfold Rdiv. rewrite Rmult_1_l. apply fits with 64%Z; [lia |]. rewrite Rabs_pos_eq by lra. apply B. }
  rewrite val_fone in A1. unfold Rdiv in A1. rewrite Rmult_1_l in A1.
  split; [exact A2 |]. rewrite A1.
  assert (R : Rabs (rnd (/ val d) - / val d) <= bpow radix2 (- prec) * Rabs (/ val d)).
  { apply rel_error. rewrite Rabs_pos_eq by lra. apply Rle_trans with (2 := proj1 B). apply bpow_le. lia. }
  rewrite (Rabs_pos_eq (/ val d)) in R by lra. apply Rabs_le_inv in R.
  split; [split |].
  - apply Rlt_le_trans with (bpow radix2 (-20)); [apply bpow_gt_0 |].
    rewrite <- (rnd_bpow (prec := prec) (emax := emax) (-20)) by lia. apply rnd_le. apply B.
  - rewrite <- (rnd_bpow (prec := prec) (emax := emax) 64) by lia. apply rnd_le. apply B.
  - lra.
Qed.
Definition good_seg (g : seg) : Prop := exists d v, g = seg_new d v /\ fin d /\ bpow radix2 (-64) <= val d <= bpow radix2 20 /\ value_ok v.
Definition tmax (k : nat) : R := IZR (2 ^ 20 + 1 + Z.of_nat k).

(** [t * recip]: finite; within [0,1] while the segment lasts *)
Lemma frac_ok : forall (t : fl) d, fin t -> 0 <= val t <= bpow radix2 24 -> fin d -> bpow radix2 (-64) <= val d <= bpow radix2 20 ->
  let p := fmul t (fdiv fone d) in fin p /\ 0 <= val p <= bpow radix2 88 /\ (val t < val d -> val p <= 1).
Proof.
  intros t d Ft Vt Fd Vd p. pose proof (ieee_emax (prec := prec) (emax := emax)).
  destruct (recip_ok d Fd Vd) as (Fr & Pr & Ur).
  assert (Q : 0 <= val t * val (fdiv fone d) <= bpow radix2 88).
  { split; [apply Rmult_le_pos; lra |]. change 88%Z with (24 + 64)%Z. rewrite bpow_plus. apply Rmult_le_compat; lra. }
  destruct (fmul_ok t (fdiv fone d) Ft Fr) as [A1 A2].
  { apply fits with 88%Z; [lia |]. rewrite Rabs_pos_eq; lra. }
  fold p in A1, A2. split; [exact A2 |]. rewrite A1. split.
  - apply rnd_between; [apply rnd_0 | apply rnd_bpow; lia | exact Q].
  - intros Hlt. apply rnd_below_one.
    assert (P : 0 < val d) by (apply Rlt_le_trans with (2 := proj1 Vd); apply bpow_gt_0).
    pose proof (bpow_gt_0 radix2 (- prec)).
    apply Rle_lt_trans with (val t * (/ val d * (1 + bpow radix2 (- prec)))); [apply Rmult_le_compat_l; lra |].
    assert (T : val t * / val d < 1).
    { apply Rmult_lt_reg_r with (val d); [exact P |]. rewrite Rmult_assoc, Rinv_l by lra. lra. }
    rewrite <- Rmult_assoc. apply Rlt_le_trans with (1 * (1 + bpow radix2 (- prec))); [apply Rmult_lt_compat_r; lra | lra].
Qed.
Lemma diff_ok : forall a b : fl, value_ok a -> value_ok b ->
  fin (fsub b a) /\ val (fsub b a) = rnd (val b - val a) /\ Rabs (val (fsub b a)) <= bpow radix2 101.
Proof.
  intros a b [Fa Va] [Fb Vb]. pose proof (ieee_emax (prec := prec) (emax := emax)).
  assert (B : Rabs (val b - val a) <= bpow radix2 101).
  { change 101%Z with (1 + 100)%Z. rewrite bpow_plus. change (bpow radix2 1) with 2.
    pose proof (Rabs_triang (val b) (- val a)) as T. rewrite Rabs_Ropp in T. unfold Rminus. lra. }
  destruct (fsub_ok b a Fb Fa) as [A1 A2]; [apply fits with 101%Z; [lia | exact B] |].
  split; [exact A2 |]. split; [exact A1 |]. rewrite A1. apply rnd_bound; [lia | exact B].
Qed.
Lemma rnd_above : forall (a : fl) x, val a <= x -> val a <= rnd x.
Proof. intros a x H. apply Rle_trans with (rnd (val a)); [rewrite rnd_val; lra | apply rnd_le; exact H]. Qed.
Lemma rnd_below : forall (a : fl) x, x <= val a -> rnd x <= val a.
Proof. intros a x H. apply Rle_trans with (rnd (val a)); [apply rnd_le; exact H | rewrite rnd_val; lra]. Qed.
(** While the segment lasts the sample is between its ends. *)
Lemma interp_between : forall (a t : fl) d v, value_ok a -> value_ok v -> fin t -> 0 <= val t <= bpow radix2 24 ->
  fin d -> bpow radix2 (-64) <= val d <= bpow radix2 20 -> val t < val d -> between a v (interp a t (seg_new d v)).
Proof.
  intros a t d v Ha Hv Ft Vt Fd Vd Lt. pose proof (ieee_emax (prec := prec) (emax := emax)).
  destruct (frac_ok t d Ft Vt Fd Vd) as (Fp & Pp & P1). specialize (P1 Lt).
  destruct (diff_ok a v Ha Hv) as (Fs & Es & Bs).
  unfold interp, seg_new. cbn [s_recip s_val].
  set (p := fmul t (fdiv fone d)) in *. set (D := fsub v a) in *.
  assert (Q : Rabs (val p * val D) <= bpow radix2 101).
  { rewrite Rabs_mult. rewrite (Rabs_pos_eq (val p)) by lra. pose proof (Rabs_pos (val D)).
    apply Rle_trans with (1 * Rabs (val D)); [apply Rmult_le_compat_r; lra | lra]. }
  destruct (fmul_ok p D Fp Fs) as [A1 A2]; [apply fits with 101%Z; [lia | exact Q] |].
  assert (B : Rmin 0 (val D) <= val (fmul p D) <= Rmax 0 (val D)).
  { rewrite A1. unfold Rmin, Rmax. destruct (Rle_dec 0 (val D)) as [L | L].
    - apply rnd_between; [apply rnd_0 | apply rnd_val |]. split; [apply Rmult_le_pos; lra |].
      apply Rle_trans with (1 * val D); [apply Rmult_le_compat_r; lra | lra].
    - apply rnd_between; [apply rnd_val | apply rnd_0 |]. split.
      + assert (0 <= (1 - val p) * - val D) by (apply Rmult_le_pos; lra). lra.
      + assert (0 <= val p * - val D) by (apply Rmult_le_pos; lra). lra. }
  assert (S0 : Rabs (val a + val (fmul p D)) <= bpow radix2 102).
  { change 102%Z with (1 + 101)%Z. rewrite bpow_plus. change (bpow radix2 1) with 2.
    pose proof (Rabs_triang (val a) (val (fmul p D))). destruct Ha as [_ Ha].
    assert (bpow radix2 100 <= bpow radix2 101) by (apply bpow_le; lia).
    assert (Rabs (val (fmul p D)) <= bpow radix2 101) by (rewrite A1; apply rnd_bound; [lia | exact Q]). lra. }
  destruct (fadd_ok a (fmul p D) (proj1 Ha) A2) as [C1 C2]; [apply fits with 102%Z; [lia | exact S0] |].
  split; [exact C2 |]. rewrite C1. unfold line_end. rewrite <- Es.
  unfold Rmin, Rmax in *.
  destruct (Rle_dec 0 (val D)) as [L | L].
  - assert (M : val a <= rnd (val a + val D)) by (apply rnd_above; lra).
    destruct (Rle_dec (val a) (rnd (val a + val D))) as [L2 | L2]; [| contradiction].
    split; [apply rnd_above; lra | apply rnd_le; lra].
  - assert (M : rnd (val a + val D) <= val a) by (apply rnd_below; lra).
    destruct (Rle_dec (val a) (rnd (val a + val D))) as [L2 | L2].
    + split; [apply Rle_trans with (rnd (val a + val D)); [exact L2 | apply rnd_le; lra] | apply Rle_trans with (val a); [apply rnd_below; lra | exact L2]].
    + split; [apply rnd_le; lra | apply rnd_below; lra].
Qed.
(** At the end of a segment: exactly its value *)
Lemma interp_end : forall (t : fl) d v, value_ok v -> fin t -> 0 <= val t <= bpow radix2 24 ->
  fin d -> bpow radix2 (-64) <= val d <= bpow radix2 20 -> fin (interp v t (seg_new d v)) /\ val (interp v t (seg_new d v)) = val v.
Proof.
  intros t d v Hv Ft Vt Fd Vd. pose proof (ieee_emax (prec := prec) (emax := emax)).
  destruct (frac_ok t d Ft Vt Fd Vd) as (Fp & Pp & _).
  destruct (diff_ok v v Hv Hv) as (Fs & Es & Bs).
  unfold interp, seg_new. cbn [s_recip s_val].
  set (p := fmul t (fdiv fone d)) in *. set (D := fsub v v) in *.
  assert (Z0 : val D = 0) by (rewrite Es, Rminus_diag_eq by reflexivity; apply rnd_0).
  destruct (fmul_ok p D Fp Fs) as [A1 A2].
  { rewrite Z0, Rmult_0_r, rnd_0, Rabs_R0. apply bpow_gt_0. }
  rewrite Z0, Rmult_0_r, rnd_0 in A1.
  destruct (fadd_ok v (fmul p D) (proj1 Hv) A2) as [C1 C2].
  { rewrite A1, Rplus_0_r, rnd_val. apply val_top. }
  split; [exact C2 |]. rewrite C1, A1, Rplus_0_r. apply rnd_val.
Qed.

(** * Histories *)
Definition seg_inv (e : senv) : Prop :=
  segs_ok (s_segs e) /\ value_ok (s_start e) /\ value_ok (s_from e) /\ step_ok (s_step e) /\
  match s_state e with
  | SStopped => True
  | SRunning k t => (k < length (s_segs e))%nat /\ fin t /\ 0 <= val t <= tmax k
  end.
Lemma tmax_le : forall e k, segs_ok (s_segs e) -> (k <= length (s_segs e : list seg))%nat -> tmax k <= bpow radix2 24.
Proof.
  intros e k (_ & L & _) H. unfold tmax. change (bpow radix2 24) with (IZR (2 ^ 24)). apply IZR_le. lia.
Qed.
Lemma rnd_tmax : forall e k, segs_ok (s_segs e) -> (k <= length (s_segs e : list seg))%nat -> rnd (tmax k) = tmax k.
Proof. intros e k (_ & L & _) H. unfold tmax. apply rnd_int. lia. Qed.
Lemma tmax_S : forall k, tmax (S k) = tmax k + 1.
Proof. intros. unfold tmax. rewrite <- plus_IZR. f_equal. lia. Qed.
Lemma tmax_base : forall k, bpow radix2 20 + 1 <= tmax k.
Proof. intros. unfold tmax. change (bpow radix2 20) with (IZR (2 ^ 20)). rewrite <- plus_IZR. apply IZR_le. lia. Qed.

Lemma zero_in_range : forall k, 0 <= val (fzero : fl) <= tmax k.
Proof. intros. change (val (fzero : fl)) with 0. pose proof (tmax_base k). pose proof (bpow_gt_0 radix2 20). lra. Qed.

(** One step of time within a segment *)
Lemma time_in : forall e k (t d : fl), segs_ok (s_segs e) -> (k < length (s_segs e : list seg))%nat -> step_ok (s_step e) ->
  fin t -> 0 <= val t -> val t < val d -> val d <= bpow radix2 20 ->
  fin (fadd t (s_step e)) /\ val (fadd t (s_step e)) = rnd (val t + val (s_step e)) /\ 0 <= val (fadd t (s_step e)) <= tmax k.
Proof.
  intros e k t d Hs Hk [Fs Vs] Ft Pt Lt Ld. pose proof (ieee_emax (prec := prec) (emax := emax)). pose proof (tmax_base k).
  assert (B : 0 <= val t + val (s_step e) <= tmax k) by lra.
  pose proof (tmax_le e k Hs ltac:(lia)).
  destruct (fadd_ok t (s_step e) Ft Fs) as [A1 A2]; [apply fits with 24%Z; [lia | rewrite Rabs_pos_eq; lra] |].
  split; [exact A2 |]. split; [exact A1 |]. rewrite A1.
  apply rnd_between; [apply rnd_0 | apply (rnd_tmax e); [exact Hs | lia] | exact B].
Qed.
(** The step into the next segment *)
Lemma time_over : forall e k (t d : fl), segs_ok (s_segs e) -> (k + 1 < length (s_segs e : list seg))%nat -> step_ok (s_step e) ->
  fin t -> 0 <= val t <= tmax k -> fin d -> 0 < val d -> val d <= val t ->
  fin (fadd (fsub t d) (s_step e)) /\ 0 <= val (fadd (fsub t d) (s_step e)) <= tmax (k + 1).
Proof.
  intros e k t d Hs Hk [Fs Vs] Ft Pt Fd Pd Ld. pose proof (ieee_emax (prec := prec) (emax := emax)).
  pose proof (tmax_le e k Hs ltac:(lia)).
  destruct (fsub_ok t d Ft Fd) as [A1 A2]; [apply fits with 24%Z; [lia | rewrite Rabs_pos_eq; lra] |].
  assert (B1 : 0 <= val (fsub t d) <= tmax k).
  { rewrite A1. apply rnd_between; [apply rnd_0 | apply (rnd_tmax e); [exact Hs | lia] | lra]. }
  pose proof (tmax_le e (k + 1) Hs ltac:(lia)). replace (k + 1)%nat with (S k) in * by lia. pose proof (tmax_S k).
  destruct (fadd_ok (fsub t d) (s_step e) A2 Fs) as [C1 C2]; [apply fits with 24%Z; [lia | rewrite Rabs_pos_eq; lra] |].
  split; [exact C2 |]. rewrite C1. apply rnd_between; [apply rnd_0 | apply (rnd_tmax e); [exact Hs | lia] | lra].
Qed.
Lemma between_fin : forall a b o : fl, between a b o -> fin o. Proof. intros a b o [H _]. exact H. Qed.
Lemma next_ok : forall e, seg_inv e -> exists e' o b, seg_next e = Some (e', o, b) /\ seg_inv e' /\ fin o /\
  s_segs e' = s_segs e /\ s_base e' = s_base e /\ s_scale e' = s_scale e.
Proof.
  intros e (Hs & H0 & Hf & Hp & Hr). unfold seg_next. destruct (s_state e) as [| k t] eqn:S0.
  - exists e, (s_from e), false. split; [reflexivity |]. split; [repeat (split; [assumption |]); rewrite S0; exact Logic.I |].
    split; [apply Hf | repeat split].
  - destruct Hr as (Hk & Ft & Vt). destruct (nth_error (s_segs e) k) as [g |] eqn:G; [| apply nth_error_None in G; lia].
    cbn [bind]. destruct Hs as (L1 & L2 & L3). destruct (L3 g (nth_error_In _ _ G)) as (d & v & -> & Fd & Vd & Hv).
    pose proof (conj L1 (conj L2 L3)) as Hs. cbn [s_dur s_val seg_new]. pose proof (tmax_le e k Hs ltac:(lia)).
    assert (Pd : 0 < val d) by (apply Rlt_le_trans with (2 := proj1 Vd); apply bpow_gt_0).
    destruct (fltb t d) eqn:T.
    + apply fltb_true in T; try assumption.
      destruct (time_in e k t d Hs Hk Hp Ft (proj1 Vt) T (proj2 Vd)) as (A1 & A2 & A3).
      eexists. eexists. eexists. split; [reflexivity |]. split; [repeat (split; [assumption |]); cbn [senv_state s_state]; repeat split; try assumption; apply A3 |].
      split; [| repeat split]. apply (between_fin (s_from e) v). apply interp_between; try assumption. lra.
    + apply fltb_false in T; try assumption. destruct (Nat.ltb_spec (k + 1) (length (s_segs e))) as [N1 | N1].
      * destruct (time_over e k t d Hs N1 Hp Ft Vt Fd Pd T) as (A1 & A2).
        eexists. eexists. eexists. split; [reflexivity |].
        split; [repeat (split; [assumption |]); cbn [senv_state senv_from s_state s_segs]; repeat split; try assumption; apply A2 |].
        split; [| repeat split]. cbn [senv_from s_from]. apply interp_end; try assumption. lra.
      * destruct (s_loop e); (eexists; eexists; eexists; split; [reflexivity |]);
          (split; [repeat (split; [assumption |]); cbn [senv_state senv_from s_state s_segs]; try exact Logic.I | split; [apply Hv | repeat split]]).
        split; [reflexivity | apply zero_in_range].
Qed.
Lemma samples_fin : forall n e, seg_inv e -> exists e' l, seg_samples n e = Some (e', l) /\ seg_inv e' /\ (forall o, In o (map fst l) -> fin o) /\
  s_segs e' = s_segs e /\ s_base e' = s_base e /\ s_scale e' = s_scale e /\ length l = n.
Proof.
  induction n as [| n IH]; intros e He.
  - exists e, []. repeat split; try assumption; try apply He. intros o [].
  - destruct (next_ok e He) as (e1 & o & b & E & H1 & Fo & Q1 & Q2 & Q3). destruct (IH e1 H1) as (e2 & l & E2 & H2 & Fl & Q4 & Q5 & Q6 & Q7).
    exists e2, ((o, b) :: l). cbn [seg_samples]. rewrite E. cbn [bind fst snd]. rewrite E2. cbn [bind fst snd].
    split; [reflexivity |]. split; [exact H2 |]. split; [intros x [<- | H]; [exact Fo | apply Fl; exact H] |].
    rewrite Q4, Q5, Q6. cbn [length]. rewrite Q7. repeat split; assumption.
Qed.
Lemma run_fin : forall ops e, seg_inv e -> ops_ok (s_base e) ops ->
  exists e' l, seg_run e ops = Some (e', l) /\ forall o, In o (map fst l) -> fin o.
Proof.
  induction ops as [| o ops IH]; intros e He Ho; [exists e, []; split; [reflexivity | intros o []] |].
  destruct Ho as [Ho1 Ho2].
  assert (Step : exists e1 l1, seg_step e o = Some (e1, l1) /\ seg_inv e1 /\ s_base e1 = s_base e /\ forall x, In x (map fst l1) -> fin x).
  { pose proof He as (Hs & H0 & Hf & Hp & Hr). destruct o; cbn [seg_step].
    - eexists. exists []. split; [reflexivity |]. split; [| split; [reflexivity | intros ? []]]. repeat (split; [assumption |]). exact Hr.
    - destruct Hs as (L1 & L2 & L3). destruct (Nat.leb_spec (length (s_segs e)) n) as [L | L].
      + destruct (s_segs e) as [| g gs] eqn:G; [cbn in L1; lia |]. rewrite <- G in *.
        eexists. exists []. split; [reflexivity |]. split; [| split; [reflexivity | intros ? []]].
        split; [split; [exact L1 |]; split; assumption |]. repeat (split; [assumption |]). cbn [senv_state s_state s_segs].
        split; [lia |]. split; [reflexivity | apply zero_in_range].
      + eexists. exists []. split; [reflexivity |]. split; [| split; [reflexivity | intros ? []]].
        split; [split; [exact L1 |]; split; assumption |]. repeat (split; [assumption |]). cbn [senv_state s_state s_segs].
        split; [reflexivity | apply zero_in_range].
    - eexists. exists []. split; [reflexivity |]. split; [| split; [reflexivity | intros ? []]].
      repeat (split; [assumption |]). cbn [senv_state senv_from s_state s_segs].
      split; [apply Hs |]. split; [reflexivity | apply zero_in_range].
    - destruct Ho1.
    - destruct (samples_fin n e He) as (e1 & l1 & E & H1 & Fl & _ & Q & _). exists e1, l1. split; [exact E |]. split; [exact H1 |]. split; assumption. }
  destruct Step as (e1 & l1 & E & H1 & Q & F1). rewrite <- Q in Ho2. destruct (IH e1 H1 Ho2) as (e2 & l2 & E2 & F2).
  exists e2, (l1 ++ l2). cbn [seg_run]. rewrite E. cbn [bind fst snd]. rewrite E2. cbn [bind fst snd]. split; [reflexivity |].
  intros x Hx. rewrite map_app in Hx. apply in_app_or in Hx as [Hx | Hx]; [apply F1 | apply F2]; exact Hx.
Qed.

(** * Through the breakpoints *)
Definition fast_enough (e : senv) : Prop :=
  forall g, In g (s_segs e) -> bpow radix2 (1 - prec) * val (s_dur g) <= val (s_step e).
Definition vals (e : senv) : list fl := map s_val (s_segs e).
Lemma progress : forall (t d s : fl), (prec + 65 <= emax)%Z -> fin t -> 0 <= val t -> val t < val d -> bpow radix2 (-64) <= val d -> step_ok s ->
  bpow radix2 (1 - prec) * val d <= val s -> 0 < val s /\ val t + val s / 4 <= rnd (val t + val s).
Proof.
  intros t d s Wide Ft Pt Lt Bd [Fs Vs] F.
  pose proof (ieee_prec (prec := prec) (emax := emax)).
  assert (Pd : 0 < val d) by (apply Rlt_le_trans with (2 := Bd); apply bpow_gt_0).
  assert (E2 : bpow radix2 (1 - prec) = 2 * bpow radix2 (- prec)) by (replace (1 - prec)%Z with (1 + - prec)%Z by lia; rewrite bpow_plus; reflexivity).
  pose proof (bpow_gt_0 radix2 (- prec)) as Ep.
  assert (Em : bpow radix2 (- prec) <= / 8).
  { change (/ 8) with (bpow radix2 (-3)). apply bpow_le. lia. }
  assert (Ps : 0 < val s).
  { apply Rlt_le_trans with (2 := F). rewrite E2. apply Rmult_lt_0_compat; lra. }
  split; [exact Ps |].
  assert (L : bpow radix2 (2 - emax) <= val t + val s).
  { apply Rle_trans with (val s); [| lra]. apply Rle_trans with (2 := F).
    apply Rle_trans with (bpow radix2 (1 - prec) * bpow radix2 (-64)); [rewrite <- bpow_plus; apply bpow_le; lia |].
    apply Rmult_le_compat_l; [apply bpow_ge_0 | exact Bd]. }
  pose proof (rel_error (val t + val s)) as R. rewrite Rabs_pos_eq in R by lra. specialize (R L). apply Rabs_le_inv in R.
  rewrite E2 in F.
  assert (bpow radix2 (- prec) * val t <= bpow radix2 (- prec) * val d) by (apply Rmult_le_compat_l; lra).
  assert (bpow radix2 (- prec) * val s <= / 8 * val s) by (apply Rmult_le_compat_r; lra). lra.
Qed.
Definition const (e : senv) : senv -> Prop := fun e' =>
  s_segs e' = s_segs e /\ s_start e' = s_start e /\ s_scale e' = s_scale e /\ s_base e' = s_base e /\ s_loop e' = s_loop e.
(** The rest of a segment: finitely many samples between its ends, then the end of the segment *)
Lemma segment : forall N0 e k t g, (prec + 65 <= emax)%Z -> seg_inv e -> fast_enough e -> s_state e = SRunning k t -> nth_error (s_segs e) k = Some g ->
  val (s_dur g) - val t <= INR N0 * (val (s_step e) / 4) ->
  exists n t' l, seg_samples n e = Some (senv_state (SRunning k t') e, l) /\ map snd l = repeat false n /\
    Forall (between (s_from e) (s_val g)) (map fst l) /\
    seg_inv (senv_state (SRunning k t') e) /\ fltb t' (s_dur g) = false.
Proof.
  induction N0 as [| N0 IH]; intros e k t g Wide He Hf S0 G Hb; pose proof He as (Hs & H0 & Hv0 & Hp & Hr); rewrite S0 in Hr;
    destruct Hr as (Hk & Ft & Vt); pose proof Hs as (L1 & L2 & L3);
    destruct (L3 g (nth_error_In _ _ G)) as (d & v & Eg & Fd & Vd & Hv);
    assert (Qe : senv_state (SRunning k t) e = e) by (rewrite <- S0; destruct e; reflexivity).
  - exists 0%nat, t, []. rewrite Qe. split; [reflexivity |]. split; [reflexivity |]. split; [constructor |]. split; [exact He |].
    cbn in Hb. subst g. cbn [seg_new s_dur] in *. rewrite fltb_ok by assumption. apply Rlt_bool_false. lra.
  - destruct (fltb t (s_dur g)) eqn:T.
    + assert (T' := T). subst g. cbn [seg_new s_dur] in *. apply fltb_true in T; try assumption.
      destruct (time_in e k t d Hs Hk Hp Ft (proj1 Vt) T (proj2 Vd)) as (A1 & A2 & A3).
      destruct (progress t d (s_step e) Wide Ft (proj1 Vt) T (proj1 Vd) Hp) as [P1 P2].
      { apply (Hf (seg_new d v)). apply (nth_error_In _ _ G). }
      set (e1 := senv_state (SRunning k (fadd t (s_step e))) e).
      assert (He1 : seg_inv e1) by (repeat (split; [assumption |]); cbn [e1 senv_state s_state]; repeat split; assumption || apply A3).
      destruct (IH e1 k (fadd t (s_step e)) (seg_new d v) Wide He1) as (n & t' & l & B1 & B2 & B3 & B4 & B5); try assumption; try reflexivity.
      { cbn [seg_new s_dur]. change (s_step e1) with (s_step e). rewrite A2. rewrite S_INR in Hb. lra. }
      exists (S n), t', ((interp (s_from e) t (seg_new d v), false) :: l). split.
      { cbn [seg_samples]. unfold seg_next. rewrite S0, G. cbn [bind s_dur seg_new]. rewrite T'. cbn [bind fst snd].
        fold e1. rewrite B1. reflexivity. }
      split; [cbn [map snd repeat]; rewrite B2; reflexivity |].
      split; [| split; assumption].
      cbn [map fst]. constructor; [| exact B3]. pose proof (tmax_le e k Hs ltac:(lia)). apply interp_between; try assumption. lra.
    + exists 0%nat, t, []. rewrite Qe. split; [reflexivity |]. split; [reflexivity |]. split; [constructor |]. split; [exact He | exact T].
Qed.
Lemma segment' : forall e k t g, (prec + 65 <= emax)%Z -> seg_inv e -> fast_enough e -> s_state e = SRunning k t -> nth_error (s_segs e) k = Some g ->
  exists n t' l, seg_samples n e = Some (senv_state (SRunning k t') e, l) /\ map snd l = repeat false n /\
    Forall (between (s_from e) (s_val g)) (map fst l) /\
    seg_inv (senv_state (SRunning k t') e) /\ fltb t' (s_dur g) = false.
Proof.
  intros e k t g Wide He Hf S0 G.
  assert (P : 0 < val (s_step e)).
  { pose proof He as ((L1 & L2 & L3) & _). destruct (L3 g (nth_error_In _ _ G)) as (d & v & Eg & Fd & Vd & Hv).
    apply Rlt_le_trans with (2 := Hf g (nth_error_In _ _ G)). apply Rmult_lt_0_compat; [apply bpow_gt_0 |]. subst g. cbn [seg_new s_dur].
    apply Rlt_le_trans with (2 := proj1 Vd). apply bpow_gt_0. }
  set (x := (val (s_dur g) - val t) / (val (s_step e) / 4)). destruct (archimed x) as [Q _].
  apply (segment (Z.to_nat (up x)) e k t g); try assumption.
  assert (Y : val (s_dur g) - val t = x * (val (s_step e) / 4)) by (unfold x; field; lra).
  rewrite Y. apply Rmult_le_compat_r; [lra |]. rewrite INR_IZR_INZ. destruct (Z.le_ge_cases 0 (up x)) as [C | C].
  - rewrite Z2Nat.id by exact C. lra.
  - replace (Z.to_nat (up x)) with 0%nat by lia. cbn. apply IZR_le in C. lra.
Qed.
Lemma seg_samples_app : forall n m (e : senv), seg_samples (n + m) e =
  (r <- seg_samples n e;; r2 <- seg_samples m (fst r);; Some (fst r2, snd r ++ snd r2)).
Proof.
  induction n as [| n IH]; intros m e; cbn [Nat.add seg_samples bind fst snd app].
  - destruct (seg_samples m e) as [[? ?] |]; reflexivity.
  - destruct (seg_next e) as [[[e1 o] b] |]; [| reflexivity]. cbn [bind fst snd]. rewrite IH.
    destruct (seg_samples n e1) as [[e2 l] |]; [| reflexivity]. cbn [bind fst snd].
    destruct (seg_samples m e2) as [[e3 l2] |]; reflexivity.
Qed.
Lemma skipn_nth : forall {A} k (l : list A) x, nth_error l k = Some x -> skipn k l = x :: skipn (S k) l.
Proof. intros A. induction k as [| k IH]; intros [| y l] x H; try discriminate H; [injection H as ->; reflexivity | apply IH; exact H]. Qed.
Lemma through : forall m e k t, (prec + 65 <= emax)%Z -> seg_inv e -> fast_enough e -> s_loop e = false -> s_state e = SRunning k t ->
  (k + m = length (s_segs e))%nat -> exists n e' l, seg_samples n e = Some (e', l) /\ seg_inv e' /\
    map snd l = repeat false (n - 1) ++ [true] /\ passes (s_from e) (skipn k (vals e)) (map fst l) /\
    s_state e' = SStopped /\ nth_error (vals e) (length (s_segs e) - 1) = Some (s_from e').
Proof.
  induction m as [| m IH]; intros e k t Wide He Hf Hl S0 Hm; pose proof He as (Hs & H0 & Hv0 & Hp & Hr); rewrite S0 in Hr;
    destruct Hr as (Hk & Ft & Vt); pose proof Hs as (L1 & L2 & L3); [lia |].
  destruct (nth_error (s_segs e) k) as [g |] eqn:G; [| apply nth_error_None in G; lia].
  destruct (segment' e k t g Wide He Hf S0 G) as (n & t' & l & B1 & B2 & B3 & B4 & B5).
  destruct (L3 g (nth_error_In _ _ G)) as (d & v & Eg & Fd & Vd & Hv).
  set (e1 := senv_state (SRunning k t') e) in *.
  pose proof B4 as (_ & _ & _ & _ & Br). cbn [e1 senv_state s_state s_segs] in Br. destruct Br as (_ & Ft' & Vt').
  assert (Gv : nth_error (vals e) k = Some v) by (unfold vals; rewrite nth_error_map, G; subst g; reflexivity).
  assert (B5' := B5). subst g. cbn [seg_new s_dur] in B5'. apply fltb_false in B5'; try assumption.
  destruct m as [| m].
  - (* last *)
    set (e2 := senv_state SStopped (senv_from v e1)).
    assert (E2 : seg_next e1 = Some (e2, v, true)).
    { unfold seg_next. cbn [e1 senv_state s_state s_segs]. rewrite G. cbn [bind s_dur s_val seg_new]. cbn [s_dur seg_new] in B5. rewrite B5.
      replace (k + 1 <? length (s_segs e))%nat with false by (symmetry; apply Nat.ltb_ge; lia). change (s_loop e1) with (s_loop e). rewrite Hl. reflexivity. }
    exists (n + 1)%nat, e2, (l ++ [(v, true)]). split.
    { rewrite seg_samples_app, B1. cbn [bind fst snd seg_samples]. rewrite E2. reflexivity. }
    split; [repeat (split; [assumption |]); exact Logic.I |].
    split; [rewrite map_app, B2; f_equal; f_equal; lia |].
    split; [| split; [reflexivity |]].
    + rewrite (skipn_nth k (vals e) v Gv), map_app.
      apply passes_seg; [exact B3 | split; [apply Hv | reflexivity] |].
      rewrite skipn_all2 by (unfold vals; rewrite map_length; lia). apply passes_end.
    + cbn [e2 senv_state senv_from s_from]. rewrite <- Gv. f_equal. lia.
  - set (e2 := senv_state (SRunning (k + 1) (fadd (fsub t' d) (s_step e1))) (senv_from v e1)).
    assert (E2 : seg_next e1 = Some (e2, interp v t' (seg_new d v), false)).
    { unfold seg_next. cbn [e1 senv_state s_state s_segs]. rewrite G. cbn [bind s_dur s_val seg_new]. cbn [s_dur seg_new] in B5. rewrite B5.
      replace (k + 1 <? length (s_segs e))%nat with true by (symmetry; apply Nat.ltb_lt; lia). reflexivity. }
    assert (Pd : 0 < val d) by (apply Rlt_le_trans with (2 := proj1 Vd); apply bpow_gt_0).
    destruct (time_over e k t' d Hs ltac:(lia) Hp Ft' Vt' Fd Pd B5') as (A1 & A2).
    assert (He2 : seg_inv e2).
    { repeat (split; [assumption |]). cbn [e2 senv_state senv_from e1 s_state s_segs]. split; [lia |]. split; [exact A1 | exact A2]. }
    destruct (IH e2 (k + 1)%nat (fadd (fsub t' d) (s_step e1))) as (n2 & e3 & l2 & C1 & C2 & C3 & C4 & C5 & C6); try assumption; try reflexivity.
    { cbn [e2 senv_state senv_from e1 s_segs]. lia. }
    exists (n + S n2)%nat, e3, (l ++ (interp v t' (seg_new d v), false) :: l2). split.
    { rewrite seg_samples_app, B1. cbn [bind fst snd seg_samples]. rewrite E2. cbn [bind fst snd]. rewrite C1. reflexivity. }
    split; [exact C2 |]. split.
    { assert (N2 : (0 < n2)%nat). { destruct n2; [| lia]. cbn [seg_samples] in C1. injection C1 as <- <-. cbn in C3. discriminate C3. }
      rewrite map_app. cbn [map snd]. rewrite B2, C3. rewrite app_comm_cons. change (false :: repeat false (n2 - 1)) with (repeat false (S (n2 - 1))).
      rewrite app_assoc, <- repeat_app. f_equal. f_equal. lia. }
    split; [| split; assumption].
    rewrite (skipn_nth k (vals e) v Gv), map_app. cbn [map fst].
    apply passes_seg; [exact B3 | | replace (S k) with (k + 1)%nat by lia; exact C4].
    pose proof (tmax_le e k Hs ltac:(lia)). apply interp_end; try assumption. lra.
Qed.
Lemma stopped_for_ever : forall n (e : senv), s_state e = SStopped -> seg_samples n e = Some (e, repeat (s_from e, false) n).
Proof.
  induction n as [| n IH]; intros e H; [reflexivity |]. cbn [seg_samples]. unfold seg_next. rewrite H. cbn [bind fst snd]. rewrite (IH e H). reflexivity.
Qed.
End Proofs.
