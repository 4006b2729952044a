(** How long a multi-segment envelope takes. *)
From Coq Require Import Reals Lra.
From Flocq Require Import Core BinarySingleNaN.
From Verif Require Import Base FloatBase FloatMore BufferProofs SegModel SegSpec SegTimeSpec.
Local Open Scope R_scope.
Local Notation env := (senv 53 1024).

Lemma total_app : forall l m, total (l ++ m) = total l + total m.
Proof. induction l as [| g l IH]; intros m; unfold total in *; cbn [app fold_right]; [lra |]. rewrite IH. lra. Qed.
Lemma total_next : forall k l g, nth_error l k = Some g -> total (firstn (k + 1) l) = total (firstn k l) + val (s_dur g).
Proof.
  induction k as [| k IH]; intros [| x l] g H; try discriminate H.
  - injection H as ->. unfold total. cbn. lra.
  - cbn [Nat.add firstn]. cbn in H. specialize (IH l g H). unfold total in *. cbn [fold_right]. rewrite IH. lra.
Qed.

Lemma rnd_nonneg : forall x, 0 <= x -> 0 <= rnd x.
Proof. intros x H. rewrite <- (rnd_0 (prec := 53) (emax := 1024)). apply rnd_le. exact H. Qed.

Section Time.
Variables (kk : Z) (h : R).
Hypothesis k_ok : (0 <= kk <= 100)%Z.
Let e0 := bpow radix2 (kk - 53).
Hypothesis h_pos : 0 <= h.
Definition timed (e : env) (k : nat) (t : f64) : Prop :=
  s_state e = SRunning k t /\ s_loop e = false /\ fin (s_step e) /\ val (s_step e) = h /\ fin t /\ 0 <= val t /\
  (forall g, In g (s_segs e) -> fin (s_dur g) /\ h + 2 * e0 <= val (s_dur g) < bpow radix2 kk) /\
  exists g, nth_error (s_segs e) k = Some g /\ val t <= val (s_dur g) + h + 2 * e0.
Lemma e0_pos : 0 < e0. Proof. apply bpow_gt_0. Qed.
Lemma sum_err : forall x y : f64, fin x -> fin y -> 0 <= val x + val y < 2 * bpow radix2 kk ->
  fin (fadd x y) /\ val x + val y - e0 <= val (fadd x y) <= val x + val y + e0.
Proof using k_ok.
  clear h_pos. intros x y Fx Fy H. assert (B : bpow radix2 (kk + 1) = 2 * bpow radix2 kk) by (replace (kk + 1)%Z with (1 + kk)%Z by lia; rewrite bpow_plus; reflexivity).
  destruct (fadd_ok x y Fx Fy) as [V F]; [apply fits with (kk + 1)%Z; [lia |]; rewrite Rabs_pos_eq; lra |].
  split; [exact F |]. rewrite V. pose proof (rnd_error (val x + val y) (kk + 1) ltac:(lia) ltac:(lra)) as E.
  replace (kk + 1 - 54)%Z with (kk - 53)%Z in E by lia. fold e0 in E. apply Rabs_le_inv in E. lra.
Qed.
Lemma diff_err : forall x y : f64, fin x -> fin y -> 0 <= val x - val y < 2 * bpow radix2 kk ->
  fin (fsub x y) /\ 0 <= val (fsub x y) /\ val x - val y - e0 <= val (fsub x y) <= val x - val y + e0.
Proof using k_ok.
  clear h_pos. intros x y Fx Fy H. assert (B : bpow radix2 (kk + 1) = 2 * bpow radix2 kk) by (replace (kk + 1)%Z with (1 + kk)%Z by lia; rewrite bpow_plus; reflexivity).
  destruct (fsub_ok x y Fx Fy) as [V F]; [apply fits with (kk + 1)%Z; [lia |]; rewrite Rabs_pos_eq; lra |].
  split; [exact F |]. rewrite V. split; [apply rnd_nonneg; lra |]. pose proof (rnd_error (val x - val y) (kk + 1) ltac:(lia) ltac:(lra)) as E.
  replace (kk + 1 - 54)%Z with (kk - 53)%Z in E by lia. fold e0 in E. apply Rabs_le_inv in E. lra.
Qed.
(** One sample: the end is reported, or the time moves on *)
Lemma timed_next : forall e k t e' o b, timed e k t -> seg_next e = Some (e', o, b) ->
  let p := total (firstn k (s_segs e)) + val t in
  if b then total (s_segs e) <= p <= total (s_segs e) + h + 2 * e0
  else exists k' t', timed e' k' t' /\ s_segs e' = s_segs e /\
    let p' := total (firstn k' (s_segs e)) + val t' in p + h - 2 * e0 <= p' <= p + h + 2 * e0.
Proof using k_ok h_pos.
  intros e k t e' o b (S0 & Lo & Fs & Vs & Ft & Pt & Hg & g & G & Ub) E p. pose proof e0_pos as E0.
  destruct (Hg g (nth_error_In _ _ G)) as [Fd Vd].
  unfold seg_next in E. rewrite S0, G in E. cbn [bind] in E. rewrite fltb_ok in E by assumption.
  destruct (Rlt_bool_spec (val t) (val (s_dur g))) as [L | L].
  - injection E as <- <- <-. destruct (sum_err t (s_step e) Ft Fs) as [Fa Va]; [rewrite Vs; lra |]. rewrite Vs in Va.
    exists k, (fadd t (s_step e)). split; [| split; [reflexivity | unfold p; cbv zeta; lra]].
    assert (P : 0 <= val (fadd t (s_step e))).
    { destruct (fadd_ok t (s_step e) Ft Fs) as [V _]; [| rewrite V, Vs; apply rnd_nonneg; lra].
      rewrite Vs. apply fits with (kk + 1)%Z; [lia |]. replace (kk + 1)%Z with (1 + kk)%Z by lia. rewrite bpow_plus. change (bpow radix2 1) with 2. rewrite Rabs_pos_eq; lra. }
    unfold timed. cbn [senv_state s_state s_loop s_segs]. change (s_step (senv_state (SRunning k (fadd t (s_step e))) e)) with (s_step e).
    repeat (split; [first [reflexivity | assumption] |]). exists g. split; [exact G | lra].
  - destruct (Nat.ltb_spec (k + 1) (length (s_segs e))) as [N1 | N1].
    + injection E as <- <- <-. destruct (diff_err t (s_dur g) Ft Fd) as (F1 & P1 & V1); [lra |].
      destruct (nth_error (s_segs e) (k + 1)) as [g' |] eqn:G'; [| apply nth_error_None in G'; lia].
      destruct (Hg g' (nth_error_In _ _ G')) as [Fd' Vd'].
      destruct (sum_err (fsub t (s_dur g)) (s_step e) F1 Fs) as [Fa Va]; [rewrite Vs; pose proof (bpow_gt_0 radix2 kk);
        assert (e0 <= / 8 * bpow radix2 kk) by (unfold e0; change (/ 8) with (bpow radix2 (-3)); rewrite <- bpow_plus; apply bpow_le; lia); lra |].
      rewrite Vs in Va.
      exists (k + 1)%nat, (fadd (fsub t (s_dur g)) (s_step e)). split; [| split; [reflexivity | unfold p; cbv zeta; rewrite (total_next k _ g G); lra]].
      assert (P : 0 <= val (fadd (fsub t (s_dur g)) (s_step e))).
      { destruct (fadd_ok (fsub t (s_dur g)) (s_step e) F1 Fs) as [V _]; [| rewrite V, Vs; apply rnd_nonneg; lra].
        rewrite Vs. apply fits with (kk + 1)%Z; [lia |]. replace (kk + 1)%Z with (1 + kk)%Z by lia. rewrite bpow_plus. change (bpow radix2 1) with 2.
        assert (e0 <= / 8 * bpow radix2 kk) by (unfold e0; change (/ 8) with (bpow radix2 (-3)); rewrite <- bpow_plus; apply bpow_le; lia). rewrite Rabs_pos_eq; lra. }
      unfold timed. cbn [senv_state senv_from s_state s_loop s_segs].
      change (s_step (senv_state (SRunning (k + 1) (fadd (fsub t (s_dur g)) (s_step e))) (senv_from (s_val g) e))) with (s_step e).
      repeat (split; [first [reflexivity | assumption] |]). exists g'. split; [exact G' | lra].
    + rewrite Lo in E. injection E as <- <- <-. assert (Lk : (k < length (s_segs e))%nat) by (apply nth_error_Some; rewrite G; discriminate).
      assert (T : total (s_segs e) = total (firstn k (s_segs e)) + val (s_dur g)) by (rewrite <- (total_next k _ g G), firstn_all2 by lia; reflexivity).
      unfold p. lra.
Qed.
Lemma timing : forall m e k t e' l, timed e k t -> seg_samples (m + 1) e = Some (e', l) -> map snd l = repeat false m ++ [true] ->
  let rest := total (s_segs e) - (total (firstn k (s_segs e)) + val t) in
  rest <= INR m * (h + 2 * e0) /\ INR m * (h - 2 * e0) <= rest + h + 2 * e0.
Proof using k_ok h_pos.
  induction m as [| m IH]; intros e k t e' l Ht E Em rest; cbn [Nat.add seg_samples] in E;
    destruct (seg_next e) as [[[e1 o] b] |] eqn:N1; try discriminate E; cbn [bind fst snd] in E; pose proof (timed_next e k t e1 o b Ht N1) as T; cbv zeta in T.
  - injection E as <- <-. cbn [map snd repeat app] in Em. injection Em as ->. unfold rest. cbn [INR]. lra.
  - destruct (seg_samples (m + 1) e1) as [[e2 l2] |] eqn:E2; [| discriminate E]. cbn [bind fst snd] in E. injection E as <- <-.
    cbn [map snd repeat app] in Em. injection Em as -> Em. destruct T as (k' & t' & T1 & T2 & T3).
    destruct (IH e1 k' t' e2 l2 T1 E2 Em) as [A B]. rewrite T2 in A, B. rewrite S_INR. unfold rest. lra.
Qed.
End Time.

Lemma next_const : forall (e e' : env) o b, seg_next e = Some (e', o, b) -> s_segs e' = s_segs e /\ s_base e' = s_base e /\ s_loop e' = s_loop e.
Proof.
  intros e e' o b E. unfold seg_next in E. destruct (s_state e) as [| k t]; [injection E as <- <- <-; repeat split |].
  destruct (nth_error (s_segs e) k) as [g |]; [| discriminate E]. cbn [bind] in E.
  destruct (fltb t (s_dur g)); [injection E as <- <- <-; repeat split |].
  destruct (k + 1 <? length (s_segs e))%nat; [injection E as <- <- <-; repeat split |].
  destruct (s_loop e) eqn:Lo; injection E as <- <- <-; repeat split; exact Lo.
Qed.
Lemma samples_const : forall n (e e' : env) l, seg_samples n e = Some (e', l) -> s_segs e' = s_segs e /\ s_base e' = s_base e /\ s_loop e' = s_loop e.
Proof.
  induction n as [| n IH]; intros e e' l E; cbn [seg_samples] in E; [injection E as <- <-; repeat split |].
  destruct (seg_next e) as [[[e1 o] b] |] eqn:N1; [| discriminate E]. cbn [bind fst snd] in E.
  destruct (seg_samples n e1) as [[e2 l2] |] eqn:E2; [| discriminate E]. cbn [bind fst snd] in E. injection E as <- <-.
  destruct (next_const _ _ _ _ N1) as (A & B & C). destruct (IH _ _ _ E2) as (A' & B' & C'). rewrite A', B', C'. repeat split; assumption.
Qed.
Lemma step_const : forall (e e' : env) o l, seg_step e o = Some (e', l) -> s_segs e' = s_segs e /\ s_base e' = s_base e /\ s_loop e' = s_loop e.
Proof.
  intros e e' o l E. destruct o; cbn [seg_step] in E.
  - injection E as <- <-. repeat split.
  - destruct (length (s_segs e) <=? n)%nat; [destruct (s_segs e) eqn:Q; [discriminate E |]; rewrite <- Q in * |]; injection E as <- <-; repeat split.
  - injection E as <- <-. repeat split.
  - destruct (s_state e); [injection E as <- <-; repeat split |]. destruct (nth_error (s_segs e) k); [| discriminate E]. cbn [bind] in E. injection E as <- <-. repeat split.
  - exact (samples_const _ _ _ _ E).
Qed.
Lemma run_const : forall ops (e e' : env) l, seg_run e ops = Some (e', l) -> s_segs e' = s_segs e /\ s_base e' = s_base e /\ s_loop e' = s_loop e.
Proof.
  induction ops as [| o ops IH]; intros e e' l E; cbn [seg_run] in E; [injection E as <- <-; repeat split |].
  destruct (seg_step e o) as [[e1 l1] |] eqn:N1; [| discriminate E]. cbn [bind fst snd] in E.
  destruct (seg_run e1 ops) as [[e2 l2] |] eqn:E2; [| discriminate E]. cbn [bind fst snd] in E. injection E as <- <-.
  destruct (step_const _ _ _ _ N1) as (A & B & C). destruct (IH _ _ _ E2) as (A' & B' & C'). rewrite A', B', C'. repeat split; assumption.
Qed.

Lemma duration : forall sr (start : f64) segs ops e l0 (x : f64) (kk : Z) m e' l,
  let h := fmul x (fdiv fone (fz (Z.of_N sr))) : f64 in let err := bpow radix2 (kk - 52) in
  seg_run (senv_init sr (senv_new start segs false)) ops = Some (e, l0) ->
  (0 <= kk <= 100)%Z -> fin h -> 0 <= val h -> segs <> [] -> (forall g, In g segs -> fin (s_dur g) /\ val h + err <= val (s_dur g) < bpow radix2 kk) ->
  seg_run e [STimeScale x; SRestart; SBlock (m + 1)] = Some (e', l) -> map snd l = repeat false m ++ [true] ->
  total segs <= INR m * (val h + err) /\ INR m * (val h - err) <= total segs + val h + err.
Proof.
  intros sr start segs ops e l0 x kk m e' l h err E0 Hk Fh Ph Hn Hs E Em.
  assert (Er : err = 2 * bpow radix2 (kk - 53)) by (unfold err; replace (kk - 52)%Z with (1 + (kk - 53))%Z by lia; rewrite bpow_plus; reflexivity).
  destruct (run_const _ _ _ _ E0) as (A & B & C). cbn [senv_init senv_new s_segs s_base s_loop] in A, B, C.
  cbn [seg_run seg_step bind fst snd app] in E.
  match type of E with context [seg_samples (m + 1) ?z] => set (e1 := z) in * end.
  destruct (seg_samples (m + 1) e1) as [[e2 l2] |] eqn:E2; [| discriminate E]. cbn [bind fst snd app] in E. injection E as <- <-. rewrite app_nil_r in Em.
  assert (T : timed kk (val h) e1 0 fzero).
  { unfold timed. assert (S1 : s_step e1 = h) by (unfold e1, s_step, h; cbn [senv_from senv_state s_scale s_base]; rewrite B; reflexivity).
    assert (S2 : s_segs e1 = segs) by exact A.
    rewrite S1, S2. split; [reflexivity |]. split; [exact C |]. split; [exact Fh |]. split; [reflexivity |]. split; [reflexivity |]. split; [change (val (fzero : f64)) with 0; lra |].
    rewrite <- Er. split; [exact Hs |]. destruct segs as [| g segs]; [contradiction Hn; reflexivity |]. exists g. split; [reflexivity |].
    change (val (fzero : f64)) with 0. destruct (Hs g (or_introl eq_refl)) as [_ V]. assert (0 < err) by apply bpow_gt_0. lra. }
  pose proof (timing kk (val h) Hk Ph m e1 0 fzero e2 l2 T E2 Em) as R. cbv zeta in R. rewrite <- Er in R.
  assert (S2 : s_segs e1 = segs) by exact A. rewrite S2 in R. cbn [firstn] in R. change (total []) with 0 in R. change (val (fzero : f64)) with 0 in R. lra.
Qed.
