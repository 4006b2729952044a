(** C79 with rounding: the one-pole filters in floating-point arithmetic *)
From Coq Require Import Reals Lra Psatz.
From Flocq Require Import Core BinarySingleNaN.
From Coquelicot Require Import Complex.
From Verif Require Import Base FloatBase FloatMore NoiseModel NoiseMore PoleModel PoleSpec PoleProofs PoleProps PoleFloatSpec PoleFloatProofs SvfRespSpec.
Local Open Scope R_scope.

Lemma exact_set : forall {prec emax : Z} {I : ieee prec emax} (s : op (binary_float prec emax)) rate, 0 < rate -> 0 < val (o_b1 s) < 1 ->
  0 < cutoff_of rate (val (o_b1 s)) /\ set_to (cutoff_of rate (val (o_b1 s))) rate (exact s).
Proof.
  intros prec emax I s rate Hr Hb. pose proof PI_RGT_0. assert (L : ln (val (o_b1 s)) < 0) by (rewrite <- ln_1; apply ln_increasing; lra).
  split; [apply Rdiv_lt_0_compat; [nra | lra] |]. split; [exact Hr |]. exists (mk_op (val (o_last s)) 0 0). unfold set_freq, op_coeff, exact, cutoff_of. cbn [RZops z_sub z_one z_exp z_mul z_m2pi z_div o_last].
  replace (-2 * PI * (- ln (val (o_b1 s)) * rate / (2 * PI) / rate)) with (ln (val (o_b1 s))) by (field; lra). rewrite exp_ln by lra. reflexivity.
Qed.
(** The filters in floating point stay close to the exact filters with the same coefficient, for any input and any number of samples, in
    any IEEE format.  2^k is a bound of the input and of the sample in memory. *)
Theorem C79_rounding : forall prec emax (I : ieee prec emax) m2pi fexp c sr s0 x k,
  let O := fpole_ops m2pi fexp in let s := set_freq O c sr s0 in let b := val (o_b1 s) in
  (0 <= k <= 100)%Z -> fin (o_b1 s) -> 0 < b < 1 -> sized k (o_last s0) -> (forall n, sized k (x n)) ->
  (forall rate, 0 < rate -> 0 < cutoff_of rate b /\ set_to (cutoff_of rate b) rate (exact s)) /\
  forall n, sized k (f_heard O LowPass s x n) /\ fin (f_heard O HighPass s x n) /\
    Rabs (val (f_heard O LowPass s x n) - heard LowPass (exact s) (fun i => val (x i)) n) <= 4 * bpow radix2 (k - prec) / (1 - b) /\
    Rabs (val (f_heard O HighPass s x n) - heard HighPass (exact s) (fun i => val (x i)) n) <= 4 * bpow radix2 (k - prec) / (1 - b) + bpow radix2 (k + 1 - prec).
Proof.
  intros prec emax I m2pi fexp c sr s0 x k O s b Hk Fb Vb Hl Hx. split; [intros rate Hr; apply exact_set; [exact Hr | exact Vb] |].
  assert (T : tuned s) by (split; [exact Fb |]; split; [exact Vb | reflexivity]). assert (Hl' : sized k (o_last s)) by exact Hl.
  pose proof (ieee_emax (prec := prec) (emax := emax)) as He.
  intros n. pose proof (fed_error m2pi fexp k s x (S n) Hk T Hl' Hx) as E. pose proof (fed_sized m2pi fexp k s x (S n) Hk T Hl' Hx) as Z. fold O in E, Z.
  rewrite <- f_low_heard in E, Z. rewrite <- low_heard in E. split; [exact Z |].
  destruct Z as [Fy Vy]. destruct (Hx n) as [Fx Vx].
  assert (K1 : bpow radix2 (k + 1) = 2 * bpow radix2 k) by (rewrite bpow_plus; change (bpow radix2 1) with 2; ring).
  assert (K2 : bpow radix2 (k + 1 + 1) = 4 * bpow radix2 k) by (rewrite !bpow_plus; change (bpow radix2 1) with 2; ring).
  pose proof (bpow_gt_0 radix2 k) as Pk.
  assert (D : Rabs (val (x n) - val (f_heard O LowPass s x n)) <= bpow radix2 (k + 1)) by (apply Rabs_le_inv in Vx, Vy; apply Rabs_le; lra).
  destruct (fsub_ok (x n) (f_heard O LowPass s x n) Fx Fy) as [A1 A2]; [apply fits with (k + 1)%Z; [lia | exact D] |].
  rewrite (f_high_heard O). change (z_sub O) with (@fsub prec emax I). split; [exact A2 |]. split; [exact E |].
  rewrite high_heard, A1. pose proof (rnd_err (k + 1) (val (x n) - val (f_heard O LowPass s x n)) ltac:(lia) ltac:(lra)) as E2.
  fold b in E. apply Rabs_le_inv in E, E2. apply Rabs_le. lra.
Qed.
Print Assumptions C79_rounding.

(** Exact filters with inputs that differ by at most [d] *)
Lemma fed_close : forall (s : op R) x y d n, 0 < o_b1 s < 1 -> o_a0 s = 1 - o_b1 s -> 0 <= d -> (forall i, Rabs (x i - y i) <= d) ->
  Rabs (o_last (fed LowPass s x n) - o_last (fed LowPass s y n)) <= d.
Proof.
  intros s x y d n Hb Ha Hd H. induction n as [| n IH]; [cbn; rewrite Rminus_diag_eq, Rabs_R0 by reflexivity; exact Hd |].
  rewrite !fed_last, Ha. specialize (H n). set (p := o_last (fed LowPass s x n)) in *. set (q := o_last (fed LowPass s y n)) in *.
  assert (A : Rabs ((x n - y n) * (1 - o_b1 s)) <= d * (1 - o_b1 s)) by (rewrite Rabs_mult, (Rabs_pos_eq (1 - o_b1 s)) by lra; apply Rmult_le_compat_r; lra).
  assert (B : Rabs ((p - q) * o_b1 s) <= d * o_b1 s) by (rewrite Rabs_mult, (Rabs_pos_eq (o_b1 s)) by lra; apply Rmult_le_compat_r; lra).
  apply Rabs_le_inv in A, B. apply Rabs_le. lra.
Qed.
(** So sinusoids (rounded, within [d]) come out with the power of C79_low and C79_high, up to the rounding. *)
Theorem C79_rounded_sinusoid : forall prec emax (I : ieee prec emax) m2pi fexp c sr s0 x k rate f a phi d e,
  let O := fpole_ops m2pi fexp in let s := set_freq O c sr s0 in let b := val (o_b1 s) in let w := per_sample (cutoff_of rate b) rate in
  (0 <= k <= 100)%Z -> fin (o_b1 s) -> 0 < b < 1 -> sized k (o_last s0) -> (forall n, sized k (x n)) -> 0 < rate -> 0 < e ->
  (forall n, Rabs (val (x n) - sinusoid rate f a phi n) <= d) ->
  (exists h, power h = (cosh w - 1) / (cosh w - cos (per_sample f rate)) /\ exists N, forall n, (N <= n)%nat ->
    Rabs (val (f_heard O LowPass s x n) - filtered h rate f a phi n) <= 4 * bpow radix2 (k - prec) / (1 - b) + d + e) /\
  (exists h, power h = exp (- w) * (1 - cos (per_sample f rate)) / (cosh w - cos (per_sample f rate)) /\ exists N, forall n, (N <= n)%nat ->
    Rabs (val (f_heard O HighPass s x n) - filtered h rate f a phi n) <= 4 * bpow radix2 (k - prec) / (1 - b) + bpow radix2 (k + 1 - prec) + 2 * d + e).
Proof.
  intros prec emax I m2pi fexp c sr s0 x k rate f a phi d e O s b w Hk Fb Vb Hl Hx Hr He Hd.
  destruct (C79_rounding prec emax I m2pi fexp c sr s0 x k Hk Fb Vb Hl Hx) as [S B]. destruct (S rate Hr : 0 < cutoff_of rate b /\ set_to (cutoff_of rate b) rate (exact s)) as [Hc Hs]. fold O in B. fold s in B.
  assert (d0 : 0 <= d) by (eapply Rle_trans; [apply Rabs_pos | exact (Hd 0%nat)]).
  assert (C : forall n, Rabs (heard LowPass (exact s) (fun i => val (x i)) n - heard LowPass (exact s) (sinusoid rate f a phi) n) <= d)
    by (intros n; rewrite !low_heard; apply fed_close; [exact Vb | reflexivity | exact d0 | exact Hd]).
  split.
  - exists (h_low (bcoef (cutoff_of rate b) rate) (per_sample f rate)). split; [apply low_power; assumption |].
    destruct (low_passes _ _ _ f Hc Hs a phi e He) as [N HN]. exists N. intros n Hn. specialize (HN n Hn). specialize (B n). specialize (C n).
    destruct B as (_ & _ & B & _). unfold R_dist in HN. rewrite Rminus_0_r in HN. fold b in B. apply Rabs_le_inv in B, C. apply Rlt_le, Rabs_le_inv in HN. apply Rabs_le. lra.
  - exists (h_high (bcoef (cutoff_of rate b) rate) (per_sample f rate)). split; [apply high_power; assumption |].
    destruct (high_passes _ _ _ f Hc Hs a phi e He) as [N HN]. exists N. intros n Hn. specialize (HN n Hn). specialize (B n). specialize (C n). specialize (Hd n).
    destruct B as (_ & _ & _ & B). unfold R_dist in HN. rewrite Rminus_0_r in HN. rewrite high_heard in B, HN. cbv beta in B. fold b in B.
    apply Rabs_le_inv in B, C, Hd. apply Rlt_le, Rabs_le_inv in HN. apply Rabs_le. lra.
Qed.
Print Assumptions C79_rounded_sinusoid.

(** Constants come through the low pass, and are removed by the high pass, up to the rounding. *)
Theorem C79_rounded_constant : forall prec emax (I : ieee prec emax) m2pi fexp c sr s0 v k e,
  let O := fpole_ops m2pi fexp in let s := set_freq O c sr s0 in let b := val (o_b1 s) in
  (0 <= k <= 100)%Z -> fin (o_b1 s) -> 0 < b < 1 -> sized k (o_last s0) -> sized k v -> 0 < e ->
  exists N, forall n, (N <= n)%nat -> Rabs (val (f_heard O LowPass s (fun _ => v) n) - val v) <= 4 * bpow radix2 (k - prec) / (1 - b) + e /\
    Rabs (val (f_heard O HighPass s (fun _ => v) n)) <= 4 * bpow radix2 (k - prec) / (1 - b) + bpow radix2 (k + 1 - prec) + e.
Proof.
  intros prec emax I m2pi fexp c sr s0 v k e O s b Hk Fb Vb Hl Hv He.
  destruct (C79_rounding prec emax I m2pi fexp c sr s0 (fun _ => v) k Hk Fb Vb Hl (fun _ => Hv)) as [S B]. destruct (S 1 Rlt_0_1 : 0 < cutoff_of 1 b /\ set_to (cutoff_of 1 b) 1 (exact s)) as [Hc Hs]. fold O in B. fold s in B.
  destruct (C79_constants _ _ _ (val v) Hc Hs) as [L H]. destruct (L e He) as [N1 H1]. destruct (H e He) as [N2 H2].
  exists (N1 + N2)%nat. intros n Hn. specialize (H1 n ltac:(lia)). specialize (H2 n ltac:(lia)). specialize (B n). destruct B as (_ & _ & B1 & B2). fold b in B1, B2.
  unfold R_dist in H1, H2. rewrite Rminus_0_r in H2. apply Rlt_le, Rabs_le_inv in H1. apply Rlt_le, Rabs_le_inv in H2. apply Rabs_le_inv in B1, B2.
  split; apply Rabs_le; lra.
Qed.
Print Assumptions C79_rounded_constant.

(** With silent input the output never grows, in any format. *)
Theorem C79_silence : forall prec emax (I : ieee prec emax) m2pi fexp c sr s0 n,
  let O := fpole_ops m2pi fexp in let s := set_freq O c sr s0 in let y i := f_heard O LowPass s (fun _ => fzero) i in
  fin (o_b1 s) -> 0 < val (o_b1 s) < 1 -> fin (o_last s0) ->
  fin (y n) /\ Rabs (val (y n)) <= Rabs (val (o_last s0)) /\ Rabs (val (y (S n))) <= Rabs (val (y n)).
Proof.
  intros prec emax I m2pi fexp c sr s0 n O s y Fb Vb Fl.
  assert (Z : forall q : binary_float prec emax, fin q -> fin (fadd (fmul fzero (o_a0 s)) (fmul q (o_b1 s))) /\ Rabs (val (fadd (fmul fzero (o_a0 s)) (fmul q (o_b1 s)))) <= Rabs (val q)).
  { intros q Fq. assert (Fa : fin (o_a0 s)).
    { apply (coeffs_ok (o_b1 s)). split; [exact Fb | lra]. }
    destruct (fmul_ok fzero (o_a0 s) fin_fzero Fa) as [P1 P2]; [rewrite val_fzero, Rmult_0_l, rnd_0, Rabs_R0; apply bpow_gt_0 |].
    rewrite val_fzero, Rmult_0_l, rnd_0 in P1.
    assert (L : Rabs (@rnd prec emax (val q * val (o_b1 s))) <= Rabs (val q)).
    { rewrite <- rnd_abs. rewrite <- (rnd_val q) at 2. rewrite <- rnd_abs. apply rnd_le. rewrite Rabs_mult, (Rabs_pos_eq (val (o_b1 s))) by lra. pose proof (Rabs_pos (val q)). nra. }
    destruct (fmul_ok q (o_b1 s) Fq Fb) as [Q1 Q2]; [apply Rle_lt_trans with (1 := L); apply val_top |].
    destruct (fadd_ok (fmul fzero (o_a0 s)) (fmul q (o_b1 s)) P2 Q2) as [S1 S2]; [rewrite P1, Rplus_0_l, rnd_val; apply val_top |].
    split; [exact S2 |]. rewrite S1, P1, Rplus_0_l, rnd_val, Q1. exact L. }
  assert (St : forall i, o_last (f_fed O LowPass s (fun _ => fzero) (S i)) = fadd (fmul fzero (o_a0 s)) (fmul (o_last (f_fed O LowPass s (fun _ => fzero) i)) (o_b1 s))).
  { intros i. rewrite f_fed_S, f_sample_state. destruct (f_fed_coeffs O LowPass s (fun _ => fzero) i) as [A B]. cbn [op_lp o_last]. rewrite A, B. reflexivity. }
  assert (G : forall i, fin (o_last (f_fed O LowPass s (fun _ => fzero) i)) /\ Rabs (val (o_last (f_fed O LowPass s (fun _ => fzero) i))) <= Rabs (val (o_last s0))).
  { induction i as [| i [IH1 IH2]]; [split; [exact Fl | apply Rle_refl] |]. rewrite St. destruct (Z _ IH1) as [Z1 Z2]. split; [exact Z1 | lra]. }
  unfold y. rewrite !f_low_heard. split; [apply G |]. split; [apply G |]. rewrite (St (S n)). apply Z. apply G.
Qed.
Print Assumptions C79_silence.

(** ** concrete cases *)
Definition ops32 (b : f32) : pole_ops f32 := fpole_ops (fze (-13176795) (-21)) (fun _ => b).
(** The nearest single precision number to exp (-2 pi 10 / 48000): a cutoff of 10 Hz at 48 kHz *)
Definition b10 : f32 := fze 16755269 (-24).
Definition low10 : op f32 := set_freq (ops32 b10) (fz 10) (fz 48000) (lpf_new (ops32 b10) (fz 10)).
Example C79_rounding_case : fin (o_b1 low10) /\ 0 < val (o_b1 low10) < 1 /\ sized 0 (o_last (lpf_new (ops32 b10) (fz 10))) /\ sized 0 (fone : f32) /\
  (4 * bpow radix2 (0 - 24) / (1 - val (o_b1 low10)) <= / 5000)%R.
Proof.
  assert (V : val b10 = 16755269 * bpow radix2 (-24) /\ fin b10).
  { destruct (fze_ok (prec := 24) (emax := 128) 16755269 (-24)) as [A B].
    - apply fits with 0%Z; [lia |]. change (bpow radix2 0) with 1. change (bpow radix2 (-24)) with (/ 16777216). rewrite Rabs_pos_eq; lra.
    - split; [| exact B]. unfold b10. rewrite A. apply rnd_format. apply generic_format_FLT. exists (Float radix2 16755269 (-24)); [reflexivity | cbn; lia | cbn; lia]. }
  destruct V as [V F]. change (o_b1 low10) with b10. change (bpow radix2 (-24)) with (/ 16777216) in V.
  change (bpow radix2 (0 - 24)) with (/ 16777216). rewrite V.
  split; [exact F |]. split; [lra |]. split; [split; [reflexivity | change (val (o_last (lpf_new (ops32 b10) (fz 10)))) with 0; rewrite Rabs_R0; apply bpow_ge_0] |].
  split; [split; [apply fin_fone | rewrite val_fone; change (bpow radix2 0) with 1; rewrite Rabs_pos_eq; lra] |]. lra.
Qed.
Lemma fed_repeat : forall (O : pole_ops f32) s v i j, f_fed O LowPass s (fun _ => v) (i + j) = f_fed O LowPass (f_fed O LowPass s (fun _ => v) i) (fun _ => v) j.
Proof. intros O s v i j. induction j as [| j IH]; [rewrite Nat.add_0_r; reflexivity |]. rewrite Nat.add_succ_r, !f_fed_S, IH. reflexivity. Qed.
Fixpoint feed (O : pole_ops f32) (n : nat) (v : f32) (s : op f32) : op f32 := match n with O => s | S n => feed O n v (op_lp fadd fmul v s) end.
Lemma feed_fed : forall b n v s, f_fed (ops32 b) LowPass s (fun _ => v) n = feed (ops32 b) n v s.
Proof.
  intros b n v. induction n as [| n IH]; intros s; [reflexivity |]. change (S n) with (1 + n)%nat. rewrite fed_repeat, IH. cbn [feed Nat.add]. f_equal.
Qed.
Lemma stuck : forall b v s, op_lp fadd fmul v s = s -> forall n, f_fed (ops32 b) LowPass s (fun _ => v) n = s.
Proof. intros b v s H n. rewrite feed_fed. induction n as [| n IH]; [reflexivity |]. cbn [feed]. rewrite H. exact IH. Qed.
Lemma op_same : forall s t : op f32, B2SF (o_last s) = B2SF (o_last t) -> B2SF (o_a0 s) = B2SF (o_a0 t) -> B2SF (o_b1 s) = B2SF (o_b1 t) -> s = t.
Proof. intros [a b c] [a' b' c']. cbn [o_last o_a0 o_b1]. intros A B C. apply B2SF_inj in A, B, C. subst. reflexivity. Qed.
(** Not exactly: with the cutoff at 10 Hz a constant 1 comes out as 1 - 382 * 2^-24 for ever, and the high pass keeps 382 * 2^-24 (about
    -93 dB); the bound of [C79_rounded_constant] is eight times that. *)
Definition stalled : f32 := fze (16777216 - 382) (-24).
Definition n_stall : nat := N.to_nat 8080.
Theorem C79_stall_refuted : forall n, (n_stall <= n)%nat ->
  f_heard (ops32 b10) LowPass low10 (fun _ => fone) n = stalled /\ f_heard (ops32 b10) HighPass low10 (fun _ => fone) n = fze 382 (-24).
Proof.
  intros n Hn. assert (E : f_heard (ops32 b10) LowPass low10 (fun _ => fone) n = stalled).
  { rewrite f_low_heard. replace (S n) with (n_stall + (S n - n_stall))%nat by lia. rewrite fed_repeat, (feed_fed b10 n_stall).
    assert (Es : feed (ops32 b10) n_stall fone low10 = mk_op stalled (fsub fone b10) b10) by (apply op_same; vm_compute; reflexivity). rewrite Es.
    rewrite stuck; [reflexivity |]. apply op_same; vm_compute; reflexivity. }
  split; [exact E |]. rewrite f_high_heard, E. apply B2SF_inj. vm_compute. reflexivity.
Qed.
Print Assumptions C79_stall_refuted.
(** Silence is never reached: with the coefficient 3/4 a filter that had 1 in memory puts out 2^-148 for ever. *)
Definition b34 : f32 := fze 3 (-2).
Definition ringing : op f32 := set_freq (ops32 b34) (fz 2198) (fz 48000) (mk_op fone fone fzero).
Theorem C79_never_silent_refuted : forall n, (400 <= n)%nat -> f_heard (ops32 b34) LowPass ringing (fun _ => fzero) n = fze 1 (-148).
Proof.
  intros n Hn. rewrite f_low_heard. replace (S n) with (400 + (S n - 400))%nat by lia. rewrite fed_repeat, (feed_fed b34 400).
  assert (Es : feed (ops32 b34) 400 fzero ringing = mk_op (fze 1 (-148)) (fsub fone b34) b34) by (apply op_same; vm_compute; reflexivity). rewrite Es.
  rewrite stuck; [reflexivity |]. apply op_same; vm_compute; reflexivity.
Qed.
Print Assumptions C79_never_silent_refuted.
