(** Removing the constant part of a buffer (C82). *)
From Coq Require Import Reals Lra.
From Coquelicot Require Import Rcomplements Complex.
From Flocq Require Import Core BinarySingleNaN.
From Verif Require Import Base FloatBase WaveSpec NoiseModel OscModel SvfRespSpec PoleSpec PoleProofs DcModel DcSpec DcProofs.
Local Open Scope R_scope.

(** C82: what comes out. Every channel for itself, every sample loses the mean of the samples before it, weighted by age. *)
Theorem C82_channels : forall ch mem, (0 < ch)%nat -> exists out, remove_dc_exact ch mem = Some out /\ length out = length mem /\
  forall c n, in_buffer ch c n mem -> channel ch c out n = without (channel ch c mem) n.
Proof. exact remove_ok. Qed.
Print Assumptions C82_channels.

(** C82: a constant added to a channel goes away as 0.999^n, and changes nothing else *)
Theorem C82_offset : forall ch mem mem' out out' c v, remove_dc_exact ch mem = Some out -> remove_dc_exact ch mem' = Some out' -> length mem' = length mem -> (0 < ch)%nat ->
  (forall n, in_buffer ch c n mem -> channel ch c mem' n = channel ch c mem n + v) ->
  forall n, in_buffer ch c n mem -> channel ch c out' n = channel ch c out n + v * r ^ n.
Proof.
  intros ch mem mem' out out' c v E E' L H A n B. destruct (remove_ok ch mem H) as (o & Eo & _ & O). rewrite E in Eo. injection Eo as <-.
  destruct (remove_ok ch mem' H) as (o & Eo & _ & O'). rewrite E' in Eo. injection Eo as <-.
  rewrite O by exact B. rewrite O' by (destruct B; split; [assumption | rewrite L; assumption]).
  rewrite <- without_const, <- without_plus. apply without_ext. intros k Hk. apply A. destruct B as [B1 B2]. split; [exact B1 |]. nia.
Qed.
Print Assumptions C82_offset.
(** and for long enough buffers, nothing audible of it is left *)
Theorem C82_vanishes : forall v e, 0 < e -> exists N, forall n, (N <= n)%nat -> Rabs (v * r ^ n) < e.
Proof.
  intros v e He. destruct (geometric_0 r v r_range e He) as [N HN]. exists N. intros n Hn. specialize (HN n Hn). unfold R_dist in HN. rewrite Rminus_0_r, Rmult_comm in HN. exact HN.
Qed.
Print Assumptions C82_vanishes.

(** C82: a sinusoid comes out with the power [dc_power], up to a part that goes away as 0.999^n. From about 76 Hz on at 48000 Hz (an angle of
    1/100 per sample) at least 99 % of the power passes, at no frequency more than 100.2 %. *)
Theorem C82_sinusoids : forall sr f, exists h, power h = dc_power (per_sample f sr) /\ forall a phi len out,
  remove_dc_exact 1 (map (sinusoid sr f a phi) (seq 0 len)) = Some out ->
  forall n, (n < len)%nat -> Rabs (nth n out 0 - filtered h sr f a phi n) <= 3 * Rabs a * r ^ n.
Proof.
  intros sr f. exists (h_dc (per_sample f sr)). split; [apply h_dc_power |]. intros a phi len out E n Hn.
  destruct (remove_ok 1 (map (sinusoid sr f a phi) (seq 0 len)) ltac:(lia)) as (o & Eo & _ & O). rewrite E in Eo. injection Eo as <-.
  specialize (O 0%nat n). unfold in_buffer, channel in O. rewrite map_length, seq_length in O. rewrite Nat.mul_1_r, Nat.add_0_r in O. rewrite O by (split; lia).
  rewrite (without_ext _ (sinusoid sr f a phi)); [apply dc_close |]. intros k Hk. rewrite Nat.mul_1_r, Nat.add_0_r.
  rewrite (nth_indep _ 0 (sinusoid sr f a phi 0)) by (rewrite map_length, seq_length; lia). rewrite map_nth, seq_nth by lia. reflexivity.
Qed.
Print Assumptions C82_sinusoids.
Theorem C82_passband : forall w, 1 / 100 <= w <= PI -> 99 / 100 <= dc_power w <= 1002 / 1000.
Proof.
  intros w [A B]. split; [| apply dc_power_le]. apply dc_power_pass. apply Rle_trans with (cos (1 / 100)).
  - destruct (Rle_lt_or_eq_dec _ _ A) as [L | <-]; [| apply Rle_refl]. apply Rlt_le. apply cos_decreasing_1; lra.
  - replace (1 / 100) with (2 * (1 / 200)) by lra. rewrite cos_sin2. pose proof (sin_ge (1 / 200) ltac:(lra)) as S. nra.
Qed.
Print Assumptions C82_passband.
(** C82: nothing of the constant passes *)
Theorem C82_dc : dc_power 0 = 0.
Proof. unfold dc_power. rewrite cos_0. unfold r. field. Qed.
Print Assumptions C82_dc.
Example C82_pass_case : exists w, 1 / 100 <= w <= PI.
Proof. exists 1. pose proof PI2_1. lra. Qed.
Example C82_channels_case : exists out, remove_dc_exact 2 [1; 5; 1; 6] = Some out /\ nth 2 out 0 = 999 / 1000 /\ nth 3 out 0 = 5 * (999 / 1000) + 1.
Proof. eexists. split; [cbn; reflexivity |]. cbn [nth]. split; lra. Qed.

(** C82: how loud the result can get *)
Theorem C82_loudness : forall ch mem out c m, remove_dc_exact ch mem = Some out -> (0 < ch)%nat -> (forall n, in_buffer ch c n mem -> Rabs (channel ch c mem n) <= m) ->
  forall n, in_buffer ch c n mem -> Rabs (channel ch c out n) <= m * (2 - r ^ n).
Proof.
  intros ch mem out c m E H A n B. destruct (remove_ok ch mem H) as (o & Eo & _ & O). rewrite E in Eo. injection Eo as <-. rewrite O by exact B.
  apply without_bound. intros k Hk. apply A. destruct B as [B1 B2]. split; [exact B1 | nia].
Qed.
Print Assumptions C82_loudness.
Lemma nth_repeat_lt : forall (a d : R) k n, (k < n)%nat -> nth k (repeat a n) d = a.
Proof. intros a d k n H. apply nth_error_nth. apply nth_error_repeat. exact H. Qed.
(** C82, within the range of the samples: refuted. That bound is reached: after any number of samples of -1, a sample of 1 becomes 2 - 0.999^n,
    more than full scale. *)
Theorem C82_louder_refuted : forall n, (0 < n)%nat -> exists out, remove_dc_exact 1 (repeat (-1) n ++ [1]) = Some out /\ nth n out 0 = 2 - r ^ n /\ 1 < nth n out 0.
Proof.
  intros n Hn. destruct (remove_ok 1 (repeat (-1) n ++ [1]) ltac:(lia)) as (out & E & _ & O). exists out. split; [exact E |].
  assert (V : nth n out 0 = 2 - r ^ n).
  { specialize (O 0%nat n). unfold in_buffer, channel in O. rewrite app_length, repeat_length in O. cbn [length] in O. rewrite Nat.mul_1_r, Nat.add_0_r in O. rewrite O by (split; lia).
    destruct n as [| n]; [lia |]. rewrite without_S. rewrite (without_ext _ (fun _ => -1)).
    - rewrite without_const. rewrite !Nat.mul_1_r, !Nat.add_0_r. rewrite (app_nth2 _ [1]) by (rewrite repeat_length; lia). rewrite repeat_length, Nat.sub_diag.
      rewrite app_nth1 by (rewrite repeat_length; lia). rewrite nth_repeat_lt by lia. cbn [nth pow]. ring.
    - intros k Hk. rewrite Nat.mul_1_r, Nat.add_0_r. rewrite app_nth1 by (rewrite repeat_length; lia). apply nth_repeat_lt. lia. }
  split; [exact V |]. rewrite V. pose proof r_range as R0. pose proof (pow_lt_1_compat r n ltac:(lra) Hn). lra.
Qed.
Print Assumptions C82_louder_refuted.
(** C82, for buffers of any length: refuted. After 500 frames half of a constant is still there: a shorter buffer keeps most of it. *)
Theorem C82_short_refuted : forall len v, (len <= 500)%nat -> 0 < v -> exists out, remove_dc_exact 1 (repeat v len) = Some out /\ forall n, (n < len)%nat -> v / 2 <= nth n out 0.
Proof.
  intros len v Hl Hv. destruct (remove_ok 1 (repeat v len) ltac:(lia)) as (out & E & _ & O). exists out. split; [exact E |]. intros n Hn.
  specialize (O 0%nat n). unfold in_buffer, channel in O. rewrite repeat_length in O. rewrite Nat.mul_1_r, Nat.add_0_r in O. rewrite O by (split; lia).
  rewrite (without_ext _ (fun _ => v)) by (intros k Hk; rewrite Nat.mul_1_r, Nat.add_0_r; apply nth_repeat_lt; lia). rewrite without_const.
  pose proof (bernoulli n) as B. assert (INR n <= 500) by (apply (le_INR n 500) in Hl || (replace 500 with (INR 500) by (rewrite INR_IZR_INZ; reflexivity); apply le_INR; lia)). nra.
Qed.
Print Assumptions C82_short_refuted.
(** C82, for any buffer: refuted. A buffer that says it has no channels panics. *)
Theorem C82_no_channels_refuted : forall x mem, remove_dc_exact 0 (x :: mem) = None.
Proof. reflexivity. Qed.
Print Assumptions C82_no_channels_refuted.

(** ** In f32 *)
Definition factor32 : f32 := to_f32 (fdiv (fz 999) (fz 1000)).
(** One channel: the latest sample and output, then the outputs *)
Fixpoint mono (p l : f32) (buf : list f32) : f32 * f32 * list f32 :=
  match buf with
  | [] => (p, l, [])
  | x :: buf => let y := fsub (fadd (fmul l factor32) x) p in let q := mono x y buf in (fst q, y :: snd q)
  end.
Lemma loop_mono : forall buf i p l, dc_loop factor32 fadd fsub fmul 1 i buf ([p], [l]) = Some (snd (mono p l buf)).
Proof.
  induction buf as [| x buf IH]; intros i p l; [reflexivity |]. cbn [dc_loop mono]. unfold dc_sample. change (1 =? 0)%nat with false. rewrite Nat.mod_1_r.
  cbn [fst snd nth_error set_nth bind]. rewrite IH. reflexivity.
Qed.
Lemma mono_app : forall a b p l, snd (mono p l (a ++ b)) = snd (mono p l a) ++ snd (mono (fst (fst (mono p l a))) (snd (fst (mono p l a))) b).
Proof. induction a as [| x a IH]; intros b p l; [reflexivity |]. cbn [app mono]. cbn [fst snd]. rewrite IH. reflexivity. Qed.
Lemma mono_length : forall a p l, length (snd (mono p l a)) = length a.
Proof. induction a as [| x a IH]; intros p l; [reflexivity |]. cbn [mono snd length]. rewrite IH. reflexivity. Qed.
Definition residue : f32 := fze 125 (-21).
Definition settle : nat := N.to_nat 9610.
Lemma settled : fst (mono fzero fzero (repeat fone settle)) = (fone, residue).
Proof.
  apply injective_projections; apply B2SF_inj; vm_compute; reflexivity.
Qed.
Lemma stays : forall n, snd (mono fone residue (repeat fone n)) = repeat residue n.
Proof.
  assert (F : fsub (fadd (fmul residue factor32) fone) fone = residue) by (apply B2SF_inj; vm_compute; reflexivity).
  induction n as [| n IH]; [reflexivity |]. cbn [repeat mono snd]. rewrite F. rewrite IH. reflexivity.
Qed.
(** C82, the constant goes away: refuted in f32. A constant of 1 stays at 125 * 2^-21 (about -84 dB) forever: the product with 0.999 is rounded back. *)
Theorem C82_residue_refuted : forall n, exists out, remove_dc_f32 1 (repeat fone (settle + n)) = Some out /\ length out = (settle + n)%nat /\
  (forall k, (settle <= k < settle + n)%nat -> nth_error out k = Some residue) /\ fltb fzero residue = true.
Proof.
  intros n. exists (snd (mono fzero fzero (repeat fone (settle + n)))). split; [exact (loop_mono _ 0 fzero fzero) |].
  split; [rewrite mono_length; apply repeat_length |]. split; [| vm_compute; reflexivity].
  intros k [Hk Hn]. rewrite repeat_app, mono_app. rewrite settled. cbn [fst snd]. rewrite stays.
  rewrite nth_error_app2 by (rewrite mono_length, repeat_length; exact Hk). rewrite mono_length, repeat_length. apply nth_error_repeat. lia.
Qed.
Print Assumptions C82_residue_refuted.
