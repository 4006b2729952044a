(** C67: what is heard when a buffer is played. *)
From Coq Require Import Reals Lra.
From Flocq Require Import Core BinarySingleNaN Relative.
From Verif Require Import Base FloatBase FloatMore BufferModel BufferProofs PlayModel PlaySpec PlayProofs.
Local Open Scope R_scope.

(** A block is rendered like its frames one by one (which report their own number where [process] reports 0). *)
Theorem C67_blocks : forall prec emax (I : ieee prec emax) b (mem : list (binary_float prec emax)) channels sizes s,
  play_blocks b mem channels sizes s = play_frames b mem channels (ends_of sizes) s.
Proof. intros prec emax I. exact blocks_frames. Qed.
Print Assumptions C67_blocks.

(** A buffer of [n] frames, played on a server with the sample rate of the buffer at rate 1: the samples of the buffer, value for
    value, whatever the block sizes. Without looping, silence follows the last frame, and the end of that frame is reported as
    done, and no other. When looping, the buffer is repeated without a gap, and done is never reported. *)
Theorem C67_own_rate : forall prec emax (I : ieee prec emax) b (mem : list (binary_float prec emax)) n ch channels sr,
  from_vec_interleaved (N.of_nat (n * ch)) (N.of_nat ch) (fz (Z.of_N sr)) = Some b -> length mem = (n * ch)%nat -> (0 < n)%nat ->
  (1 <= sr <= 2 ^ 24)%N -> (N.of_nat n < 2 ^ 24 * sr)%N -> (Z.of_N sr | 282240000)%Z -> (channels <= ch)%nat ->
  forall looping sizes, all_fin mem ->
  let r := play_blocks b mem channels sizes (player_init b sr (player_new b fone looping)) in
  (forall i c, (i < length (ends_of sizes))%nat -> (c < channels)%nat -> shows (out_at (snd (fst r)) i c)
    (if looping then val (stored mem ch c (i mod n)) else if Nat.ltb i n then val (stored mem ch c i) else 0)) /\
  snd r = if looping then map (fun _ => None) (ends_of sizes) else reports (n - 1) (ends_of sizes).
Proof. intros prec emax I. exact own_rate. Qed.
Print Assumptions C67_own_rate.

(** At any rate and server sample rate, without looping, with samples in -1..1: frame [i] is the value at position [i * step] of the
    line through the samples, up to the rounding of the position ([e] for every frame) and of the interpolation; the output is
    in -1..1; after [K] frames, about [n / step], there is silence, and only the end of the last frame is reported as done.
    Partial: not for looping (see below). *)
Theorem C67_rate_partial : forall prec emax (I : ieee prec emax) b (mem : list (binary_float prec emax)) n ch channels sr,
  from_vec_interleaved (N.of_nat (n * ch)) (N.of_nat ch) (fz (Z.of_N sr)) = Some b -> length mem = (n * ch)%nat -> (0 < n)%nat ->
  (1 <= sr <= 2 ^ 24)%N -> (N.of_nat n < 2 ^ 24 * sr)%N -> (Z.of_N sr | 282240000)%Z -> (channels <= ch)%nat ->
  forall server rate (k : Z), (1 <= server <= 2 ^ 32)%N -> full_scale mem -> let step := fmul (fdiv (fz (Z.of_N sr)) (fz (Z.of_N server))) rate : f64 in
  let e := bpow radix2 (k - 54) in
  (0 <= k <= 1000)%Z -> fin step -> e < val step -> INR n + val step < bpow radix2 k ->
  exists K, (0 < K)%nat /\ (INR K - 1) * (val step - e) < INR n /\ INR n - / 4 <= INR K * (val step + e) /\
  forall sizes, let r := play_blocks b mem channels sizes (player_init b server (player_new b rate false)) in
  (forall i, (i < length (ends_of sizes))%nat ->
     if Nat.ltb i K then exists pos, Rabs (pos - INR i * val step) <= INR i * e /\ 0 <= pos < INR n /\
       forall c, (c < channels)%nat -> near (6 * @eps prec) (out_at (snd (fst r)) i c) (line mem ch c n pos)
     else forall c, (c < channels)%nat -> shows (out_at (snd (fst r)) i c) 0) /\
  snd r = reports (K - 1) (ends_of sizes).
Proof. intros prec emax I. exact any_rate. Qed.
Print Assumptions C67_rate_partial.

(** The step of the theorem above is the ratio of the sample rates times the rate. *)
Theorem C67_step : forall sr server (rate : f64), (1 <= sr <= 2 ^ 24)%N -> (1 <= server <= 2 ^ 32)%N -> fin rate -> bpow radix2 (-100) <= val rate <= bpow radix2 100 ->
  let step := fmul (fdiv (fz (Z.of_N sr)) (fz (Z.of_N server))) rate : f64 in let exact := IZR (Z.of_N sr) / IZR (Z.of_N server) * val rate in
  fin step /\ Rabs (val step - exact) <= bpow radix2 (-51) * exact.
Proof.
  intros sr server rate Hsr Hse Fr Hr step exact.
  destruct (fz_int (Z.of_N sr) ltac:(lia)) as [F1 V1]. destruct (fz_int (Z.of_N server) ltac:(lia)) as [F2 V2].
  assert (P1 : 1 <= IZR (Z.of_N sr) <= bpow radix2 24) by (split; [apply IZR_le; lia | change (bpow radix2 24) with (IZR (2 ^ 24)); apply IZR_le; lia]).
  assert (P2 : 1 <= IZR (Z.of_N server) <= bpow radix2 32) by (split; [apply IZR_le; lia | change (bpow radix2 32) with (IZR (2 ^ 32)); apply IZR_le; lia]).
  set (q := IZR (Z.of_N sr) / IZR (Z.of_N server)) in *.
  assert (Q : bpow radix2 (-32) <= q <= bpow radix2 24).
  { assert (I1 : / bpow radix2 32 <= / IZR (Z.of_N server)) by (apply Rinv_le; lra). assert (I2 : / IZR (Z.of_N server) <= / 1) by (apply Rinv_le; lra).
    rewrite <- bpow_opp in I1. rewrite Rinv_1 in I2. change (- (32))%Z with (-32)%Z in I1. pose proof (bpow_gt_0 radix2 (-32)). unfold q, Rdiv. split.
    - rewrite <- (Rmult_1_l (bpow radix2 (-32))). apply Rmult_le_compat; lra.
    - rewrite <- (Rmult_1_r (bpow radix2 24)). apply Rmult_le_compat; lra. }
  assert (B1 : Rabs (rnd q) <= bpow radix2 24) by (apply rnd_bound; [lia |]; rewrite Rabs_pos_eq; [apply Q | pose proof (bpow_gt_0 radix2 (-32)); lra]).
  destruct (fdiv_ok (fz (Z.of_N sr)) (fz (Z.of_N server)) F1) as [Vq Fq]; [rewrite V2; lra | rewrite V1, V2; fold q; apply below_top with 24%Z; [lia | exact B1] |].
  rewrite V1, V2 in Vq. fold q in Vq.
  assert (RE : forall x, bpow radix2 (-200) <= x -> Rabs (rnd x - x) <= bpow radix2 (-53) * x).
  { intros x Hx. pose proof (bpow_gt_0 radix2 (-200)). pose proof (relative_error_N_FLT radix2 (SpecFloat.emin 53 1024) 53 eq_refl (fun x => negb (Z.even x)) x) as R.
    rewrite Rabs_pos_eq in R by lra. replace (bpow radix2 (-53)) with (/ 2 * bpow radix2 (-53 + 1)); [apply R | change (/ 2) with (bpow radix2 (-1)); rewrite <- bpow_plus; reflexivity].
    apply Rle_trans with (2 := Hx). apply bpow_le. reflexivity || (cbv; discriminate). }
  assert (R1 : Rabs (rnd q - q) <= bpow radix2 (-53) * q) by (apply RE; apply Rle_trans with (2 := proj1 Q); apply bpow_le; lia).
  assert (u0 : 0 < bpow radix2 (-53) <= / 8) by (split; [apply bpow_gt_0 | change (/ 8) with (bpow radix2 (-3)); apply bpow_le; lia]).
  set (u := bpow radix2 (-53)) in *.
  assert (q0 : 0 < q) by (pose proof (bpow_gt_0 radix2 (-32)); lra). assert (r0 : 0 < val rate) by (pose proof (bpow_gt_0 radix2 (-100)); lra).
  assert (R1' : q * (1 - u) <= rnd q <= q * (1 + u)) by (apply Rabs_le_inv in R1; lra).
  set (y := rnd q * val rate).
  assert (Y1 : q * val rate * (1 - u) <= y <= q * val rate * (1 + u)).
  { unfold y. split; [replace (q * val rate * (1 - u)) with (q * (1 - u) * val rate) by ring | replace (q * val rate * (1 + u)) with (q * (1 + u) * val rate) by ring]; apply Rmult_le_compat_r; lra. }
  assert (Ex : exact = q * val rate) by reflexivity.
  assert (X1 : bpow radix2 (-132) <= exact) by (rewrite Ex; replace (-132)%Z with (-32 + -100)%Z by reflexivity; rewrite bpow_plus; apply Rmult_le_compat; try apply bpow_ge_0; lra).
  assert (X2 : exact <= bpow radix2 124) by (rewrite Ex; replace 124%Z with (24 + 100)%Z by reflexivity; rewrite bpow_plus; apply Rmult_le_compat; lra).
  rewrite <- Ex in Y1.
  assert (x0 : 0 < exact) by (pose proof (bpow_gt_0 radix2 (-132)); lra).
  assert (Y2 : bpow radix2 (-200) <= y).
  { apply Rle_trans with (bpow radix2 (-133)); [apply bpow_le; lia |]. apply Rle_trans with (2 := proj1 Y1). replace (bpow radix2 (-133)) with (bpow radix2 (-132) * / 2); [| change (/ 2) with (bpow radix2 (-1)); rewrite <- bpow_plus; reflexivity].
    apply Rmult_le_compat; try lra. apply bpow_ge_0. }
  pose proof (RE y Y2) as R2.
  destruct (fmul_ok (fdiv (fz (Z.of_N sr)) (fz (Z.of_N server))) rate Fq Fr) as [Vs Fs].
  { rewrite Vq. fold y. apply fits with 125%Z; [lia |]. pose proof (bpow_gt_0 radix2 (-200)). rewrite Rabs_pos_eq by lra. apply Rle_trans with (1 := proj2 Y1).
    replace (bpow radix2 125) with (bpow radix2 124 * bpow radix2 1) by (rewrite <- bpow_plus; reflexivity). change (bpow radix2 1) with 2. apply Rmult_le_compat; lra. }
  fold step in Vs, Fs. split; [exact Fs |]. rewrite Vs, Vq. fold y.
  assert (U4 : bpow radix2 (-51) = 4 * u) by (unfold u; change 4 with (bpow radix2 2); rewrite <- bpow_plus; reflexivity). rewrite U4.
  replace (rnd y - exact) with ((rnd y - y) + (y - exact)) by ring. eapply Rle_trans; [apply Rabs_triang |].
  assert (A1 : Rabs (y - exact) <= u * exact) by (apply Rabs_le; lra).
  assert (A2 : u * y <= u * (2 * exact)).
  { apply Rmult_le_compat_l; [lra |]. apply Rle_trans with (1 := proj2 Y1). replace (2 * exact) with (exact * 2) by ring. apply Rmult_le_compat_l; lra. }
  lra.
Qed.
Print Assumptions C67_step.

(** A stereo buffer of 3 frames at 48000 Hz, twice in f32 *)
Definition three : list f32 := map (fun z => fze z (-3)) [1; -1; 2; -2; 3; -8]%Z.
Definition heard {prec emax} (r : player * list (list (option (binary_float prec emax))) * list (option N)) : list (list (option SpecFloat.spec_float)) * list (option N) :=
  (map (map (option_map (@B2SF prec emax))) (snd (fst r)), snd r).
Definition shown (l : list (list Z)) : list (list (option SpecFloat.spec_float)) := map (map (fun z => Some (B2SF (fze z (-4) : f32)))) l.
Definition three_buffer : option buffer := from_vec_interleaved 6 2 (fz (Z.of_N 48000)).
Example C67_own_case : length three = (3 * 2)%nat /\ all_fin three /\ (Z.of_N 48000 | 282240000)%Z /\
  option_map (fun b => heard (play_blocks b three 2 [2; 3]%nat (player_init b 48000 (player_new b fone false)))) three_buffer =
    Some (shown [[2; -2]; [4; -4]; [6; -16]; [0; 0]; [0; 0]]%Z, [None; None; Some 1%N; None; None]) /\
  option_map (fun b => heard (play_blocks b three 1 [2; 3]%nat (player_init b 48000 (player_new b fone true)))) three_buffer =
    Some (shown [[2]; [4]; [6]; [2]; [4]]%Z, [None; None; None; None; None]).
Proof.
  split; [reflexivity |]. split; [repeat constructor |]. split; [exists 5880%Z; reflexivity |]. split; vm_compute; reflexivity.
Qed.
(** At half the rate, in 6 frames; between the last and the first sample at the end *)
Example C67_half_case : full_scale three /\
  option_map (fun b => heard (play_blocks b three 2 [8]%nat (player_init b 96000 (player_new b fone false)))) three_buffer =
    Some (shown [[2; -2]; [3; -3]; [4; -4]; [5; -10]; [6; -16]; [4; -9]; [0; 0]; [0; 0]]%Z, [None; None; None; None; None; Some 6%N; None; None]).
Proof.
  split; [| vm_compute; reflexivity].
  assert (G : forall z, (Z.abs z <= 8)%Z -> fin (fze z (-3) : f32) /\ Rabs (val (fze z (-3) : f32)) <= 1).
  { intros z Hz. assert (A : Rabs (IZR z * bpow radix2 (-3)) <= bpow radix2 0).
    { change (bpow radix2 (-3)) with (/ 8). change (bpow radix2 0) with 1. rewrite Rabs_mult, (Rabs_pos_eq (/ 8)) by lra. rewrite <- abs_IZR. apply IZR_le in Hz. lra. }
    destruct (fze_ok (prec := 24) (emax := 128) z (-3)) as [V F]; [apply fits with 0%Z; [lia | exact A] |]. split; [exact F |]. rewrite V. change 1 with (bpow radix2 0). apply rnd_bound; [lia | exact A]. }
  unfold three. cbn [map]. repeat (constructor; [apply G; discriminate |]). constructor.
Qed.

Definition play_at (rate : f64) (looping : bool) (n : nat) :=
  option_map (fun b => heard (play_blocks b three 1 [n]%nat (player_init b 48000 (player_new b rate looping)))) three_buffer.
(** Refuted: looping at another rate than 1 keeps the tempo. At rate 2 the position should be 0, 2, 1, 0, 2, 1: two rounds in
    three frames. The position beyond the end is dropped and it is 0, 2, 0, 2, so that a round takes 2 frames instead of 1.5. *)
Theorem C67_loop_refuted : play_at (fz 2) true 6 = Some (shown [[2]; [6]; [2]; [6]; [2]; [6]]%Z, repeat None 6).
Proof. vm_compute. reflexivity. Qed.
Print Assumptions C67_loop_refuted.
(** Refuted: the output of a buffer in -1..1 is in -1..1. With a negative rate the position becomes negative: the line through the
    first two samples is continued below the first, and playback does not end. *)
Definition steep : list f32 := [fone; fneg fone].
Theorem C67_negative_refuted : option_map (fun b => heard (play_blocks b steep 1 [4]%nat (player_init b 48000 (player_new b (fneg (fze 3 (-2))) false)))) (from_vec_interleaved 2 1 (fz 48000)) =
  Some (shown [[16]; [40]; [32]; [24]]%Z, repeat None 4).
Proof. vm_compute. reflexivity. Qed.
Print Assumptions C67_negative_refuted.
(** Refuted: a buffer played once ends like it is stored. After the last sample comes the first one again, also when not looping:
    the last frame of this buffer, which ends in silence, is half of its first sample. *)
Theorem C67_tail_refuted : option_map (fun b => heard (play_blocks b [fone; fzero : f32] 1 [5]%nat (player_init b 96000 (player_new b fone false)))) (from_vec_interleaved 2 1 (fz 48000)) =
  Some (shown [[16]; [8]; [0]; [8]; [0]]%Z, [None; None; None; Some 4%N; None]).
Proof. vm_compute. reflexivity. Qed.
Print Assumptions C67_tail_refuted.
