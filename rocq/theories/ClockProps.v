(** C68: times converted to floating point numbers and back. *)
From Coq Require Import Reals Lra.
From Flocq Require Import Core BinarySingleNaN.
From Verif Require Import Base FloatBase TimeModel BufferModel ClockModel ClockSpec ClockProofs.
Local Open Scope R_scope.

(** ** From a number of seconds or beats, in any format: the result has less than a second (beat) of tesimals and differs from the
    number by less than one tesimal, up to the rounding of one multiplication. *)
Theorem C68_from : forall prec emax (I : ieee prec emax) T K (x : binary_float prec emax), clock T K -> fin x -> 0 <= val x < bpow radix2 32 ->
  let t := from_float T x in normal T t /\ - bpow radix2 (K - prec - 1) <= (val x - exact T t) * IZR T < 1 + bpow radix2 (K - prec - 1).
Proof. intros prec emax I T K x HC. exact (from_ok T K HC x). Qed.
Print Assumptions C68_from.
(** A later time is never converted to an earlier one *)
Theorem C68_from_order : forall prec emax (I : ieee prec emax) T K (x y : binary_float prec emax), clock T K -> fin x -> fin y ->
  0 <= val x -> val x <= val y -> val y < bpow radix2 32 -> (ticks T (from_float T x) <= ticks T (from_float T y))%Z.
Proof. intros prec emax I T K x y HC. exact (from_monotone T K HC x y). Qed.
Print Assumptions C68_from_order.
(** 1.75 s in f64, and 1/3 and 2/7 of a beat in f32, the second of which is rounded up *)
Example from_case : from_float second_tesimals (fze 7 (-2) : f64) = (1, 211680000)%N /\
  (from_float beat_tesimals (fdiv (fz 1) (fz 3) : f32) = (0, 492011520)%N) /\
  (from_float beat_tesimals (fdiv (fz 2) (fz 7) : f32) = (0, 421724160 + 32)%N).
Proof. vm_compute. repeat split; reflexivity. Qed.

(** ** To a number of seconds or beats: any time below 2^W whose whole part is exact in the format *)
Theorem C68_to : forall prec emax (I : ieee prec emax) T K W t, clock T K -> (0 <= W <= prec)%Z -> (W <= 32)%Z -> below T W t ->
  let v := to_float T t : binary_float prec emax in fin v /\ 0 <= val v <= bpow radix2 W /\ Rabs (val v - exact T t) <= reading_error prec W.
Proof. intros prec emax I T K W t HC HW H32 [H1 H2]. exact (to_ok T K HC W t HW H32 H1 H2). Qed.
Print Assumptions C68_to.
Theorem C68_to_order : forall T K s t, clock T K -> normal T s -> normal T t -> (ticks T s <= ticks T t)%Z ->
  val (to_float T s : f64) <= val (to_float T t : f64).
Proof. intros T K s t HC. exact (to_monotone (prec := 53) (emax := 1024) T K HC s t ltac:(lia)). Qed.
Print Assumptions C68_to_order.

(** ** There and back in f64: at most one tesimal is lost, nothing is gained. What is missing: the time itself. *)
Theorem C68_back_partial : forall T K t, clock T K -> below T (52 - K) t ->
  let u := from_float T (to_float T t : f64) in normal T u /\ (ticks T u = ticks T t \/ ticks T u = ticks T t - 1)%Z.
Proof. intros T K t HC [H1 H2]. exact (back_double T K HC t H1 H2). Qed.
Print Assumptions C68_back_partial.
(** One tesimal is lost, and with it a whole sample: 49 samples at 48000 Hz become 48 *)
Theorem C68_back_refuted : exists t, normal second_tesimals t /\ from_float second_tesimals (to_float second_tesimals t : f64) <> t.
Proof. exists (0, 288120)%N. split; [split; reflexivity |]. vm_compute. discriminate. Qed.
Print Assumptions C68_back_refuted.
Theorem C68_samples_refuted : exists s, sec_from_samples 49 48000 = Some s /\ sec_to_samples s 48000 = Some 49%N /\
  let u := from_float second_tesimals (to_float second_tesimals (s_whole s, s_sub s) : f64) in
  sec_to_samples (mk_seconds (fst u) (snd u)) 48000 = Some 48%N.
Proof. eexists. split; [reflexivity |]. split; vm_compute; reflexivity. Qed.
Print Assumptions C68_samples_refuted.

(** ** The reported loss is exact: with it, the number given can be computed again *)
Theorem C68_loss : forall T K (x : f64), clock T K -> fin x -> 0 <= val x < bpow radix2 32 ->
  let t := fst (with_loss T x) in let e := snd (with_loss T x) in
  t = from_float T x /\ fin e /\ val (to_float T t : f64) + val e = val x /\ val (fadd (to_float T t) e) = val x.
Proof. intros T K x HC. exact (loss_exact (prec := 53) (emax := 1024) T K HC x ltac:(lia)). Qed.
Print Assumptions C68_loss.
Example loss_case : let l := with_loss second_tesimals (fdiv (fz 1) (fz 7) : f64) in fst l = (0, 40320000)%N /\ snd l = fzero /\
  let m := with_loss second_tesimals (fdiv (fz 1) (fz 11) : f64) in fst m = (0, 25658181)%N /\ fltb fzero (snd m) = true.
Proof. vm_compute. repeat split. Qed.

(** ** Scaling by a float, and by an integer or another time *)
Theorem C68_scale : forall prec emax (I : ieee prec emax) T K W V t (r : binary_float prec emax), clock T K -> (0 <= W <= prec)%Z -> (W <= 32)%Z -> (0 <= V <= 31)%Z ->
  below T W t -> fin r -> 0 <= val r -> (exact T t + reading_error prec W) * val r <= bpow radix2 V -> let u := scale T t r in normal T u /\
  Rabs (exact T u - exact T t * val r) <= (1 + bpow radix2 (K - prec - 1)) / IZR T + bpow radix2 (V - prec - 1) + reading_error prec W * val r.
Proof. intros prec emax I T K W V t r HC HW H32 HV [H1 H2]. exact (scale_near T K HC W V t r HW H32 HV H1 H2). Qed.
Print Assumptions C68_scale.
Theorem C68_scale_f32 : forall W V t (r : f32), (0 <= W <= 32)%Z -> (0 <= V <= 31)%Z -> below second_tesimals W t -> fin r -> 0 <= val r ->
  (exact second_tesimals t + reading_error 53 W) * val r <= bpow radix2 V -> let u := scale_f32 t r in normal second_tesimals u /\
  Rabs (exact second_tesimals u - exact second_tesimals t * val r) <= (1 + bpow radix2 (-25)) / 282240000 + bpow radix2 (V - 54) + reading_error 53 W * val r.
Proof.
  intros W V t r HW HV [H1 H2] Fr Pr HM. destruct (widen_ok r Fr) as [Fw Vw]. rewrite <- Vw in *.
  replace (V - 54)%Z with (V - 53 - 1)%Z by lia.
  exact (scale_near (prec := 53) (emax := 1024) second_tesimals 29 (or_introl (conj eq_refl eq_refl)) W V t (widen r) ltac:(lia) ltac:(lia) HV H1 H2 Fw Pr HM).
Qed.
Print Assumptions C68_scale_f32.
(** The hypotheses: 2.5 s * 1.5 *)
Example scale_case : let t := (2, 141120000)%N in below second_tesimals 2 t /\ (exact second_tesimals t + reading_error 53 2) * val (fze 3 (-1) : f64) <= bpow radix2 2 /\
  scale second_tesimals t (fze 3 (-1) : f64) = (3, 211680000)%N.
Proof.
  split; [split; reflexivity |]. split; [| vm_compute; reflexivity].
  assert (V : val (fze 3 (-1) : f64) = 3 / 2) by (destruct (fze_ok (prec := 53) (emax := 1024) 3 (-1)) as [V _]; [apply fits with 2%Z; [lia |]; change (bpow radix2 (-1)) with (/ 2); change (bpow radix2 2) with 4; rewrite Rabs_pos_eq; lra |]; rewrite V; change (bpow radix2 (-1)) with (/ 2); replace (3 * / 2) with (IZR 6291456 * bpow radix2 (-22)) by (change (bpow radix2 (-22)) with (/ 4194304); lra); rewrite NoiseProofs.rnd_grid by lia; change (bpow radix2 (-22)) with (/ 4194304); lra).
  rewrite V. unfold exact, reading_error. cbn [fst snd]. change (Z.of_N 2) with 2%Z. change (Z.of_N 141120000) with 141120000%Z. change (IZR second_tesimals) with 282240000.
  change (bpow radix2 (2 - 53 - 1)) with (/ 4503599627370496). change (bpow radix2 (1 - 53)) with (/ 4503599627370496). change (bpow radix2 2) with 4. lra.
Qed.
(** "Exact for any fraction that divides a beat" is not kept by the operators: 1920 times 123/1920 of a beat is not 123 beats *)
Theorem C68_beats_refuted : exists t, beats_from_fractional 1920 0 123 = Some t /\
  times_int (prec := 53) (emax := 1024) beat_tesimals (b_whole t, b_sub t) 1920 = (122, 1476034559)%N.
Proof. eexists. split; [reflexivity |]. vm_compute. reflexivity. Qed.
Print Assumptions C68_beats_refuted.

(** The product of two times of beats: one factor is read as a number *)
Theorem C68_times : forall prec emax (I : ieee prec emax) T K W V s t, clock T K -> (0 <= W <= prec)%Z -> (W <= 32)%Z -> (0 <= V <= 31)%Z ->
  below T W s -> below T W t -> (exact T s + reading_error prec W) * (exact T t + reading_error prec W) <= bpow radix2 V ->
  let u := times (prec := prec) (emax := emax) T s t in normal T u /\
  Rabs (exact T u - exact T s * exact T t) <= (1 + bpow radix2 (K - prec - 1)) / IZR T + bpow radix2 (V - prec - 1)
    + reading_error prec W * (exact T s + exact T t + reading_error prec W).
Proof.
  intros prec emax I T K W V s t HC HW H32 HV Hs Ht HM u. destruct (C68_to prec emax I T K W t HC HW H32 Ht) as (Fr & Vr & Er). set (r := to_float T t : binary_float prec emax) in *.
  apply Rabs_le_inv in Er. pose proof Hs as [Hs1 Hs2]. assert (T0 : 0 < IZR T) by (apply IZR_lt; destruct HC as [[-> _] | [-> _]]; reflexivity).
  assert (S0 : 0 <= exact T s).
  { unfold exact. apply Rplus_le_le_0_compat; [apply IZR_le; lia |]. apply Rmult_le_pos; [apply IZR_le; lia |]. apply Rlt_le, Rinv_0_lt_compat. exact T0. }
  assert (R0 : 0 < reading_error prec W) by (unfold reading_error; pose proof (bpow_gt_0 radix2 (W - prec - 1)); pose proof (bpow_gt_0 radix2 (1 - prec)); lra).
  destruct (C68_scale prec emax I T K W V s r HC HW H32 HV Hs Fr (proj1 Vr)) as [A B].
  { apply Rle_trans with (2 := HM). apply Rmult_le_compat_l; lra. }
  split; [exact A |]. change (scale T s r) with u in B. replace (exact T u - exact T s * exact T t) with ((exact T u - exact T s * val r) + exact T s * (val r - exact T t)) by ring.
  eapply Rle_trans; [apply Rabs_triang |]. rewrite (Rabs_mult (exact T s)), (Rabs_pos_eq (exact T s)) by exact S0.
  assert (E1 : exact T s * Rabs (val r - exact T t) <= exact T s * reading_error prec W) by (apply Rmult_le_compat_l; [exact S0 | apply Rabs_le; lra]).
  assert (E2 : reading_error prec W * val r <= reading_error prec W * (exact T t + reading_error prec W)) by (apply Rmult_le_compat_l; lra). lra.
Qed.
Print Assumptions C68_times.
(** A beat and a half times two and a half *)
Example times_case : times (prec := 53) (emax := 1024) beat_tesimals (1, 738017280)%N (2, 738017280)%N = (3, 1107025920)%N.
Proof. vm_compute. reflexivity. Qed.

(** ** Durations: exactly the whole tesimals of the nanoseconds, but the upper bits of the seconds are dropped *)
Theorem C68_duration : forall secs nanos, (nanos < 1000000000)%N -> of_duration secs nanos = ((secs mod U32)%N, (nanos * 282240000 / 1000000000)%N).
Proof. exact duration_ok. Qed.
Print Assumptions C68_duration.
Theorem C68_long_duration_refuted : of_duration 4294967296 0 = (0, 0)%N.
Proof. vm_compute. reflexivity. Qed.
Print Assumptions C68_long_duration_refuted.

(** The conversions used by the buffer player are these *)
Example same_from : forall x : f64, BufferModel.from_secs x = from_float second_tesimals x.
Proof. reflexivity. Qed.
Example same_to : forall t, BufferModel.to_secs t = to_float second_tesimals t.
Proof. reflexivity. Qed.
