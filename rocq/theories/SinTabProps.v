(** * C91: the wavetable sine oscillator plays the sine it is asked for *)
From Coq Require Import Reals Lra Lia.
From Flocq Require Import Core BinarySingleNaN.
From Verif Require Import Base FloatBase OscModel OscSpec OscProofs WaveModel SinTabModel SinTabSpec SinTabProofs.
From Verif Require PanProofs.
Local Open Scope R_scope.

(** Every sample of the tables of a sine and a cosine is that of the function, up to 2^-23 and the error of the library's function. *)
Theorem C91_tables : forall flib glib e i, library e sin flib -> library e cos glib -> e <= 1 / 4 -> (i < points)%nat ->
  exists s c, nth_error (trig_table flib) i = Some s /\ nth_error (trig_table glib) i = Some c /\ fin s /\ fin c /\
    Rabs (val s - sin (2 * PI * (INR i / 16384))) <= e + / 8388608 /\ Rabs (val c - cos (2 * PI * (INR i / 16384))) <= e + / 8388608.
Proof.
  intros flib glib e i L1 L2 He H.
  destruct (table_point flib sin e i L1 He SIN_bound (fun a b => proj1 (PanProofs.sin_cos_slow a b)) H) as (s & A1 & A2 & A3).
  destruct (table_point glib cos e i L2 He COS_bound (fun a b => proj2 (PanProofs.sin_cos_slow a b)) H) as (c & B1 & B2 & B3).
  exists s, c. repeat split; assumption.
Qed.
Print Assumptions C91_tables.
(** The table of the sawtooth is exact in f32 and in f64. *)
Theorem C91_saw : forall i, (i < points)%nat -> exists (x : f32) (y : f64), nth_error saw_table32 i = Some x /\ nth_error saw_table64 i = Some y /\
  fin x /\ fin y /\ val x = -1 + 2 * (INR i / 16384) /\ val y = -1 + 2 * (INR i / 16384).
Proof.
  intros i H. destruct (saw_ok i H) as (F & V & B). exists (to_f32 (saw_point i)), (saw_point i).
  assert (N : nth_error (seq 0 points) i = Some i) by (rewrite nth_error_nth' with (d := 0%nat) by (rewrite seq_length; exact H); rewrite seq_nth by exact H; reflexivity).
  destruct (narrow_exact (saw_point i) F) as [F2 V2].
  - rewrite V. apply Rabs_def1; lra.
  - rewrite V. apply (saw_format 24 128 ieee_f32); [lia | change points with (N.to_nat 16384) in H; lia].
  - unfold saw_table32, saw_table64. rewrite !nth_error_map, N. cbn [option_map]. rewrite V2, V. repeat split; try assumption; try (cbn; lra).
Qed.
Print Assumptions C91_saw.

(** Every history of samples, resets and changes to frequencies between zero and the sample rate: as many samples as asked for, no read
    outside the table, and sample [k] is the sine of the turns made, up to one entry of the table, a drift of at most
    [1 + 2^-20] units of [2^-30] turns each sample, 2^-23 and the error of the library's sine. What is missing from "the sine asked for" is
    the drift (refuted below), offsets and negative frequencies (refuted below). *)
Theorem C91_sine_partial : forall lib e freq sr ops, library e sin lib -> e <= 1 / 4 -> sample_rate sr -> plain (val sr) (WFreq freq) -> Forall (plain (val sr)) ops ->
  let out := sinwt_play lib (sinwt_init freq sr) ops in let w := sine_wanted (val sr) (val freq / val sr) 0 0 ops in
  length out = length w /\ forall k o x, nth_error out k = Some o -> nth_error w k = Some x ->
    exists y, o = Some y /\ fin y /\ Rabs (val y - x) <= 2 * PI * turn_error k + e + / 8388608.
Proof. intros. apply play_near; assumption. Qed.
Print Assumptions C91_sine_partial.
Lemma whole_number : forall z, (Z.abs z <= 2 ^ 24)%Z -> fin (fz z : f64) /\ val (fz z : f64) = IZR z.
Proof. intros z H. destruct (fz_small (prec := 53) (emax := 1024) z H) as [A B]. split; assumption. Qed.
Lemma rate48 : sample_rate (fz 48000).
Proof. exists 48000%Z. split; [lia |]. apply whole_number. lia. Qed.
(* 440 Hz, then 880 Hz, at 48 kHz, with a library that is a sine up to 2^-25 *)
Example C91_case : library (/ 33554432) sin (near64 sin) /\ library (/ 33554432) cos (near64 cos) /\ sample_rate (fz 48000) /\
  Forall (plain (val (fz 48000 : f64))) [WFreq (fz 440); WSample; WSample; WFreq (fz 880); WSample; WReset; WSample].
Proof.
  split; [apply near64_ok; exact SIN_bound |]. split; [apply near64_ok; exact COS_bound |]. split; [exact rate48 |].
  destruct (whole_number 440) as [A B]; [lia |]. destruct (whole_number 880) as [C D]; [lia |]. destruct (whole_number 48000) as [E F]; [lia |].
  repeat constructor; cbn [plain]; rewrite ?B, ?D, ?F; try assumption; lra.
Qed.
(** A second of 440 Hz is less than 0.0008 off (the whole part of it is the length of a table entry) *)
Example C91_second : 2 * PI * turn_error (N.to_nat 48000) + / 33554432 + / 8388608 < 8 / 10000.
Proof.
  unfold turn_error. rewrite INR_IZR_INZ, N_nat_Z. change (IZR (Z.of_N 48000)) with 48000. pose proof PanProofs.pi_bounds. lra.
Qed.

(** The drift: a frequency below the sample rate divided by 2^30 does not move the phase at all. At 48 kHz, 2^-16 Hz stays at the first
    sample; a quarter of a period later it should be at 1. *)
Theorem C91_slow_refuted : forall lib e, library e sin lib -> e <= 1 / 4 -> exists n y x,
  nth_error (sinwt_play lib (sinwt_init (fze 1 (-16)) (fz 48000)) (repeat WSample (S n))) n = Some (Some y) /\
  nth_error (sine_wanted 48000 (bpow radix2 (-16) / 48000) 0 0 (repeat WSample (S n))) n = Some x /\ 1 / 2 <= Rabs (val y - x).
Proof.
  intros lib e L He. destruct (first_point lib e L He) as (y & E & F & B). exists (N.to_nat 786432000), y, 1.
  split; [rewrite still by (vm_compute; reflexivity); rewrite E; reflexivity |]. split.
  - rewrite wanted_samples by apply Nat.lt_succ_diag_r. rewrite INR_IZR_INZ, N_nat_Z. change (IZR (Z.of_N 786432000)) with 786432000. change (bpow radix2 (-16)) with (/ 65536).
    replace (2 * PI * (0 + 786432000 * (/ 65536 / 48000))) with (PI / 2) by field. rewrite sin_PI2. reflexivity.
  - apply Rabs_le_inv in B. rewrite Rabs_left1; lra.
Qed.
Print Assumptions C91_slow_refuted.
(** A negative frequency stands still: -12000 Hz should be at -1 after one sample. *)
Theorem C91_negative_refuted : forall lib e, library e sin lib -> e <= 1 / 4 -> exists y x,
  nth_error (sinwt_play lib (sinwt_init (fz (-12000)) (fz 48000)) [WSample; WSample]) 1 = Some (Some y) /\
  nth_error (sine_wanted 48000 (-12000 / 48000) 0 0 [WSample; WSample]) 1 = Some x /\ 1 / 2 <= Rabs (val y - x).
Proof.
  intros lib e L He. destruct (first_point lib e L He) as (y & E & F & B). exists y, (-1).
  split; [change [WSample; WSample] with (repeat WSample 2); rewrite still by (vm_compute; reflexivity); rewrite E; reflexivity |]. split.
  - cbn [sine_wanted nth_error]. replace (2 * PI * (0 + -12000 / 48000 + 0)) with (- (PI / 2)) by field. rewrite sin_neg, sin_PI2. do 2 f_equal; lra.
  - apply Rabs_le_inv in B. rewrite Rabs_pos_eq; lra.
Qed.
Print Assumptions C91_negative_refuted.
(** An offset of a quarter of a period: the first sample should be 1 and is that of no offset. *)
Theorem C91_offset_refuted : forall lib e, library e sin lib -> e <= 1 / 4 -> exists y x,
  nth_error (sinwt_play lib (sinwt_init (fz 440) (fz 48000)) [WOffset (fze 1 (-2)); WSample]) 0 = Some (Some y) /\
  nth_error (sine_wanted 48000 (440 / 48000) 0 0 [WOffset (fze 1 (-2)); WSample]) 0 = Some x /\ 1 / 2 <= Rabs (val y - x).
Proof.
  intros lib e L He. destruct (first_point lib e L He) as (y & E & F & B). exists y, 1. split.
  - rewrite play_entries. cbn [exact_run exact_step fst snd app map nth_error x_total x_offset x_inc].
    assert (T : N.to_nat (entry (0 + as_u32 (fmul (fze 1 (-2)) (fz 65536)))) = 0%nat) by (vm_compute; reflexivity). rewrite T, E. reflexivity.
  - assert (Q : val (fze 1 (-2) : f64) = / 4).
    { assert (S0 : B2SF (fze 1 (-2) : f64) = SpecFloat.S754_finite false 4503599627370496 (-54)) by (vm_compute; reflexivity).
      unfold val. rewrite <- SF2R_B2SF, S0. change (IZR 4503599627370496 * / IZR 18014398509481984 = / 4). lra. }
    cbn [sine_wanted nth_error]. rewrite Q. replace (2 * PI * (0 + / 4)) with (PI / 2) by field. rewrite sin_PI2. split; [reflexivity |].
    apply Rabs_le_inv in B. rewrite Rabs_left1; lra.
Qed.
Print Assumptions C91_offset_refuted.
