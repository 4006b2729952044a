(** Properties C01-C06: time arithmetic.  Specification: [TimeSpec] (exact ticks). *)
From Verif Require Import Base TimeModel TimeSpec TimeProofs.
Local Open Scope N_scope.

(** C01: addition is exact, keeps values normalised, and panics (debug) exactly on overflow. *)
Theorem C01_seconds_add_exact : forall a b, sec_normal a -> sec_normal b ->
  if sec_ticks a + sec_ticks b <? U32 * TS
  then exists c, sec_add a b = Some c /\ sec_normal c /\ sec_ticks c = sec_ticks a + sec_ticks b
  else sec_add a b = None.
Proof. exact sec_add_exact. Qed.
Print Assumptions C01_seconds_add_exact.
Example C01_seconds_case :
  sec_normal (mk_seconds 5 (TS - 1)) /\ sec_normal (mk_seconds 7 3) /\
  sec_add (mk_seconds 5 (TS - 1)) (mk_seconds 7 3) = Some (mk_seconds 13 2).
Proof. vm_compute. repeat split. Qed.

Theorem C01_beats_add_exact : forall a b, beats_normal a -> beats_normal b ->
  if beats_ticks a + beats_ticks b <? U32 * TB
  then exists c, beats_add a b = Some c /\ beats_normal c /\ beats_ticks c = beats_ticks a + beats_ticks b
  else beats_add a b = None.
Proof. exact beats_add_exact. Qed.
Print Assumptions C01_beats_add_exact.
Example C01_beats_case :
  beats_normal (mk_beats 5 (TB - 1)) /\ beats_normal (mk_beats 7 (TB - 4)) /\
  beats_add (mk_beats 5 (TB - 1)) (mk_beats 7 (TB - 4)) = Some (mk_beats 13 (TB - 5)).
Proof. vm_compute. repeat split. Qed.

Theorem C01_seconds_add_comm : forall a b, sec_add a b = sec_add b a.
Proof. exact sec_add_comm. Qed.
Print Assumptions C01_seconds_add_comm.

Theorem C01_seconds_add_assoc : forall a b c ab bc,
  sec_normal a -> sec_normal b -> sec_normal c ->
  sec_add a b = Some ab -> sec_add b c = Some bc -> sec_add ab c = sec_add a bc.
Proof. exact sec_add_assoc. Qed.
Print Assumptions C01_seconds_add_assoc.

Theorem C01_seconds_add_monotone : forall a b c ac bc,
  sec_normal a -> sec_normal b -> sec_normal c ->
  sec_add a c = Some ac -> sec_add b c = Some bc -> sec_ltb ac bc = sec_ltb a b.
Proof. exact sec_add_mono. Qed.
Print Assumptions C01_seconds_add_monotone.

Theorem C01_beats_sum_exact : forall l, Forall beats_normal l ->
  fold_right (fun b s => beats_ticks b + s) 0 l < U32 * TB ->
  exists c, beats_sum beats_zero l = Some c /\ beats_normal c /\
            beats_ticks c = fold_right (fun b s => beats_ticks b + s) 0 l.
Proof. exact beats_sum_zero_exact. Qed.
Print Assumptions C01_beats_sum_exact.

(** The documented fractions are exact: [fraction] copies of [1/fraction] make one beat. *)
Theorem C01_beats_fraction_exact : forall fraction whole frac,
  (fraction | TB) -> whole < U32 -> frac < fraction ->
  exists b, beats_from_fractional fraction whole frac = Some b /\ beats_normal b /\
            beats_ticks b * fraction = (whole * fraction + frac) * TB.
Proof. exact beats_fraction_exact. Qed.
Print Assumptions C01_beats_fraction_exact.
(** time.rs:268-269, the list in the documentation *)
Example C01_documented_fractions :
  forallb (fun f => TB mod f =? 0)
    [2;3;4;5;6;7;8;9;10;12;14;15;16;18;20;24;32;64;128;256;512;1920] = true.
Proof. vm_compute; reflexivity. Qed.

(** C02 *)
Theorem C02_seconds_checked_sub : forall a b, sec_normal a -> sec_normal b ->
  if sec_ticks b <=? sec_ticks a
  then exists c, sec_checked_sub a b = Some (Some c) /\ sec_normal c /\ sec_ticks c + sec_ticks b = sec_ticks a
  else sec_checked_sub a b = Some None.
Proof. exact sec_checked_sub_exact. Qed.
Print Assumptions C02_seconds_checked_sub.
Theorem C02_seconds_saturating_sub : forall a b, sec_normal a -> sec_normal b ->
  exists c, sec_saturating_sub a b = Some c /\ sec_normal c /\ sec_ticks c = sec_ticks a - sec_ticks b.
Proof. exact sec_saturating_sub_exact. Qed.
Print Assumptions C02_seconds_saturating_sub.
Theorem C02_beats_checked_sub : forall a b, beats_normal a -> beats_normal b ->
  if beats_ticks b <=? beats_ticks a
  then exists c, beats_checked_sub a b = Some (Some c) /\ beats_normal c /\ beats_ticks c + beats_ticks b = beats_ticks a
  else beats_checked_sub a b = Some None.
Proof. exact beats_checked_sub_exact. Qed.
Print Assumptions C02_beats_checked_sub.
Theorem C02_beats_saturating_sub : forall a b, beats_normal a -> beats_normal b ->
  exists c, beats_saturating_sub a b = Some c /\ beats_normal c /\ beats_ticks c = beats_ticks a - beats_ticks b.
Proof. exact beats_saturating_sub_exact. Qed.
Print Assumptions C02_beats_saturating_sub.
Example C02_case :
  sec_checked_sub (mk_seconds 3 5) (mk_seconds 1 7) = Some (Some (mk_seconds 1 (TS - 2))) /\
  beats_checked_sub (mk_beats 3 5) (mk_beats 3 7) = Some None.
Proof. split; vm_compute; reflexivity. Qed.

(** C03 *)
Theorem C03_seconds_order : forall a b, sec_normal a -> sec_normal b ->
  (sec_ltb a b = true <-> sec_ticks a < sec_ticks b) /\
  (sec_leb a b = true <-> sec_ticks a <= sec_ticks b) /\
  (sec_eqb a b = true <-> sec_ticks a = sec_ticks b).
Proof. exact sec_order. Qed.
Print Assumptions C03_seconds_order.
Theorem C03_beats_order : forall a b, beats_normal a -> beats_normal b ->
  (beats_ltb a b = true <-> beats_ticks a < beats_ticks b) /\
  (beats_leb a b = true <-> beats_ticks a <= beats_ticks b) /\
  (beats_eqb a b = true <-> beats_ticks a = beats_ticks b).
Proof. exact beats_order. Qed.
Print Assumptions C03_beats_order.
(** [Seconds::MAX] is not earlier than any value of the type. *)
Theorem C03_seconds_max : forall s, s_whole s < U32 -> s_sub s < U32 -> sec_leb s sec_max = true /\ sec_ticks s <= sec_ticks sec_max.
Proof.
  intros s H1 H2. unfold sec_leb, sec_cmp, sec_ticks, sec_max. cbn [s_whole s_sub]. split; [| nia].
  destruct (N.eqb_spec (s_whole s) (U32 - 1)) as [E | E].
  - destruct (N.compare_spec (s_sub s) (U32 - 1)); try reflexivity. lia.
  - destruct (N.compare_spec (s_whole s) (U32 - 1)); try reflexivity. lia.
Qed.
Print Assumptions C03_seconds_max.
Example C03_case : sec_ltb (mk_seconds 1 (TS - 1)) (mk_seconds 2 0) = true.
Proof. vm_compute; reflexivity. Qed.

(** C04: full statement (false): every frame count survives, at every sample rate. *)
Theorem C04_frames_roundtrip_refuted :
  exists sr n s, 0 < sr < U32 /\ n < U32 * sr /\
    sec_from_samples n sr = Some s /\ sec_to_samples s sr <> Some n.
Proof. exact sec_roundtrip_counterexample. Qed.
Print Assumptions C04_frames_roundtrip_refuted.

(** C04: it holds exactly for the sample rates that divide the tick rate. *)
Theorem C04_frames_roundtrip_iff_partial : forall sr, 0 < sr < U32 ->
  ((forall n, n < U32 * sr ->
      exists s, sec_from_samples n sr = Some s /\ sec_to_samples s sr = Some n) <-> (sr | TS)).
Proof. exact sec_roundtrip_iff. Qed.
Print Assumptions C04_frames_roundtrip_iff_partial.
Example C04_common_rates_divide :
  forallb (fun sr => TS mod sr =? 0)
    [8000; 11025; 16000; 22050; 32000; 44100; 48000; 88200; 96000; 176400; 192000] = true.
Proof. vm_compute; reflexivity. Qed.

(** C04: conversion between two rates through [Seconds] is the exact floor when the first divides. *)
Theorem C04_resample_floor_partial : forall n sr1 sr2,
  0 < sr1 < U32 -> sr2 < U32 -> n < U32 * sr1 -> (sr1 | TS) ->
  exists s, sec_from_samples n sr1 = Some s /\ sec_to_samples s sr2 = Some (n * sr2 / sr1).
Proof. exact sec_resample. Qed.
Print Assumptions C04_resample_floor_partial.

(** C04: at any other rate up to the tick rate at most one frame is lost. *)
Theorem C04_frames_roundtrip_loss_partial : forall n sr, 0 < sr <= TS -> n < U32 * sr ->
  exists s m, sec_from_samples n sr = Some s /\ sec_to_samples s sr = Some m /\ m <= n <= m + 1.
Proof. exact sec_roundtrip_loss. Qed.
Print Assumptions C04_frames_roundtrip_loss_partial.
Example C04_case :
  (s <- sec_from_samples 44101 44100 ;; sec_to_samples s 44100) = Some 44101 /\
  (s <- sec_from_samples 44101 44100 ;; sec_to_samples s 48000) = Some 48001.
Proof. vm_compute. split; reflexivity. Qed.

(** C05 *)
Theorem C05_tesimals_roundtrip_partial : forall s, sec_normal s ->
  exists x, sec_to_tesimals s = Some x /\ x = sec_ticks s /\ sec_from_tesimals x = Some s.
Proof. exact sec_tesimals_roundtrip. Qed.
Print Assumptions C05_tesimals_roundtrip_partial.
Theorem C05_ticks_roundtrip_partial : forall x, x < U32 * TS ->
  exists s, sec_from_tesimals x = Some s /\ sec_to_tesimals s = Some x.
Proof. exact sec_ticks_roundtrip. Qed.
Print Assumptions C05_ticks_roundtrip_partial.
(** Full statement (every representable value, such as [Seconds::MAX]; every u64): false. *)
Theorem C05_tesimals_roundtrip_refuted :
  (exists s x, s_whole s < U32 /\ s_sub s < U32 /\ sec_to_tesimals s = Some x /\ sec_from_tesimals x <> Some s) /\
  (exists x s y, x < U64 /\ sec_from_tesimals x = Some s /\ sec_to_tesimals s = Some y /\ y <> x).
Proof. exact sec_tesimals_counterexample. Qed.
Print Assumptions C05_tesimals_roundtrip_refuted.

(** C06: half a second times half a second is 70 million seconds. *)
Theorem C06_mul_refuted :
  exists a b c, sec_normal a /\ sec_normal b /\ sec_mul a b = Some c /\
    sec_ticks a * sec_ticks b / TS + 1 < sec_ticks c.
Proof. exact sec_mul_counterexample. Qed.
Print Assumptions C06_mul_refuted.
(** C06: and 1.5 s * 2 s is 2 s. *)
Theorem C06_mul_too_small_refuted :
  exists a b c, sec_normal a /\ sec_normal b /\ sec_mul a b = Some c /\
    sec_ticks c + 1 < sec_ticks a * sec_ticks b / TS.
Proof. exact sec_mul_counterexample2. Qed.
Print Assumptions C06_mul_too_small_refuted.
(** C06: what holds: whole seconds (on both sides) multiply exactly. *)
Theorem C06_mul_whole_partial : forall a b, sec_normal a -> sec_normal b ->
  s_sub a = 0 -> s_sub b = 0 -> s_whole a * s_whole b < U32 ->
  exists c, sec_mul a b = Some c /\ sec_ticks c * TS = sec_ticks a * sec_ticks b.
Proof. exact sec_mul_whole. Qed.
Print Assumptions C06_mul_whole_partial.
(** C06: the exact condition. The product keeps the seconds times the seconds and adds the subsecond parts multiplied as if a tick were a
    second, so that it is the rounded down product exactly for the pairs for which this happens to be the sum of the three missing terms. *)
Theorem C06_exactly : forall a b, sec_normal a -> sec_normal b -> s_whole a * s_whole b + s_sub a * s_sub b / TS < U32 ->
  exists c, sec_mul a b = Some c /\ sec_ticks c = s_whole a * s_whole b * TS + s_sub a * s_sub b /\
    (sec_ticks c = sec_ticks a * sec_ticks b / TS <->
     s_sub a * s_sub b = s_whole a * s_sub b + s_whole b * s_sub a + s_sub a * s_sub b / TS).
Proof.
  intros [w f] [w' f'] [Hw Hf] [Hw' Hf'] H. cbn [s_whole s_sub] in *.
  assert (Hp : f * f' < U64).
  { apply N.lt_trans with (TS * TS); [apply N.mul_lt_mono; assumption|reflexivity]. }
  assert (Hd : f * f' = TS * (f * f' / TS) + f * f' mod TS) by (apply N.div_mod; discriminate).
  assert (Hm : f * f' mod TS < TS) by (apply N.mod_lt; discriminate).
  assert (Hww : w * w' < U32) by (eapply N.le_lt_trans; [apply N.le_add_r|exact H]).
  assert (Hticks : forall c, sec_ticks c = w * w' * TS + f * f' ->
    (sec_ticks c = sec_ticks (mk_seconds w f) * sec_ticks (mk_seconds w' f') / TS <-> f * f' = w * f' + w' * f + f * f' / TS)).
  { intros c ->. unfold sec_ticks. cbn [s_whole s_sub].
    replace ((w * TS + f) * (w' * TS + f')) with (f * f' + (w * w' * TS + w * f' + w' * f) * TS) by ring.
    rewrite N.div_add by discriminate. split; intros E; lia. }
  unfold sec_mul. cbn [s_whole s_sub]. unfold mul_w. rewrite (proj2 (N.ltb_lt _ _) Hww), (proj2 (N.ltb_lt _ _) Hp). cbn [bind].
  destruct (TS <? f * f') eqn:E.
  - unfold add_w, as_u32. rewrite (N.mod_small (f * f' / TS)) by lia. rewrite (N.mod_small (f * f' mod TS)) by (eapply N.lt_trans; [exact Hm|reflexivity]).
    rewrite (proj2 (N.ltb_lt _ _) H). cbn [bind]. eexists. split; [reflexivity|].
    match goal with |- ?A = _ /\ _ => assert (Ht : A = w * w' * TS + f * f') end.
    { unfold sec_ticks. cbn [s_whole s_sub]. rewrite Hd at 3. ring. }
    split; [exact Ht|]. apply Hticks. exact Ht.
  - apply N.ltb_ge in E. unfold as_u32. rewrite (N.mod_small (f * f')) by (eapply N.le_lt_trans; [exact E|reflexivity]).
    eexists. split; [reflexivity|]. split; [reflexivity|]. apply Hticks. reflexivity.
Qed.
Print Assumptions C06_exactly.
Example C06_case : sec_mul (mk_seconds 6 0) (mk_seconds 7 0) = Some (mk_seconds 42 0).
Proof. vm_compute; reflexivity. Qed.
