(** C59: the phase of the band-limited oscillator; C60: its range; C61: no jumps. *)
From Coq Require Import Reals Lra.
From Flocq Require Import Core BinarySingleNaN.
From Verif Require Import Base FloatBase PolyModel PolySpec PolyProofs PolyWave.
Local Open Scope R_scope.

(** [f32], with stand-ins for the sine and cosine, which none of the examples evaluates *)
Definition f32p : poly_ops (binary_float 24 128) :=
  Fops (fze 13176795 (-22)) (fze 13176795 (-21)) (fun _ => fzero) (fun _ => fzero).

(** * C59 *)
(** The phase stays in [0, 1) through every history of sample rate, frequency, pulse width, waveform and phase changes in range,
    in [f32] and [f64]. *)
Theorem C59_phase_partial : forall prec emax (I : ieee prec emax) fpi ftau fsin fcos w freq sr l,
  fin freq -> 0 <= val freq <= bpow radix2 100 -> fin sr -> 1 <= val sr -> Forall op_ok l ->
  phase_ok (p_t (poly_run (Fops fpi ftau fsin fcos) (poly_new (Fops fpi ftau fsin fcos) w freq) (PInit sr :: l))).
Proof.
  intros prec emax I fpi ftau fsin fcos w freq sr l F1 F2 S1 S2 H. cbn [poly_run].
  apply (run_ok fpi ftau fsin fcos l _ (init_ok fpi ftau fsin fcos w freq sr F1 F2 S1 S2) H).
Qed.
Print Assumptions C59_phase_partial.
(** After [n] samples it is off from the exact phase by no more than [n] rounding errors. *)
Theorem C59_drift_partial : forall prec emax (I : ieee prec emax) fpi ftau fsin fcos n (s : poly (binary_float prec emax)),
  phase_ok (p_t s) -> fin (p_dt s) -> 0 <= val (p_dt s) < 1 ->
  exists k, Rabs (val (p_t (poly_run (Fops fpi ftau fsin fcos) s (repeat PSample n))) - (val (p_t s) + INR n * val (p_dt s) - IZR k))
    <= INR n * bpow radix2 (- prec).
Proof. intros prec emax I. exact drift. Qed.
Print Assumptions C59_drift_partial.
(** In exact arithmetic it is the exact phase, and changing the sample rate keeps the frequency. *)
Theorem C59_exact_partial : forall s n, 0 <= p_t s < 1 -> 0 <= p_dt s ->
  p_t (poly_run RPops s (repeat PSample n)) = exact_phase (p_t s) (p_dt s) n.
Proof. exact phase_exact. Qed.
Print Assumptions C59_exact_partial.
Theorem C59_sample_rate_partial : forall s sr, sr <> 0 ->
  get_freq_in_hz RPops (fst (poly_step RPops s (PSetSr sr))) = get_freq_in_hz RPops s.
Proof. exact keeps_freq. Qed.
Print Assumptions C59_sample_rate_partial.
(** A negative frequency leaves the range. *)
Theorem C59_negative_frequency_refuted :
  let s := poly_run f32p (poly_new f32p Sawtooth (fz (-12000))) [PInit (fz 48000); PSample] in
  feqb (p_t s) (fze (-1) (-2)) = true /\ fltb (p_t s) fzero = true.
Proof. vm_compute. split; reflexivity. Qed.
Print Assumptions C59_negative_frequency_refuted.
(** A phase set to -1 (or to any negative whole number) becomes 1, and so does a tiny negative phase. *)
Theorem C59_sync_refuted :
  let sync_to x := p_t (poly_run f32p (poly_new f32p Sawtooth (fz 440)) [PInit (fz 48000); PSync x]) in
  feqb (sync_to (fz (-1))) fone = true /\ feqb (sync_to (fze (-1) (-30))) fone = true.
Proof. vm_compute. split; reflexivity. Qed.
Print Assumptions C59_sync_refuted.
(** A frequency set before [init] makes the phase NaN, and no later frequency repairs it. *)
Theorem C59_early_frequency_refuted :
  let s := poly_run f32p (poly_new f32p Sawtooth (fz 440)) [PFreq (fz 220); PInit (fz 48000); PSample; PFreq (fz 440); PSample] in
  is_nan (p_t s) = true.
Proof. vm_compute. reflexivity. Qed.
Print Assumptions C59_early_frequency_refuted.
(** A second [init] with another sample rate keeps the old step: the pitch changes (exact in [f32] here). *)
Theorem C59_second_init_refuted :
  let s := poly_run f32p (poly_new f32p Sawtooth (fz 1000)) [PInit (fz 48000); PInit (fz 96000)] in
  feqb (p_hz s) (fz 1000) = true /\ feqb (get_freq_in_hz f32p s) (fz 2000) = true.
Proof. vm_compute. split; reflexivity. Qed.
Print Assumptions C59_second_init_refuted.
Example C59_history : Forall (@op_ok 24 128) [PFreq fone; PSample; PSync fone; PSetDt fone; PInit fone; PPw B754_nan].
Proof.
  assert (B : 1 <= bpow radix2 100) by (change 1 with (bpow radix2 0); apply bpow_le; discriminate).
  repeat (apply Forall_cons; [cbn [op_ok]; rewrite ?val_fone; repeat split; (apply fin_fone || lra || exact Logic.I) |]). apply Forall_nil.
Qed.
Example C59_run :
  map (fun n => B2SF (p_t (poly_run f32p (poly_new f32p Sawtooth (fz 18000)) (PInit (fz 48000) :: repeat PSample n)))) [1; 2; 3; 4]%nat =
  map (fun x : binary_float 24 128 => B2SF x) [fze 3 (-3); fze 3 (-2); fze 1 (-3); fze 1 (-1)].
Proof. vm_compute. reflexivity. Qed.

(** * C60 *)
(** In exact arithmetic, after any history of changes in range, no sample exceeds the bound of the waveform: 1 for ten of the
    fourteen waveforms, 2 for the rectangle, 3 for the triangular pulse and the rectified sines. *)
Theorem C60_range_partial : forall w freq sr l, 0 <= freq -> 0 < sr -> Forall op_in_range l ->
  let s := poly_run RPops (poly_new RPops w freq) (PInit sr :: l) in
  Rabs (next_sample RPops s) <= wave_bound (p_wave s).
Proof.
  intros w freq sr l F S H s. apply Rabs_le. apply sample_range. unfold s. cbn [poly_run].
  apply run_in_range; [apply init_in_range |]; assumption.
Qed.
Print Assumptions C60_range_partial.
(** The rectangle goes beyond -1: it is not centred around the pulse but around its mean. *)
Theorem C60_rectangle_refuted :
  let s := mk_poly Rectangle (fz 48000) (fz 480) (fze 1 (-7)) (fze 7 (-3)) (fze 15 (-4)) in
  feqb (next_sample f32p s) (fze (-7) (-2)) = true.
Proof. vm_compute. reflexivity. Qed.
Print Assumptions C60_rectangle_refuted.
(** The half-wave rectified sine goes beyond 1 (exact arithmetic). *)
Theorem C60_half_wave_refuted : 1 < next_sample RPops (mk_poly HalfWaveRectifiedSine 48000 0 0 (1 / 2) (1 / 4)).
Proof.
  unfold next_sample, get_freq_in_hz. unq. cbn [p_wave p_sr p_hz p_dt p_pw p_t]. unfold Rleb. destruct (Rle_dec (48000 / 4) (0 * 48000)); [lra |].
  unfold w_half. unq. unfold Rltb. destruct (Rlt_dec (1 / 4) (1 / 2)); [| lra].
  replace (1 / 4 * (2 * PI)) with (PI / 2) by lra. rewrite sin_PI2.
  pose proof PI_3_4 as P. assert (E : 2 / PI * PI = 2) by (field; lra). set (z := 2 / PI) in *. clearbody z.
  assert (z < 1) by nra. replace (2 * PI * 0 * (blamp RPops (1 / 4) 0 + blamp RPops (wrap RPops (1 / 4 + 1 / 2)) 0)) with 0 by ring. lra.
Qed.
Print Assumptions C60_half_wave_refuted.
(** With a narrow pulse width the triangular pulse divides rounding errors by the width: a sample above 1000 ([f32]). *)
Theorem C60_narrow_pulse_refuted :
  let s := mk_poly TriangularPulse (fz 48000) (fz 9600) (fze 13 (-6)) (fze 1 (-40)) (fze 13421773 (-26)) in
  fltb (fz 1000) (fabs (next_sample f32p s)) = true.
Proof. vm_compute. reflexivity. Qed.
Print Assumptions C60_narrow_pulse_refuted.
(** With a negative frequency the sawtooth leaves -1..1 ([f32]). *)
Theorem C60_negative_frequency_refuted :
  let s := poly_run f32p (poly_new f32p Sawtooth (fz (-12000))) [PInit (fz 48000); PSample; PSample; PSample] in
  fltb (next_sample f32p s) (fneg fone) = true.
Proof. vm_compute. reflexivity. Qed.
Print Assumptions C60_negative_frequency_refuted.
Example C60_history : Forall op_in_range [PFreq 440; PSample; PPw (1 / 3); PWave Rectangle; PSetSr 44100; PSync 7; PSample].
Proof. repeat (apply Forall_cons; [cbn [op_in_range]; unfold width_ok; lra || exact Logic.I |]). apply Forall_nil. Qed.
(** The bound of 1 is reached. *)
Example C60_reached : next_sample RPops (mk_poly Square 48000 480 (1 / 100) (1 / 2) (1 / 4)) = 1.
Proof.
  unfold next_sample, get_freq_in_hz. unq. cbn [p_wave p_sr p_hz p_dt p_pw p_t]. unfold Rleb. destruct (Rle_dec (48000 / 4) (1 / 100 * 48000)); [lra |].
  rewrite sqr_eq by lra. unfold sq. rewrite (fr_id (1 / 4 + 1 / 2)) by lra. destruct (Rlt_dec (1 / 4) (1 / 2)); [| lra].
  unfold blep. unq. unfold Rltb. repeat match goal with |- context [Rlt_dec ?x ?y] => destruct (Rlt_dec x y); try lra end.
Qed.

(** * C61 *)
(** As a function of the phase, around the circle, the waveforms that jump without the correction have none: they change by at
    most [2 / dt] times the distance. *)
Theorem C61_no_jump : forall w dt pw t t', In w corrected -> 0 < dt < 1 / 4 -> width_ok pw -> 0 <= t < 1 -> 0 <= t' < 1 ->
  Rabs (wave_at w dt pw t - wave_at w dt pw t') <= 2 / dt * circle t t'.
Proof.
  intros w dt pw t t' _ D W T T'.
  assert (Z : Rabs (0 - 0) <= 2 / dt * circle t t').
  { rewrite Rminus_0_r, Rabs_R0. apply Rmult_le_pos; [apply div_nonneg; lra |]. unfold circle.
    assert (Rabs (t - t') <= 1) by (apply Rabs_le; lra). pose proof (Rabs_pos (t - t')). apply Rmin_glb; lra. }
  destruct w; cbn [wave_at]; try exact Z.
  - apply smooth_saw; assumption.
  - apply smooth_sqr; assumption.
  - apply smooth_rect; assumption.
  - apply smooth_ramp; assumption.
  - apply smooth_sqr2; assumption.
Qed.
Print Assumptions C61_no_jump.
(** [next_sample] outputs these functions at the current phase. *)
Theorem C61_output : forall s, 0 < p_sr s -> 0 < p_dt s < 1 / 4 ->
  In (p_wave s) corrected ->
  next_sample RPops s = wave_at (p_wave s) (p_dt s) (p_pw s) (p_t s).
Proof.
  intros s Sr D H. unfold next_sample, get_freq_in_hz. unq. unfold Rleb.
  destruct (Rle_dec (p_sr s / 4) (p_dt s * p_sr s)) as [L | L]; [nra |].
  cbn [corrected In] in H. destruct (p_wave s); try reflexivity; exfalso; repeat (destruct H as [H | H]; [discriminate H |]); exact H.
Qed.
Print Assumptions C61_output.
(** Without the correction the sawtooth does jump: across phase one half by almost 2 (the same code with a step of zero). *)
Example C61_uncorrected : w_saw RPops (1 / 2) 0 = -1 /\ w_saw RPops (49 / 100) 0 = 98 / 100.
Proof.
  unfold w_saw. unq. rewrite !wrap_fr by lra. rewrite (fr_shift (1 / 2 + 1 / 2) 1 0) by lra. rewrite (fr_id 0) by lra. rewrite (fr_id (49 / 100 + 1 / 2)) by lra.
  unfold blep. unq. unfold Rltb. repeat match goal with |- context [Rlt_dec ?x ?y] => destruct (Rlt_dec x y); try lra end.
Qed.
