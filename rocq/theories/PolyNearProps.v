(** C90: rounding does not make the band-limited waveforms jump. *)
From Coq Require Import Reals Lra.
From Flocq Require Import Core BinarySingleNaN.
From Verif Require Import Base FloatBase PolyModel PolySpec PolyProofs PolyWave PolyFloatSpec PolyFloatProofs PolyNearSpec PolyNearProofs.
Local Open Scope R_scope.

Section Facts.
Context {prec emax : Z} {I : ieee prec emax}.
Lemma reached_ok : forall fpi ftau fsin fcos (s : poly (binary_float prec emax)), reached (Fops fpi ftau fsin fcos) s -> poly_ok s.
Proof.
  intros fpi ftau fsin fcos s (w & freq & sr & l & F1 & F2 & S1 & S2 & H & ->). cbn [poly_run].
  apply (run_ok fpi ftau fsin fcos l _ (init_ok fpi ftau fsin fcos w freq sr F1 F2 S1 S2) H).
Qed.
Lemma audible_moving : forall fpi ftau fsin fcos (s : poly (binary_float prec emax)), poly_ok s -> audible (Fops fpi ftau fsin fcos) s ->
  moving (p_dt s).
Proof. intros fpi ftau fsin fcos s H [A B]. split; [apply (test_slow fpi ftau fsin fcos s H B) | exact A]. Qed.
End Facts.

(** In [f32] and [f64] every sample of the sawtooth and of the ramp is within 7 grains of the exact waveform at the same phase, and
    of the square within 11, except at the phase of C89. *)
Theorem C90_close_partial : forall prec emax (I : ieee prec emax) fpi ftau fsin fcos (s : poly (binary_float prec emax)),
  reached (Fops fpi ftau fsin fcos) s -> audible (Fops fpi ftau fsin fcos) s ->
  let y := val (next_sample (Fops fpi ftau fsin fcos) s) in
  (p_wave s = Sawtooth \/ p_wave s = Ramp -> Rabs (y - ideal s) <= 7 * grain s) /\
  (p_wave s = Square -> ~ trap (p_t s) -> Rabs (y - ideal s) <= 11 * grain s).
Proof.
  intros prec emax I fpi ftau fsin fcos s R A y. pose proof (reached_ok fpi ftau fsin fcos s R) as H.
  pose proof (audible_moving fpi ftau fsin fcos s H A) as M. assert (T : phase_ok (p_t s)) by apply H. destruct A as [_ A].
  unfold y, ideal, next_sample, get_freq_in_hz. cbn [Fops q_leb q_div q_mul q_frac]. rewrite A.
  change (grain s) with (ratio (p_dt s)). destruct (ratio_ok (p_dt s) M) as (Q & _ & _).
  split.
  - intros [W | W]; rewrite W; cbn [wave_at].
    + apply saw_near; assumption.
    + apply Rle_trans with (5 * ratio (p_dt s)); [apply ramp_near; assumption | lra].
  - intros W X. rewrite W. cbn [wave_at]. apply square_near; assumption.
Qed.
Print Assumptions C90_close_partial.
(** So the rounded sawtooth and ramp have no jumps either: between any two phases, at the same step, they change by at most what C61
    allows and a few grains; the square too except at that phase. *)
Theorem C90_no_jump_partial : forall prec emax (I : ieee prec emax) fpi ftau fsin fcos (s s' : poly (binary_float prec emax)),
  let O := Fops fpi ftau fsin fcos in
  reached O s -> audible O s -> reached O s' -> audible O s' -> p_wave s' = p_wave s -> p_dt s' = p_dt s ->
  In (p_wave s) [Sawtooth; Ramp; Square] -> (p_wave s = Square -> ~ trap (p_t s) /\ ~ trap (p_t s')) ->
  Rabs (val (next_sample O s) - val (next_sample O s')) <= 2 / val (p_dt s) * circle (val (p_t s)) (val (p_t s')) + 22 * grain s.
Proof.
  intros prec emax I fpi ftau fsin fcos s s' O R A R' A' W D In_ X.
  destruct (C90_close_partial prec emax I fpi ftau fsin fcos s R A) as [C1 C2].
  destruct (C90_close_partial prec emax I fpi ftau fsin fcos s' R' A') as [C1' C2'].
  pose proof (reached_ok fpi ftau fsin fcos s R) as H. pose proof (reached_ok fpi ftau fsin fcos s' R') as H'.
  destruct (audible_moving fpi ftau fsin fcos s H A) as [[_ D1] D2]. destruct (ratio_ok (p_dt s) (audible_moving fpi ftau fsin fcos s H A)) as (Q & _ & _).
  change (ratio (p_dt s)) with (grain s) in Q. destruct H as [[_ T] _]. destruct H' as [[_ T'] _].
  assert (G : grain s' = grain s) by (unfold grain; rewrite D; reflexivity). rewrite G, W in *. fold O in C1, C2, C1', C2'.
  assert (E : Rabs (ideal s - ideal s') <= 2 / val (p_dt s) * circle (val (p_t s)) (val (p_t s'))).
  { unfold ideal. rewrite W, D. cbn [In] in In_. destruct In_ as [<- | [<- | [<- | []]]]; cbn [wave_at].
    - apply smooth_saw; lra.
    - apply smooth_ramp; lra.
    - apply smooth_sqr; lra. }
  assert (Y : Rabs (val (next_sample O s) - ideal s) <= 11 * grain s /\ Rabs (val (next_sample O s') - ideal s') <= 11 * grain s).
  { cbn [In] in In_. destruct In_ as [K | [K | [K | []]]]; rewrite <- K in *.
    - specialize (C1 (or_introl eq_refl)). specialize (C1' (or_introl eq_refl)). lra.
    - specialize (C1 (or_intror eq_refl)). specialize (C1' (or_intror eq_refl)). lra.
    - destruct (X eq_refl) as [X1 X2]. specialize (C2 eq_refl X1). specialize (C2' eq_refl X2). lra. }
  destruct Y as [Y Y']. apply Rabs_le_inv in Y. apply Rabs_le_inv in Y'. apply Rabs_le_inv in E. apply Rabs_le. lra.
Qed.
Print Assumptions C90_no_jump_partial.

(** The square does jump: 7200 Hz at 48 kHz in [f32], the eleventh sample is 2 and at the neighbouring phase, one rounding step below, it is
    below 2^-20 (which is what the exact waveform gives there too). *)
Definition f32n : poly_ops (binary_float 24 128) :=
  Fops (fze 13176795 (-22)) (fze 13176795 (-21)) (fun _ => fzero) (fun _ => fzero).
Definition sq7200 : poly (binary_float 24 128) := poly_run f32n (poly_new f32n Square (fz 7200)) (PInit (fz 48000) :: repeat PSample 10).
Theorem C90_square_refuted :
  let below := poly_run f32n sq7200 [PSync (fze 16777214 (-25))] in
  feqb (p_t sq7200) (fze 16777215 (-25)) = true /\ feqb (next_sample f32n sq7200) (fz 2) = true /\
  fltb (fabs (next_sample f32n below)) (fze 1 (-20)) = true.
Proof. vm_compute. repeat split; reflexivity. Qed.
Print Assumptions C90_square_refuted.
(** The hypotheses are met by ordinary settings: that oscillator as a sawtooth. *)
Example C90_case : let s := poly_run f32n (poly_new f32n Sawtooth (fz 7200)) (PInit (fz 48000) :: repeat PSample 3) in
  reached f32n s /\ audible f32n s.
Proof.
  cbv zeta. split.
  - exists Sawtooth, (fz 7200), (fz 48000), (repeat PSample 3). destruct (fz_small (prec := 24) (emax := 128) 7200) as [V F]; [cbn; lia |].
    destruct (fz_small (prec := 24) (emax := 128) 48000) as [V' F']; [cbn; lia |]. rewrite V, V'.
    assert (1 * bpow radix2 20 <= bpow radix2 100) by (rewrite Rmult_1_l; apply bpow_le; lia). assert (bpow radix2 20 = 1048576) by reflexivity.
    repeat split; try assumption; try lra. repeat constructor.
  - assert (P : fltb (fzero : binary_float 24 128) (p_dt (poly_run f32n (poly_new f32n Sawtooth (fz 7200)) (PInit (fz 48000) :: repeat PSample 3))) = true) by (vm_compute; reflexivity).
    split; [| vm_compute; reflexivity]. apply fltb_true in P; [rewrite val_fzero in P; exact P | reflexivity | vm_compute; reflexivity].
Qed.
