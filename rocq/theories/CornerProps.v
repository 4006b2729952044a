(** The band-limited waveforms have no jumps and no corners (C84). *)
From Coq Require Import Reals Lra.
From Flocq Require Import Core.
From Verif Require Import Base PolyModel PolySpec PolyWave CornerSpec CornerProofs CornerWave.
Local Open Scope R_scope.

Lemma below : forall w sr hz dt pw t, 0 < sr -> 0 < dt < 1 / 4 -> next_sample RPops (mk_poly w sr hz dt pw t) =
  match w with
  | Sine => w_sin RPops t | Cosine => w_cos RPops t | Triangle => w_tri RPops t dt | Square => w_sqr RPops t dt
  | Rectangle => w_rect RPops t dt pw | Sawtooth => w_saw RPops t dt | Ramp => w_ramp RPops t dt
  | ModifiedTriangle => w_tri2 RPops t dt pw | ModifiedSquare => w_sqr2 RPops t dt pw
  | HalfWaveRectifiedSine => w_half RPops t dt | FullWaveRectifiedSine => w_full RPops t dt
  | TriangularPulse => w_trip RPops t dt pw | TrapezoidFixed => w_trap RPops t dt | TrapezoidVariable => w_trap2 RPops t dt pw
  end.
Proof. intros w sr hz dt pw t S D. unfold next_sample, get_freq_in_hz. unq. cbn [p_wave p_sr p_hz p_dt p_pw p_t]. unfold Rleb. destruct (Rle_dec (sr / 4) (dt * sr)); [nra | reflexivity]. Qed.

(** C84: the waveforms whose simple form jumps (sawtooth, ramp, square, rectangle, modified square) have, going around the circle, a
    continuous derivative: neither jumps nor corners. In exact arithmetic, for every step below a quarter and every pulse width. *)
Theorem C84_jumps : forall w sr hz dt pw, In w with_jumps -> 0 < sr -> 0 < dt < 1 / 4 -> width_ok pw -> smooth 1 (heard w sr hz dt pw).
Proof.
  intros w sr hz dt pw I S D W. unfold heard. cbn [with_jumps In] in I.
  destruct I as [<- | [<- | [<- | [<- | [<- | []]]]]]; (eapply smooth_ext; [intros x; symmetry; apply below; assumption | cbv beta iota]).
  - apply saw_smooth; assumption.
  - apply ramp_smooth; assumption.
  - apply sqr_smooth; assumption.
  - apply rect_smooth; assumption.
  - apply sqr2_smooth; assumption.
Qed.
Print Assumptions C84_jumps.
(** C84: the others (triangles, trapezoids, triangular pulse, rectified sines; sine and cosine) even have a continuous second derivative *)
Theorem C84_corners : forall w sr hz dt pw, In w without_jumps -> 0 < sr -> 0 < dt < 1 / 4 -> width_ok pw -> smooth 2 (heard w sr hz dt pw).
Proof.
  intros w sr hz dt pw I S D W. unfold heard. cbn [without_jumps In] in I.
  destruct I as [<- | [<- | [<- | [<- | [<- | [<- | [<- | [<- | [<- | []]]]]]]]]]; (eapply smooth_ext; [intros x; symmetry; apply below; assumption | cbv beta iota]).
  - eapply smooth_ext; [| exact circle_sine]. intros x. unfold w_sin. unq. cbv beta. rewrite Rmult_comm. reflexivity.
  - eapply smooth_ext; [| exact circle_cosine]. intros x. unfold w_cos. unq. cbv beta. rewrite Rmult_comm. reflexivity.
  - apply tri_smooth; assumption.
  - apply tri2_smooth; assumption.
  - apply half_smooth; assumption.
  - apply full_smooth; assumption.
  - apply trip_smooth; assumption.
  - apply trap_smooth; assumption.
  - apply trap2_smooth; assumption.
Qed.
Print Assumptions C84_corners.
(** C84: from a quarter of the sample rate on, every waveform is the sine *)
Theorem C84_fast : forall w sr hz dt pw, 0 < sr -> 1 / 4 <= dt -> smooth 2 (heard w sr hz dt pw) /\ forall x, heard w sr hz dt pw x = sin (2 * PI * (x - IZR (Zfloor x))).
Proof.
  intros w sr hz dt pw S D. assert (E : forall x, sin (2 * PI * (x - IZR (Zfloor x))) = heard w sr hz dt pw x).
  { intros x. unfold heard, next_sample, get_freq_in_hz. unq. cbn [p_wave p_sr p_hz p_dt p_pw p_t]. unfold Rleb. destruct (Rle_dec (sr / 4) (dt * sr)); [| nra]. unfold w_sin. unq. rewrite Rmult_comm. reflexivity. }
  split; [| intros x; symmetry; apply E]. eapply smooth_ext; [exact E | exact circle_sine].
Qed.
Print Assumptions C84_fast.
(** All waveforms are in one of the lists *)
Example C84_all : forall w, In w (with_jumps ++ without_jumps).
Proof. intros w. destruct w; cbn; tauto. Qed.
Example C84_case : heard Triangle 48000 480 (1 / 100) (1 / 2) (1 / 4) = 1 - 4 / 300.
Proof.
  unfold heard. replace (Zfloor (1 / 4)) with 0%Z by (symmetry; apply Zfloor_imp; cbn; lra). rewrite Rminus_0_r. rewrite below by lra. unfold w_tri. unq. rewrite !wrap_fr by lra.
  rewrite (fr_id (1 / 4 + 1 / 4)) by lra. rewrite (fr_shift (1 / 4 + 3 / 4) 1 0) by lra. rewrite (fr_id 0) by lra. rewrite (Rmult_comm (1 / 4) 4), fold_up by lra.
  unfold blamp, square_number. unq. unfold Rltb. repeat match goal with |- context [Rlt_dec ?x ?y] => destruct (Rlt_dec x y); try lra end.
Qed.
(** It is only about the phase: when the frequency crosses a quarter of the sample rate, the waveform changes at once. *)
Example C84_switch : forall hz dt pw, 0 < dt < 1 / 4 -> heard Sawtooth 48000 hz dt pw (1 / 4) = 1 / 2 /\ heard Sawtooth 48000 hz (1 / 4) pw (1 / 4) = 1.
Proof.
  intros hz dt pw D. assert (Z : Zfloor (1 / 4) = 0%Z) by (apply Zfloor_imp; cbn; lra). split.
  - unfold heard. rewrite Z, Rminus_0_r, below by lra. unfold w_saw. unq. rewrite wrap_fr, fr_id by lra. unfold blep. unq. unfold Rltb. repeat match goal with |- context [Rlt_dec ?x ?y] => destruct (Rlt_dec x y); try lra end.
  - destruct (C84_fast Sawtooth 48000 hz (1 / 4) pw ltac:(lra) ltac:(lra)) as [_ E]. rewrite E, Z, Rminus_0_r. replace (2 * PI * (1 / 4)) with (PI / 2) by lra. apply sin_PI2.
Qed.
