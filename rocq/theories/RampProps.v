(** * C92: the phasor is the ramp it is asked for *)
From Coq Require Import Reals Lra Lia.
From Flocq Require Import Core BinarySingleNaN.
From Verif Require Import Base FloatBase OscModel OscProofs SinTabSpec SinTabProofs RampSpec RampProofs.
Local Open Scope R_scope.

Lemma start : forall freq sr n ops, sample_rate sr -> in_rate (val sr) (PFreq freq) -> Forall (in_rate (val sr)) ops ->
  exists l, phasor_run (3 + n) (phasor_init sr (phasor_new freq)) ops = Some l /\ length l = length (turns_made (val sr) (val freq / val sr) 0 ops) /\
    forall k y x, nth_error l k = Some y -> nth_error (turns_made (val sr) (val freq / val sr) 0 ops) k = Some x -> fraction_of x (INR k * / 2251799813685248) y.
Proof.
  intros freq sr n ops Hs Hf Ho. destruct (ramp_step freq sr Hs (proj1 Hf) (proj2 Hf)) as (A & B & C).
  assert (E : ph_step (phasor_init sr (phasor_new freq)) = fmul freq (fdiv fone sr)).
  { unfold phasor_init, phasor_freq. cbn [ph_step ph_mult phasor_new]. rewrite not_zero by exact Hs. reflexivity. }
  destruct (ramp_run sr n Hs ops (phasor_init sr (phasor_new freq)) (val freq / val sr) 0 0 Ho) as (l & El & Ll & K).
  - reflexivity.
  - change (ph_phase (phasor_init sr (phasor_new freq))) with (fzero : f64). split; [reflexivity |]. change (val (fzero : f64)) with 0. split; [lra |]. exists 0%Z. replace (0 - (0 - 0)) with 0 by ring. rewrite Rabs_R0. lra.
  - rewrite E. exact A.
  - rewrite E. exact B.
  - rewrite E. exact C.
  - exists l. split; [exact El |]. split; [exact Ll |]. intros k y x Y X. specialize (K k y x Y X).
    replace (INR k * / 2251799813685248) with (0 + INR k * (2 * unit52)) by (unfold unit52; lra). exact K.
Qed.
(** For every history of frames and frequencies from zero to the sample rate, frame [k] is the fraction of the turns made, up to
    [k] times 2^-51 turns and whole turns; three turns of the loop are enough each frame. *)
Theorem C92_ramp : forall freq sr n ops, sample_rate sr -> in_rate (val sr) (PFreq freq) -> Forall (in_rate (val sr)) ops ->
  exists l, phasor_run (3 + n) (phasor_init sr (phasor_new freq)) ops = Some l /\ length l = length (turns_made (val sr) (val freq / val sr) 0 ops) /\
    forall k y x, nth_error l k = Some y -> nth_error (turns_made (val sr) (val freq / val sr) 0 ops) k = Some x -> fraction_of x (INR k * / 2251799813685248) y.
Proof. exact start. Qed.
Print Assumptions C92_ramp.
(** The f32 phasor: 2^-24 more. *)
Theorem C92_ramp_f32 : forall freq sr n ops, sample_rate sr -> in_rate (val sr) (PFreq freq) -> Forall (in_rate (val sr)) ops ->
  exists l, phasor_run (3 + n) (phasor_init sr (phasor_new freq)) ops = Some l /\
    forall k y x, nth_error (map to_f32 l) k = Some y -> nth_error (turns_made (val sr) (val freq / val sr) 0 ops) k = Some x ->
      fin y /\ exists z, Rabs (val y - (x - IZR z)) <= INR k * / 2251799813685248 + / 16777216.
Proof.
  intros freq sr n ops Hs Hf Ho. destruct (start freq sr n ops Hs Hf Ho) as (l & El & _ & K). exists l. split; [exact El |].
  intros k y x Y X. rewrite nth_error_map in Y. destruct (nth_error l k) as [q |] eqn:Q; [| discriminate]. injection Y as <-.
  destruct (K k q x Q X) as (Fq & Vq & z & Z). destruct (narrow_ok q Fq) as [Fy Ey]; [apply Rabs_def1; lra |]. split; [exact Fy |]. exists z.
  apply Rabs_le_inv in Z, Ey. apply Rabs_le. lra.
Qed.
Print Assumptions C92_ramp_f32.
(* 440 Hz, then 880 Hz, at 48 kHz *)
Example C92_case : sample_rate (fz 48000) /\ in_rate (val (fz 48000 : f64)) (PFreq (fz 440)) /\ Forall (in_rate (val (fz 48000 : f64))) [PFrame; PFrame; PFreq (fz 880); PFrame].
Proof.
  assert (W : forall z, (Z.abs z <= 2 ^ 24)%Z -> fin (fz z : f64) /\ val (fz z : f64) = IZR z) by (intros z H; destruct (fz_small (prec := 53) (emax := 1024) z H) as [A B]; split; assumption).
  destruct (W 440%Z) as [A B]; [lia |]. destruct (W 880%Z) as [C D]; [lia |]. destruct (W 48000%Z) as [E F]; [lia |].
  split; [exists 48000%Z; split; [lia | split; [exact E | exact F]] |]. repeat constructor; cbn [in_rate]; rewrite ?B, ?D, ?F; try assumption; lra.
Qed.
(** A day at 48 kHz is less than 2 millionths of a turn off *)
Example C92_day : INR (N.to_nat 4147200000) * / 2251799813685248 < 2 / 1000000.
Proof. rewrite INR_IZR_INZ, N_nat_Z. change (IZR (Z.of_N 4147200000)) with 4147200000. lra. Qed.
(** [init] takes the step for the frequency: a second call divides by the sample rate again (a quarter of a turn becomes 2^-4). *)
Example C92_second_init : B2SF (ph_step (phasor_init (fz 4) (phasor_new (fone : f64)))) = B2SF (fze 1 (-2) : f64) /\
  B2SF (ph_step (phasor_init (fz 4) (phasor_init (fz 4) (phasor_new (fone : f64))))) = B2SF (fze 1 (-4) : f64).
Proof. vm_compute. split; reflexivity. Qed.
