(** * C80 in floating point: how far the samples are from the sine asked for *)
From Coq Require Import Reals Lra Lia.
From Flocq Require Import Core BinarySingleNaN.
From Verif Require Import Base FloatBase OscModel SineModel SineSpec SineProofs SineNearSpec SineNearProofs SinTabProofs.
From Verif Require PanProofs.
Local Open Scope R_scope.

(** After [init], for every history of samples, resets, frequencies from zero to the sample rate and offsets of up to a turn: sample [k] is
    the sine asked for up to [2 (k + 1)] roundings of a turn, [8] of an angle, and the errors of the library's sine and circle constant. What is
    missing from "the sine asked for" is the drift, which grows with [k], and the cases refuted in SineProps.v. *)
Theorem C80_near_partial : forall prec emax (I : ieee prec emax) (tau : binary_float prec emax) fsin d e c sr l, sine_library d e tau fsin -> d <= / 4 ->
  usual (YFreq c sr) -> Forall usual l ->
  let out := snd (sine_run (FYops tau fsin) (sine_new (FYops tau fsin) c) (YInit sr :: l)) in let w := wanted (val c / val sr) 0 0 (map exact_call l) in
  length out = length w /\ forall k y x, nth_error out k = Some y -> nth_error w k = Some x ->
    fin y /\ Rabs (val y - x) <= 2 * PI * (2 * (INR k + 1) * bpow radix2 (- prec)) + 8 * bpow radix2 (- prec) + 3 * d + e.
Proof.
  intros prec emax I tau fsin d e c sr l L Hd (Fc & Fs & S1 & Vc) Hl. cbv zeta. cbn [sine_run sine_step fst snd app].
  assert (E : sine_init (FYops tau fsin) sr (sine_new (FYops tau fsin) c) = mk_sine fzero fzero (fdiv c sr)) by reflexivity. rewrite E.
  destruct (run_near tau fsin d e L Hd l (mk_sine fzero fzero (fdiv c sr)) (val c / val sr) 0 0%nat Hl) as [A B].
  - split; [split; [reflexivity | cbn; lra] | apply quotient_unit; assumption].
  - reflexivity.
  - cbn. rewrite Rabs_R0. lra.
  - apply quotient_near; assumption.
  - exists 0%Z. cbn. replace (0 - (0 - 0)) with 0 by ring. rewrite Rabs_R0. lra.
  - split; [exact A |]. intros k y x Y X. destruct (B k y x Y X) as [B1 B2]. split; [exact B1 |]. cbn [Nat.add] in B2.
    replace (2 * (INR k + 1) * bpow radix2 (- prec)) with (INR k * (2 * bpow radix2 (- prec)) + 2 * bpow radix2 (- prec)) by ring. exact B2.
Qed.
Print Assumptions C80_near_partial.
(* f64: the constant of the standard library and a sine that is right up to 2^-25 *)
Definition tau64 : f64 := fze 7074237752028440 (-50).
Lemma tau64_ok : fin tau64 /\ Rabs (val tau64 - 2 * PI) <= 2 / 100000000.
Proof.
  assert (B : B2SF tau64 = SpecFloat.S754_finite false 7074237752028440 (-50)) by (vm_compute; reflexivity).
  split; [unfold fin; rewrite <- is_finite_SF_B2SF, B; reflexivity |].
  assert (V : val tau64 = 7074237752028440 / 1125899906842624) by (unfold val; rewrite <- SF2R_B2SF, B; reflexivity).
  rewrite V. pose proof PanProofs.pi_bounds. apply Rabs_le. lra.
Qed.
Example C80_near_case : sine_library (2 / 100000000) (/ 33554432) tau64 (near64 sin) /\ usual (YFreq (fz 440 : f64) (fz 48000)) /\
  Forall usual [YSample; YFreq (fz 880 : f64) (fz 48000); YSample; YOffset (fneg fone); YReset; YSample].
Proof.
  destruct tau64_ok as [A B]. assert (W : forall z, (Z.abs z <= 2 ^ 24)%Z -> fin (fz z : f64) /\ val (fz z : f64) = IZR z) by (intros z H; destruct (fz_small (prec := 53) (emax := 1024) z H); split; assumption).
  destruct (W 440%Z) as [F1 V1]; [lia |]. destruct (W 880%Z) as [F2 V2]; [lia |]. destruct (W 48000%Z) as [F3 V3]; [lia |].
  split; [split; [exact A |]; split; [exact B |]; intros a _ _; apply near64_all; exact SIN_bound |]. split; [cbn [usual]; rewrite V1, V3; repeat split; assumption || lra |].
  assert (U : usual (YFreq (fz 880 : f64) (fz 48000))) by (cbn [usual]; rewrite V2, V3; repeat split; assumption || lra).
  assert (V : usual (YOffset (fneg fone : f64))) by (cbn [usual]; split; [reflexivity |]; rewrite val_fneg, val_fone, Rabs_Ropp, Rabs_R1; lra).
  apply Forall_cons; [exact Logic.I |]. apply Forall_cons; [exact U |]. apply Forall_cons; [exact Logic.I |]. apply Forall_cons; [exact V |].
  apply Forall_cons; [exact Logic.I |]. apply Forall_cons; [exact Logic.I |]. constructor.
Qed.
(** What the drift amounts to: in f64 a day at 48 kHz is less than 10^-5 off (with that library); in f32 the bound of a second is 0.04. *)
Example C80_near_day : 2 * PI * (2 * (INR (N.to_nat 4147200000) + 1) * bpow radix2 (- (53))) + 8 * bpow radix2 (- (53)) + 3 * (2 / 100000000) + / 33554432 < / 100000.
Proof.
  rewrite INR_IZR_INZ, N_nat_Z. change (IZR (Z.of_N 4147200000)) with 4147200000. change (bpow radix2 (- (53))) with (/ 9007199254740992). pose proof PanProofs.pi_bounds. lra.
Qed.
Example C80_near_second : 2 * PI * (2 * (INR (N.to_nat 48000) + 1) * bpow radix2 (- (24))) < 4 / 100.
Proof.
  rewrite INR_IZR_INZ, N_nat_Z. change (IZR (Z.of_N 48000)) with 48000. change (bpow radix2 (- (24))) with (/ 16777216). pose proof PanProofs.pi_bounds. lra.
Qed.
