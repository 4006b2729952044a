From Coq Require Import Reals Lra Lia.
From Flocq Require Import Core BinarySingleNaN.
From Verif Require Import Base FloatBase OscModel OscProofs SinTabSpec SinTabProofs RampSpec.
Local Open Scope R_scope.

Definition unit52 : R := / 4503599627370496.
Lemma mult_ok : forall sr : f64, sample_rate sr -> fin (fdiv fone sr : f64) /\ / 8589934592 <= val (fdiv fone sr : f64) <= 1 /\ Rabs (val (fdiv fone sr : f64) - / val sr) <= / 9007199254740992 * / val sr /\ 1 <= val sr.
Proof.
  intros sr (z & Hz & Fs & Vs). assert (Z1 : 1 <= IZR z <= 4294967296) by (split; apply IZR_le; lia).
  assert (I1 : / 4294967296 <= / IZR z <= 1) by (split; [apply Rinv_le; lra | rewrite <- Rinv_1; apply Rinv_le; lra]).
  assert (V1 : val (fone : f64) = 1) by apply val_fone.
  destruct (fdiv_ok (fone : f64) sr fin_fone ltac:(lra)) as [A C].
  { rewrite V1. apply fits with 0%Z; [lia |]. unfold Rdiv. rewrite Rmult_1_l, Vs. change (bpow radix2 0) with 1. rewrite Rabs_pos_eq; lra. }
  rewrite V1, Vs in A. unfold Rdiv in A. rewrite Rmult_1_l in A. rewrite Vs. set (w := / IZR z) in *. set (u := fdiv fone sr : f64) in *.
  pose proof (rel64 w) as R1. rewrite (Rabs_pos_eq w) in R1 by lra.
  specialize (R1 ltac:(apply Rle_trans with (bpow radix2 (-32)); [apply bpow_le; lia | change (bpow radix2 (-32)) with (/ 4294967296); lra])). rewrite <- A in R1.
  assert (U : val u <= 1) by (rewrite A, <- (@rnd_1 53 1024 _); apply rnd_le; lra).
  split; [exact C |]. split; [apply Rabs_le_inv in R1; lra |]. split; [exact R1 | lra].
Qed.
(** The step of a frequency *)
Lemma ramp_step : forall f sr : f64, sample_rate sr -> fin f -> 0 <= val f <= val sr -> let d := fmul f (fdiv fone sr) in
  fin d /\ 0 <= val d <= 2 /\ Rabs (val d - val f / val sr) <= unit52.
Proof.
  intros f sr Hs Ff Vf d. destruct (mult_ok sr Hs) as (C & U & R1 & S1). set (u := fdiv fone sr : f64) in *. set (w := / val sr) in *.
  assert (W : 0 < w) by (apply Rinv_0_lt_compat; lra).
  assert (Q : 0 <= val f * w <= 1).
  { split; [apply Rmult_le_pos; lra |]. apply Rle_trans with (val sr * w); [apply Rmult_le_compat_r; lra |]. unfold w. rewrite Rinv_r; lra. }
  assert (K : Rabs (val f * val u - val f * w) <= / 9007199254740992).
  { replace (val f * val u - val f * w) with (val f * (val u - w)) by ring. rewrite Rabs_mult, (Rabs_pos_eq (val f)) by lra.
    apply Rle_trans with (val f * (/ 9007199254740992 * w)); [apply Rmult_le_compat_l; [lra | exact R1] |]. lra. }
  assert (P : 0 <= val f * val u) by (apply Rmult_le_pos; lra). pose proof K as K'. apply Rabs_le_inv in K'.
  assert (T : Rabs (val f * val u) < bpow radix2 1) by (change (bpow radix2 1) with 2; rewrite Rabs_pos_eq; lra).
  destruct (fmul_ok f u Ff C) as [A2 C2]; [apply fits with 1%Z; [lia | apply Rlt_le; exact T] |].
  pose proof (err64 1 _ ltac:(lia) T) as R2. rewrite <- A2 in R2. change (bpow radix2 (1 - 54)) with (/ 9007199254740992) in R2. apply Rabs_le_inv in R2.
  fold d in A2, C2, R2. split; [exact C2 |]. split.
  - split; [rewrite A2, <- (@rnd_0 53 1024); apply rnd_le; exact P | lra].
  - unfold Rdiv, unit52. fold w. apply Rabs_le. lra.
Qed.
Lemma not_zero : forall sr : f64, sample_rate sr -> feqb (fdiv fone sr : f64) fzero = false.
Proof.
  intros sr Hs. destruct (mult_ok sr Hs) as (C & U & _ & _). rewrite feqb_ok by (exact C || reflexivity). rewrite val_fzero.
  apply Req_bool_false. lra.
Qed.
(** One frame *)
Lemma ramp_frame : forall n s t e, fin (ph_phase s) -> 0 <= val (ph_phase s) < 1 -> fin (ph_step s) -> 0 <= val (ph_step s) <= 2 ->
  forall per, Rabs (val (ph_step s) - per) <= unit52 -> (exists z, Rabs (val (ph_phase s) - (t - IZR z)) <= e) ->
  exists s', phasor_step (3 + n) s = Some (s', ph_phase s) /\ ph_step s' = ph_step s /\ ph_mult s' = ph_mult s /\ fraction_of (t + per) (e + 2 * unit52) (ph_phase s').
Proof.
  intros n s t e Fp Vp Fs Vs per D (z & Z). unfold phasor_step.
  assert (T : Rabs (val (ph_phase s) + val (ph_step s)) < bpow radix2 2) by (change (bpow radix2 2) with 4; rewrite Rabs_pos_eq; lra).
  destruct (fadd_ok (ph_phase s) (ph_step s) Fp Fs) as [A C]; [apply fits with 2%Z; [lia | apply Rlt_le; exact T] |].
  pose proof (err64 2 _ ltac:(lia) T) as R2. rewrite <- A in R2. change (bpow radix2 (2 - 54)) with unit52 in R2. apply Rabs_le_inv in R2, D, Z.
  assert (U : 0 < unit52 < 1 / 4) by (unfold unit52; lra).
  assert (P : 0 <= val (fadd (ph_phase s) (ph_step s))) by (rewrite A, <- (@rnd_0 53 1024); apply rnd_le; lra).
  destruct (wrap_ok (3 + n) (fadd (ph_phase s) (ph_step s)) C) as (y & E & Fy & Vy & k & Hk).
  { split; [exact P |]. apply Rlt_le_trans with (bpow radix2 2); [change (bpow radix2 2) with 4; lra | apply bpow_le; lia]. }
  { rewrite S_INR, plus_INR. cbn [INR]. pose proof (pos_INR n). lra. }
  exists (mk_phasor y (ph_step s) (ph_mult s)). rewrite E. split; [reflexivity |]. split; [reflexivity |]. split; [reflexivity |].
  split; [exact Fy |]. split; [exact Vy |]. exists (z + k)%Z. cbn [ph_phase]. rewrite plus_IZR. apply Rabs_le. lra.
Qed.
Lemma ramp_run : forall sr n, sample_rate sr -> forall ops s per t e, Forall (in_rate (val sr)) ops -> ph_mult s = fdiv fone sr ->
  fraction_of t e (ph_phase s) -> fin (ph_step s) -> 0 <= val (ph_step s) <= 2 -> Rabs (val (ph_step s) - per) <= unit52 ->
  exists l, phasor_run (3 + n) s ops = Some l /\ length l = length (turns_made (val sr) per t ops) /\
    forall k y x, nth_error l k = Some y -> nth_error (turns_made (val sr) per t ops) k = Some x -> fraction_of x (e + INR k * (2 * unit52)) y.
Proof.
  intros sr n Hs. induction ops as [| o ops IH]; intros s per t e Ho Em (Fp & Vp & Z) Fs Vs D.
  - exists []. split; [reflexivity |]. split; [reflexivity |]. intros [| k]; discriminate.
  - inversion Ho as [| o0 l0 H1 H2]; subst. destruct o as [f |]; cbn [phasor_run turns_made].
    + destruct (ramp_step f sr Hs (proj1 H1) (proj2 H1)) as (A & B & C).
      assert (E : ph_step (phasor_freq f s) = fmul f (fdiv fone sr)) by (unfold phasor_freq; cbn [ph_step]; rewrite Em, not_zero by exact Hs; reflexivity).
      apply IH; [exact H2 | exact Em | repeat split; [exact Fp | apply Vp | apply Vp | exact Z] | rewrite E; exact A | rewrite E; exact B | rewrite E; exact C].
    + destruct (ramp_frame n s t e Fp Vp Fs Vs per D Z) as (s' & E & Es & Em' & G). rewrite E. cbn [bind fst snd].
      destruct (IH s' (per) (t + per) (e + 2 * unit52) H2) as (l & El & Ll & K); [rewrite Em'; exact Em | exact G | rewrite Es; exact Fs | rewrite Es; exact Vs | rewrite Es; exact D |].
      rewrite El. cbn [bind]. exists (ph_phase s :: l). split; [reflexivity |]. split; [cbn [length]; f_equal; exact Ll |].
      intros [| k] y x Y X; cbn [nth_error] in Y, X.
      * injection Y as <-. injection X as <-. cbn [INR]. rewrite Rmult_0_l, Rplus_0_r. split; [exact Fp |]. split; [exact Vp | exact Z].
      * specialize (K k y x Y X). rewrite S_INR. replace (e + (INR k + 1) * (2 * unit52)) with (e + 2 * unit52 + INR k * (2 * unit52)) by ring. exact K.
Qed.
