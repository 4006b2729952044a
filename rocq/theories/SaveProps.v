(** Saving a buffer as a 16 bit file (C83). *)
From Coq Require Import Reals Lra.
From Flocq Require Import Core BinarySingleNaN.
From Verif Require Import Base FloatBase OscModel SaveModel SaveProofs.
Local Open Scope R_scope.

(** C83: every sample is written, in order; the sample rate (a whole number below 2^32) and the number of channels (below 2^16) as they are *)
Theorem C83_contents : forall prec emax (I : ieee prec emax) ch rate (mem : list (binary_float prec emax)), (ch < 2 ^ 16)%N -> (rate < 2 ^ 32)%N ->
  let w := save ch (fz (Z.of_N rate)) mem in w_channels w = ch /\ w_rate w = rate /\ w_bits w = 16%N /\ length (w_samples w) = length mem /\
  forall k x, nth_error mem k = Some x -> nth_error (w_samples w) k = Some (saved x).
Proof.
  intros prec emax I ch rate mem Hc Hr w. unfold w, save. cbn [w_channels w_rate w_bits w_samples]. split; [apply N.mod_small; exact Hc |]. split.
  - assert (R0 : FloatBase.rnd (prec := 53) (emax := 1024) (IZR (Z.of_N rate)) = IZR (Z.of_N rate)).
    { apply rnd_format. apply (generic_format_FLT radix2 (SpecFloat.emin 53 1024) 53). exists (Float radix2 (Z.of_N rate) 0); [unfold F2R; cbn; ring | cbn; lia | vm_compute; discriminate]. }
    assert (A : Rabs (IZR (Z.of_N rate)) <= bpow radix2 32) by (rewrite Rabs_pos_eq by (apply IZR_le; lia); change (bpow radix2 32) with (IZR (2 ^ 32)); apply IZR_le; lia).
    destruct (fz_ok (prec := 53) (emax := 1024) (Z.of_N rate)) as [V F]; [apply fits with 32%Z; [lia | exact A] |]. rewrite R0 in V.
    assert (T : Btrunc (fz (Z.of_N rate) : f64) = Z.of_N rate).
    { pose proof (@Btrunc_correct 53 1024 (ieee_ltm 53 1024 ieee_f64) (fz (Z.of_N rate))) as E. unfold round, F2R, scaled_mantissa, cexp, FIX_exp in E. cbn [Fnum Fexp] in E.
      change (bpow radix2 (- 0)) with 1 in E. change (bpow radix2 0) with 1 in E. rewrite !Rmult_1_r in E. change (B2R (fz (Z.of_N rate) : f64)) with (val (fz (Z.of_N rate) : f64)) in E. rewrite V in E.
      rewrite Ztrunc_IZR in E. apply eq_IZR in E. exact E. }
    revert F T. generalize (fz (Z.of_N rate) : f64). intros y F T. destruct y as [s | s | | s m e b]; try discriminate F; unfold as_u32; rewrite T; unfold M32; lia.
  - split; [reflexivity |]. split; [apply map_length |]. intros k x E. apply map_nth_error. exact E.
Qed.
Print Assumptions C83_contents.

(** C83: a sample in -1..1 is written with an error of at most one step of the file (a step is 1/32767), in f32, f64 and every larger format *)
Theorem C83_error_partial : forall prec emax (I : ieee prec emax) (x : binary_float prec emax), fin x -> Rabs (val x) <= 1 ->
  Rabs (IZR (saved x) - val x * 32767) < 1 + / 512 /\ (-32767 <= saved x <= 32767)%Z.
Proof. intros prec emax I x F V. destruct (saved_near x F V) as (A & B & _). split; assumption. Qed.
Print Assumptions C83_error_partial.
(** C83: it is written symmetrically *)
Theorem C83_symmetric : forall prec emax (I : ieee prec emax) (x : binary_float prec emax), fin x -> Rabs (val x) <= 1 -> saved (fneg x) = (- saved x)%Z.
Proof.
  intros prec emax I x F V. destruct (saved_near x F V) as (_ & _ & E). destruct (saved_near (fneg x)) as (_ & _ & E'); [apply fin_fneg; exact F | rewrite val_fneg, Rabs_Ropp; exact V |].
  rewrite E, E', val_fneg, amp_opp, Ztrunc_opp. reflexivity.
Qed.
Print Assumptions C83_symmetric.
(** C83: a larger sample is never written as a smaller one; outside of -1..1, samples are clipped *)
Theorem C83_monotone : forall prec emax (I : ieee prec emax) (x y : binary_float prec emax), fin x -> fin y -> Rabs (val x) <= bpow radix2 100 -> Rabs (val y) <= bpow radix2 100 ->
  val x <= val y -> (saved x <= saved y)%Z.
Proof. intros prec emax I x y Fx Fy Vx Vy H. rewrite !saved_is by assumption. apply limited_le. apply Ztrunc_le. apply amp_le. exact H. Qed.
Print Assumptions C83_monotone.
Theorem C83_clip : forall prec emax (I : ieee prec emax) (x : binary_float prec emax), fin x -> Rabs (val x) <= bpow radix2 100 ->
  (1 <= val x -> saved x = 32767%Z) /\ (val x <= -32768 / 32767 -> saved x = (-32768)%Z).
Proof.
  intros prec emax I x F V. rewrite (saved_is x F V). split; intros H.
  - pose proof (amp_le (prec := prec) (emax := emax) (IZR 32767 / 32767) (val x) ltac:(lra)) as A. rewrite (amp_int 32767) in A by lia. apply Ztrunc_le in A. rewrite Ztrunc_IZR in A. unfold limited. lia.
  - pose proof (amp_le (prec := prec) (emax := emax) (val x) (IZR (-32768) / 32767) ltac:(lra)) as A. rewrite (amp_int (-32768)) in A by lia. apply Ztrunc_le in A. rewrite Ztrunc_IZR in A. unfold limited. lia.
Qed.
Print Assumptions C83_clip.
Theorem C83_special : map saved [B754_nan; B754_infinity false; B754_infinity true : f32] = [0; 32767; -32768]%Z /\ map saved [B754_nan; B754_infinity false; B754_infinity true : f64] = [0; 32767; -32768]%Z /\
  map saved [fone; fneg fone; fzero : f32] = [32767; -32767; 0]%Z /\ map saved [fone; fneg fone; fzero : f64] = [32767; -32767; 0]%Z.
Proof. repeat split; vm_compute; reflexivity. Qed.
Print Assumptions C83_special.
Example C83_case : fin (fze 1 (-1) : f32) /\ saved (fze 1 (-1) : f32) = 16383%Z /\ w_samples (save 2 (fz 44100) [fone; fze 1 (-1) : f32]) = [32767; 16383]%Z.
Proof. repeat split; vm_compute; reflexivity. Qed.

(** C83, the nearest value of the file: refuted. Samples are cut off towards zero, not rounded: everything below one step is written as silence. *)
Theorem C83_faint_refuted : forall prec emax (I : ieee prec emax) (x : binary_float prec emax), fin x -> Rabs (val x) <= / 32768 -> saved x = 0%Z.
Proof.
  intros prec emax I x F V. assert (V1 : Rabs (val x) <= 1) by lra. destruct (saved_near x F V1) as (_ & _ & E). rewrite E.
  assert (A : Rabs (amp (prec := prec) (emax := emax) (val x)) < 1).
  { assert (U : amp (prec := prec) (emax := emax) (/ 32768) < 1).
    { assert (W : generic_format radix2 (FLT_exp (-149) 24) (32767 / 32768)).
      { apply generic_format_FLT. exists (Float radix2 32767 (-15)); [unfold F2R; cbn [Fnum Fexp]; change (bpow radix2 (-15)) with (/ 32768); lra | cbn; lia | cbn; lia]. }
      assert (W' : generic_format radix2 (SpecFloat.fexp prec emax) (32767 / 32768)).
      { apply (generic_format_FLT radix2 (SpecFloat.emin prec emax) prec). exists (Float radix2 32767 (-15)); [unfold F2R; cbn [Fnum Fexp]; change (bpow radix2 (-15)) with (/ 32768); lra | |].
        - cbn [Fnum]. pose proof (ieee_prec (prec := prec) (emax := emax)). apply Z.lt_le_trans with (2 ^ 24)%Z; [lia | apply (Z.pow_le_mono_r 2); lia].
        - cbn [Fexp]. unfold SpecFloat.emin. pose proof (ieee_emax (prec := prec) (emax := emax)). pose proof (ieee_prec (prec := prec) (emax := emax)). lia. }
      unfold amp. replace (/ 32768 * 32767) with (32767 / 32768) by field. rewrite (rnd_format _ W'). rewrite (rnd_format (prec := 24) (emax := 128)) by exact W. lra. }
    apply Rabs_le_inv in V. pose proof (amp_le (prec := prec) (emax := emax) (val x) (/ 32768) ltac:(lra)). pose proof (amp_le (prec := prec) (emax := emax) (- / 32768) (val x) ltac:(lra)) as L. rewrite amp_opp in L. apply Rabs_def1; lra. }
  destruct (trunc_near (amp (prec := prec) (emax := emax) (val x))) as [_ S].
  assert (Z : Rabs (IZR (Ztrunc (amp (prec := prec) (emax := emax) (val x)))) < 1) by lra. apply Rabs_def2 in Z. destruct Z as [Z1 Z2]. apply lt_IZR in Z1. rewrite <- opp_IZR in Z2. apply lt_IZR in Z2. lia.
Qed.
Print Assumptions C83_faint_refuted.
Theorem C83_nearest_refuted : fin (fze 32500 (-30) : f32) /\ 99 / 100 < val (fze 32500 (-30) : f32) * 32767 < 1 /\ saved (fze 32500 (-30) : f32) = 0%Z.
Proof.
  assert (E : FloatBase.rnd (prec := 24) (emax := 128) (IZR 32500 * bpow radix2 (-30)) = 32500 / 1073741824).
  { rewrite rnd_format; [change (bpow radix2 (-30)) with (/ 1073741824); lra |]. apply (generic_format_FLT radix2 (SpecFloat.emin 24 128) 24). exists (Float radix2 32500 (-30)); [reflexivity | cbn; lia | vm_compute; discriminate]. }
  destruct (fze_ok (prec := 24) (emax := 128) 32500 (-30)) as [V F]; [rewrite E; apply below_top with 0%Z; [lia |]; change (bpow radix2 0) with 1; rewrite Rabs_pos_eq; lra |].
  split; [exact F |]. rewrite V, E. split; [lra | vm_compute; reflexivity].
Qed.
Print Assumptions C83_nearest_refuted.
(** C83, the description of the buffer: refuted. A number of channels of 65536 or more loses its upper bits, a rate that is not a whole number its
    fraction, and a rate that is negative or not a number becomes 0. *)
Theorem C83_description_refuted : w_channels (save (prec := 24) (emax := 128) 65537 (fz 44100) []) = 1%N /\ w_rate (save (prec := 24) (emax := 128) 1 (fze 88201 (-1)) []) = 44100%N /\
  w_rate (save (prec := 24) (emax := 128) 1 (fz (-1)) []) = 0%N /\ w_rate (save (prec := 24) (emax := 128) 1 B754_nan []) = 0%N.
Proof. repeat split; vm_compute; reflexivity. Qed.
Print Assumptions C83_description_refuted.
