(** C39: how long a multi-segment envelope takes. *)
From Coq Require Import Reals Lra.
From Flocq Require Import Core BinarySingleNaN.
From Verif Require Import Base FloatBase FloatMore SegModel SegSpec SegTimeSpec SegTimeProofs.
Local Open Scope R_scope.

(** Whatever the envelope has done before: with the time scale [x] and from a restart on, the sample that reports the end comes after
    [m] others, where [m] times the step (the time scale over the sample rate) is the sum of the durations, up to one step and the
    rounding error [err] per sample. That it does come is part of [C39_breakpoints_partial]. Partial: for f64, without looping, with
    segments that are longer than a step. *)
Theorem C39_duration_partial : forall sr (start : f64) segs ops e l0 (x : f64) (k : Z) m e' l,
  let h := fmul x (fdiv fone (fz (Z.of_N sr))) : f64 in let err := bpow radix2 (k - 52) in
  seg_run (senv_init sr (senv_new start segs false)) ops = Some (e, l0) ->
  (0 <= k <= 100)%Z -> fin h -> 0 <= val h -> segs <> [] -> (forall g, In g segs -> fin (s_dur g) /\ val h + err <= val (s_dur g) < bpow radix2 k) ->
  seg_run e [STimeScale x; SRestart; SBlock (m + 1)] = Some (e', l) -> map snd l = repeat false m ++ [true] ->
  total segs <= INR m * (val h + err) /\ INR m * (val h - err) <= total segs + val h + err.
Proof. exact duration. Qed.
Print Assumptions C39_duration_partial.

(** A segment of a second and one of half a second at 4 Hz: at half the speed 12 samples before the end *)
Definition second_and_half : list (seg 53 1024) := [seg_new fone (fz 4); seg_new (fze 1 (-1)) fone].
Definition ends (x : f64) (n : nat) : option (list bool) :=
  option_map (fun r => map snd (snd r)) (e <- seg_run (senv_init 4 (senv_new fzero second_and_half false)) [SRestart; SBlock 3];; seg_run (fst e) [STimeScale x; SRestart; SBlock n]).
Example C39_duration_case : ends (fze 1 (-1)) (12 + 1) = Some (repeat false 12 ++ [true]) /\ ends fone (6 + 1) = Some (repeat false 6 ++ [true]) /\
  let h := fmul (fze 1 (-1)) (fdiv fone (fz (Z.of_N 4))) : f64 in
  fin h /\ val h = / 8 /\ total second_and_half = 3 / 2 /\ forall g, In g second_and_half -> fin (s_dur g) /\ val h + bpow radix2 (1 - 52) <= val (s_dur g) < bpow radix2 1.
Proof.
  split; [vm_compute; reflexivity |]. split; [vm_compute; reflexivity |].
  assert (H1 : B2SF (fmul (fze 1 (-1)) (fdiv fone (fz (Z.of_N 4))) : f64) = B2SF (fze 1 (-3) : f64)) by (vm_compute; reflexivity). apply B2SF_inj in H1.
  assert (P : forall k, (-100 <= k <= 0)%Z -> fin (fze 1 k : f64) /\ val (fze 1 k : f64) = bpow radix2 k).
  { intros k Hk. destruct (fze_ok (prec := 53) (emax := 1024) 1 k) as [V F]; [rewrite Rmult_1_l; apply fits with k; [lia | rewrite Rabs_pos_eq by apply bpow_ge_0; lra] |].
    split; [exact F |]. rewrite V, Rmult_1_l. apply rnd_bpow. lia. }
  destruct (P (-3)%Z ltac:(lia)) as [F3 V3]. destruct (P (-1)%Z ltac:(lia)) as [F1 V1]. cbv zeta. rewrite H1. change (bpow radix2 (-3)) with (/ 8) in V3. change (bpow radix2 (-1)) with (/ 2) in V1.
  pose proof (val_fone (prec := 53) (emax := 1024)) as V0. pose proof (fin_fone (prec := 53) (emax := 1024)) as F0.
  split; [exact F3 |]. split; [exact V3 |]. split; [unfold total, second_and_half; cbn [fold_right seg_new s_dur]; rewrite V0, V1; lra |].
  assert (E : bpow radix2 (1 - 52) <= / 8) by (change (/ 8) with (bpow radix2 (-3)); apply bpow_le; lia).
  intros g [<- | [<- | []]]; cbn [seg_new s_dur]; change (bpow radix2 1) with 2; (split; [assumption | lra]).
Qed.
