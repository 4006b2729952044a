(** C39: the multi-segment envelope. *)
From Coq Require Import Reals Lra.
From Flocq Require Import Core BinarySingleNaN.
From Verif Require Import Base FloatBase FloatMore SegModel SegSpec SegProofs.
Local Open Scope R_scope.

(** Any envelope with at least one segment, durations of at least 2^-64 s, looping or not, and any history of restarts, jumps,
    changes of speed (steps up to a second) and samples without a stop: no panic, and every sample is a finite number. *)
Theorem C39_finite_partial : forall sr (start : f64) segs looping ops, segs_ok segs -> value_ok start ->
  let e := senv_init sr (senv_new start segs looping) in
  step_ok (s_step e) -> ops_ok (s_base e) ops ->
  exists e' l, seg_run e ops = Some (e', l) /\ forall o, In o (map fst l) -> fin o.
Proof.
  intros sr start segs looping ops Hs Hv e Hp Ho. apply run_fin; [| exact Ho].
  split; [exact Hs |]. split; [exact Hv |]. split; [exact Hv |]. split; [exact Hp | exact Logic.I].
Qed.
Print Assumptions C39_finite_partial.

(** A restart of an envelope that does not loop, whose step is not too small for its durations ([2^-52] of them): after
    finitely many samples it stops; up to then the samples go exactly through the breakpoint values in their order and stay
    between neighbours in between; done is reported with the last of them only; and the last value is held for ever. *)
Theorem C39_breakpoints_partial : forall (e : senv 53 1024), segs_ok (s_segs e) -> value_ok (s_start e) -> value_ok (s_from e) ->
  step_ok (s_step e) -> s_loop e = false ->
  (forall g, In g (s_segs e) -> bpow radix2 (-52) * val (s_dur g) <= val (s_step e)) ->
  exists n e' l, seg_run e [SRestart; SBlock n] = Some (e', l) /\
    passes (s_start e) (map s_val (s_segs e)) (map fst l) /\
    map snd l = repeat false (n - 1) ++ [true] /\
    nth_error (map s_val (s_segs e)) (length (s_segs e) - 1) = Some (s_from e') /\
    forall m, seg_run e' [SBlock m] = Some (e', repeat (s_from e', false) m).
Proof.
  intros e Hs H0 Hf Hp Hl Hq.
  set (e1 := senv_from (s_start e) (senv_state (SRunning 0 fzero) e)).
  assert (He1 : seg_inv e1).
  { split; [exact Hs |]. split; [exact H0 |]. split; [exact H0 |]. split; [exact Hp |].
    split; [apply Hs |]. split; [reflexivity | apply zero_in_range]. }
  destruct (through (length (s_segs e)) e1 0 fzero) as (n & e' & l & A1 & A2 & A3 & A4 & A5 & A6); try assumption; try reflexivity; try lia.
  exists n, e', l. split.
  { cbn [seg_run seg_step bind fst snd app]. fold e1. rewrite A1. cbn [bind fst snd app]. rewrite app_nil_r. reflexivity. }
  split; [exact A4 |]. split; [exact A3 |].
  split; [exact A6 |]. intros m. cbn [seg_run seg_step bind fst snd]. rewrite (stopped_for_ever m e' A5). cbn [bind fst snd]. rewrite app_nil_r. reflexivity.
Qed.
Print Assumptions C39_breakpoints_partial.
(** "Between" in the above means between [a] and the computed [a + (b - a)]; that is [b] if the difference is representable. *)
Theorem C39_line_end_partial : forall a b : f64, rnd (prec := 53) (emax := 1024) (val b - val a) = val b - val a -> line_end a b = val b.
Proof. intros a b H. unfold line_end. rewrite H. replace (val a + (val b - val a)) with (val b) by ring. apply rnd_val. Qed.
Print Assumptions C39_line_end_partial.

(** ** What is false *)
Definition fclass (x : f64) : nat := match x with B754_nan => 0 | B754_infinity _ => 1 | _ => 2 end.
Definition outs (r : option (senv 53 1024 * list (f64 * bool))) : option (list SpecFloat.spec_float) :=
  option_map (fun x => map (fun y => B2SF (fst y)) (snd x)) r.
(** A segment without length before another one: its value comes out as not a number. *)
Definition zero_env : senv 53 1024 := senv_init 48000 (senv_new fzero [seg_new fzero fone; seg_new fone fzero] false).
Theorem C39_zero_duration_refuted : exists e' o b, seg_run zero_env [SRestart; SBlock 1] = Some (e', [(o, b)]) /\ o = B754_nan.
Proof.
  set (r := seg_run zero_env [SRestart; SBlock 1]).
  assert (E : option_map (fun x => map (fun y => fclass (fst y)) (snd x)) r = Some [0%nat]) by (vm_compute; reflexivity).
  destruct r as [[e' l] |]; [| discriminate E]. injection E as E. destruct l as [| [o b] [| ? ?]]; try discriminate E.
  exists e', o, b. split; [reflexivity |]. cbn in E. injection E as E. destruct o; try discriminate E. reflexivity.
Qed.
Print Assumptions C39_zero_duration_refuted.
(** An envelope without segments panics when triggered and when told to jump. *)
Theorem C39_no_segments_refuted : forall (start : f64) looping sr,
  seg_run (senv_init sr (senv_new start [] looping)) [SRestart; SBlock 1] = None /\
  forall n, seg_run (senv_init sr (senv_new start [] looping)) [SJump n] = None.
Proof. intros. split; reflexivity. Qed.
Print Assumptions C39_no_segments_refuted.
(** Stopped just after the end of a segment (0.75 s at two samples a second), it jumps to 4/3, beyond both neighbours. *)
Definition stop_at : senv 53 1024 := senv_init 2 (senv_new fzero [seg_new (fze 3 (-2)) fone; seg_new fone fzero] false).
Theorem C39_stop_refuted : exists e' l o, seg_run stop_at [SRestart; SBlock 2; SStop; SBlock 1] = Some (e', l) /\
  nth_error (map fst l) 2 = Some o /\ fin o /\ 1 < val o.
Proof.
  set (r := seg_run stop_at _).
  assert (E : option_map (fun x => map (fun y => (fltb fone (fst y), is_finite (fst y))) (snd x)) r = Some [(false, true); (false, true); (true, true)]) by (vm_compute; reflexivity).
  destruct r as [[e' l] |]; [| discriminate E]. injection E as E. destruct l as [| x [| y [| z [| ? ?]]]]; try discriminate E.
  exists e', [x; y; z], (fst z). cbn [map] in E. injection E as _ _ _ _ E1 E2. split; [reflexivity |]. split; [reflexivity |].
  split; [exact E2 |]. rewrite <- (val_fone (prec := 53) (emax := 1024)). apply fltb_true; [apply fin_fone | exact E2 | exact E1].
Qed.
Print Assumptions C39_stop_refuted.
(** A loop goes back to the first segment, but not to the start value: the second round starts from the last value. *)
Definition loop_env : senv 53 1024 := senv_init 2 (senv_new fzero [seg_new fone (fz 4); seg_new fone (fz 8)] true).
Theorem C39_loop_start_refuted : outs (seg_run loop_env [SRestart; SBlock 9]) =
  Some (map (fun z : Z => B2SF (fz z : f64)) [0; 2; 4; 6; 8; 8; 6; 4; 6]%Z).
Proof. vm_compute. reflexivity. Qed.
Print Assumptions C39_loop_start_refuted.

(** ** A case that meets the hypotheses *)
Definition two_env : senv 53 1024 := senv_init 4 (senv_new fzero [seg_new fone (fz 4); seg_new (fze 1 (-1)) fone] false).
Example two_hyps : segs_ok (s_segs two_env) /\ value_ok (s_start two_env) /\ step_ok (s_step two_env) /\
  (forall g, In g (s_segs two_env) -> bpow radix2 (-52) * val (s_dur g) <= val (s_step two_env)).
Proof.
  assert (V4 : val (fz 4 : f64) = 4 /\ fin (fz 4 : f64)) by (apply fz_small; lia).
  assert (Vh : val (fze 1 (-1) : f64) = / 2 /\ fin (fze 1 (-1) : f64)).
  { destruct (fze_ok (prec := 53) (emax := 1024) 1 (-1)) as [A B].
    - rewrite Rmult_1_l. apply fits with (-1)%Z; [lia | rewrite Rabs_pos_eq by apply bpow_ge_0; lra].
    - split; [| exact B]. rewrite A, Rmult_1_l. apply rnd_bpow. lia. }
  assert (B20 : 1 <= bpow radix2 20) by (change 1 with (bpow radix2 0); apply bpow_le; lia).
  assert (Bm : bpow radix2 (-64) <= / 2) by (change (/ 2) with (bpow radix2 (-1)); apply bpow_le; lia).
  assert (B100 : 4 <= bpow radix2 100) by (change 4 with (bpow radix2 2); apply bpow_le; lia).
  assert (V1 : val (fone : f64) = 1) by apply val_fone.
  assert (Z0 : val (fzero : f64) = 0) by reflexivity.
  assert (Q : B2SF (s_step two_env) = B2SF (fze 1 (-2) : f64)) by (vm_compute; reflexivity). apply B2SF_inj in Q.
  assert (Vq : val (fze 1 (-2) : f64) = / 4 /\ fin (fze 1 (-2) : f64)).
  { destruct (fze_ok (prec := 53) (emax := 1024) 1 (-2)) as [A B].
    - rewrite Rmult_1_l. apply fits with (-2)%Z; [lia | rewrite Rabs_pos_eq by apply bpow_ge_0; lra].
    - split; [| exact B]. rewrite A, Rmult_1_l. rewrite rnd_bpow by lia. reflexivity. }
  split; [| split; [| split]].
  - split; [cbn; lia |]. split; [cbn; lia |]. intros g [<- | [<- | []]].
    + exists fone, (fz 4). split; [reflexivity |]. split; [apply fin_fone |]. rewrite V1. split; [lra |]. split; [apply V4 |]. rewrite (proj1 V4), Rabs_pos_eq; lra.
    + exists (fze 1 (-1)), fone. split; [reflexivity |]. split; [apply Vh |]. rewrite (proj1 Vh). split; [lra |]. split; [apply fin_fone |]. rewrite V1, Rabs_pos_eq; lra.
  - split; [reflexivity |]. cbn [two_env senv_init senv_new s_start]. rewrite Z0, Rabs_R0. lra.
  - rewrite Q. split; [apply Vq |]. rewrite (proj1 Vq). lra.
  - rewrite Q, (proj1 Vq).
    assert (B52 : bpow radix2 (-52) <= / 8) by (change (/ 8) with (bpow radix2 (-3)); apply bpow_le; lia).
    pose proof (bpow_gt_0 radix2 (-52)).
    intros g [<- | [<- | []]]; cbn [seg_new s_dur]; [rewrite V1 | rewrite (proj1 Vh)]; lra.
Qed.
Example two_run : outs (seg_run two_env [SRestart; SBlock 9]) =
  Some (map (fun x : f64 => B2SF x) [fzero; fone; fz 2; fz 3; fz 4; fze 5 (-1); fone; fone; fone]).
Proof. vm_compute. reflexivity. Qed.
