(** C37 and C38: the ASR and AR envelopes. *)
From Coq Require Import Reals Lra.
From Flocq Require Import Core BinarySingleNaN.
From Verif Require Import Base FloatBase FloatMore EnvModel EnvSpec EnvProofs.
Local Open Scope R_scope.

Section Props.
Context {prec emax : Z} {I : ieee prec emax}.
Notation fl := (binary_float prec emax).
Notation eps := (@eps prec).

(** ** C37 *)
(** Any format, any sample rate, any non-negative times, any history in which the envelope is not restarted while it is held at
    its sustain level: every sample is a finite number between 0 and 1. *)
Theorem C37_range_partial : forall sr (a r : fl) ops, (0 < sr < U32)%N -> nn a -> nn r -> times_ok ops ->
  let e := env_init sr (env_new a r) in
  no_restart_at_sustain sr e ops ->
  forall o, In o (outputs (snd (env_run (asr_step sr) e ops))) -> fin o /\ 0 <= val o <= 1.
Proof.
  intros sr a r ops Hs Ha Hr Ht e Hn o Ho. apply (asr_run_ok sr ops e); try assumption.
  split; [apply init_ok; assumption | intros _; apply unit_zero].
Qed.
(** After a release (from the attack or from the sustain level), however the samples are divided into blocks: done is reported
    exactly once, [k] samples later and with that sample's frame, and everything after it is 0. [k] is the number of steps of
    the release rate that make up 1, each step being off by at most the rounding error [eps]. *)
Theorem C37_release_partial : forall sr (e : env prec emax), e_state e = Attacking \/ e_state e = Sustaining ->
  fin (e_rrate e) -> eps < val (e_rrate e) ->
  exists k, (0 < k)%nat /\ steps_for 1 (val (e_rrate e)) eps k /\
    forall sizes, let l := snd (env_run (asr_step sr) e (ETrigRelease :: map EBlock sizes)) in
      done_frames l = only_kth k (frames_of sizes) /\
      forall m o, (k <= m)%nat -> nth_error (outputs l) m = Some o -> o = fzero.
Proof.
  intros sr e S0 Fr Er. pose proof (eps_pos (prec := prec)) as Ep.
  assert (Q : e_state (t_release e) = Releasing /\ e_t (t_release e) = fone /\ e_rrate (t_release e) = e_rrate e).
  { unfold t_release. destruct S0 as [-> | ->]; repeat split. }
  destruct Q as (Q1 & Q2 & Q3).
  destruct (asr_release_time (t_release e)) as (k & K0 & K1 & K2).
  - exact Q1.
  - rewrite Q2. apply unit_one.
  - rewrite Q2, val_fone. lra.
  - rewrite Q3. apply fin_nn; [exact Fr | lra].
  - rewrite Q3. exact Fr.
  - rewrite Q3. exact Er.
  - rewrite Q2, Q3, val_fone in K1. exists k. split; [exact K0 |]. split; [exact K1 |].
    intros sizes. cbn [env_run asr_step fst snd app]. rewrite asr_blocks. apply K2.
Qed.

(** ** C38 *)
(** Any format, sample rate, non-negative times and history *)
Theorem C38_range : forall sr (a r : fl) ops, (0 < sr < U32)%N -> nn a -> nn r -> times_ok ops ->
  forall o, In o (outputs (snd (env_run (ar_step sr) (env_init sr (env_new a r)) ops))) -> fin o /\ 0 <= val o <= 1.
Proof.
  intros sr a r ops Hs Ha Hr Ht o Ho. apply (ar_run_ok sr ops (env_init sr (env_new a r))); try assumption.
  split; [apply init_ok; assumption |]. split; [apply unit_zero | discriminate].
Qed.
(** A trigger, at any moment: the output rises (does not fall) for [ka] samples, is then 1, and [kr] samples after that there
    is the one done report, followed by 0. *)
Theorem C38_trigger_partial : forall sr (e : env prec emax), fin (e_t e) -> 0 <= val (e_t e) <= 1 ->
  fin (e_arate e) -> eps < val (e_arate e) -> fin (e_rrate e) -> eps < val (e_rrate e) ->
  exists ka kr, (0 < ka)%nat /\ (0 < kr)%nat /\
    ((INR ka - 1) * (val (e_arate e) - eps) < 1 - val (e_t e) \/ ka = 1%nat) /\
    1 - val (e_t e) <= INR ka * (val (e_arate e) + eps) /\
    steps_for 1 (val (e_rrate e)) eps kr /\
    forall sizes, let l := snd (env_run (ar_step sr) e (ERestart :: map EBlock sizes)) in
      done_frames l = only_kth (ka + kr) (frames_of sizes) /\
      (forall m x y, (S m < ka)%nat -> nth_error (outputs l) m = Some x -> nth_error (outputs l) (S m) = Some y -> val x <= val y) /\
      (forall o, nth_error (outputs l) ka = Some o -> val o = 1) /\
      forall m o, (ka + kr <= m)%nat -> nth_error (outputs l) m = Some o -> o = fzero.
Proof.
  intros sr e Ft Vt Fa Ea Fr Er. pose proof (eps_pos (prec := prec)) as Ep.
  assert (Nr : nn (e_rrate e)) by (apply fin_nn; [exact Fr | lra]).
  assert (Na : nn (e_arate e)) by (apply fin_nn; [exact Fa | lra]).
  destruct (attack_time' (t_restart e)) as (ka & A0 & A1 & A2 & A3 & A4); try assumption; try reflexivity; [split; assumption |].
  destruct (ar_release_time (ar_peak (t_restart e))) as (kr & R0 & R1 & R2); try assumption; try reflexivity.
  { apply unit_one. } { cbn [ar_peak e_t]. rewrite val_fone. lra. }
  cbn [ar_peak t_restart e_t e_rrate e_arate] in *. rewrite val_fone in R1.
  exists ka, kr. split; [exact A0 |]. split; [exact R0 |]. split; [exact A1 |]. split; [exact A2 |]. split; [exact R1 |].
  intros sizes. cbn [env_run ar_step fst snd app]. rewrite ar_blocks. generalize (frames_of sizes). intros fs.
  destruct (A4 kr R0 R2 fs) as [D Z0]. split; [exact D |]. split; [| split; [| exact Z0]].
  - (* the rise *)
    intros m x y Hm Hx Hy.
    set (gs := fs ++ repeat 0%N ka).
    destruct (A3 (firstn ka gs)) as (l & L1 & _ & L3).
    { rewrite firstn_length_le; [reflexivity |]. unfold gs. rewrite app_length, repeat_length. lia. }
    assert (P : forall j, (j < ka)%nat -> (j < length fs)%nat ->
              nth_error (outputs l) j = nth_error (outputs (snd (env_samples ar_next fs (t_restart e)))) j).
    { intros j Hj Hf.
      assert (E1 : nth_error (outputs (snd (env_samples ar_next gs (t_restart e)))) j = nth_error (outputs l) j).
      { rewrite <- (firstn_skipn ka gs), samples_app, L1. cbn [snd]. unfold outputs. rewrite map_app, nth_error_app1; [reflexivity |].
        rewrite map_length. replace (length l) with ka; [exact Hj |].
        assert (len : forall fs (e : env prec emax), length (snd (env_samples ar_next fs e)) = length fs)
          by (clear; induction fs as [| f fs IH]; intros e; [reflexivity |]; cbn [env_samples snd length]; rewrite IH; reflexivity).
        pose proof (len (firstn ka gs) (t_restart e)) as Q. rewrite L1 in Q. cbn [snd] in Q. rewrite Q, firstn_length_le; [reflexivity |].
        unfold gs. rewrite app_length, repeat_length. lia. }
      rewrite <- E1. unfold gs. rewrite samples_app. cbn [snd]. unfold outputs. rewrite map_app, nth_error_app1; [reflexivity |].
      rewrite map_length. 
      assert (len : forall fs (e : env prec emax), length (snd (env_samples ar_next fs e)) = length fs)
          by (clear; induction fs as [| f fs IH]; intros e; [reflexivity |]; cbn [env_samples snd length]; rewrite IH; reflexivity).
      rewrite len. exact Hf. }
    assert (Lf : (S m < length fs)%nat).
    { assert (len : forall fs (e : env prec emax), length (snd (env_samples ar_next fs e)) = length fs)
          by (clear; induction fs as [| f fs IH]; intros e; [reflexivity |]; cbn [env_samples snd length]; rewrite IH; reflexivity).
      rewrite <- (len fs (t_restart e)), <- (map_length fst). apply nth_error_Some. unfold outputs in Hy. intros C.
      change (nth_error (map fst (snd (env_samples ar_next fs (t_restart e)))) (S m) = None) in C. congruence. }
    apply (L3 m x y); rewrite P by lia; assumption.
  - intros o Ho.
    assert (len : forall fs (e : env prec emax), length (snd (env_samples ar_next fs e)) = length fs)
          by (clear; induction fs as [| f fs IH]; intros e; [reflexivity |]; cbn [env_samples snd length]; rewrite IH; reflexivity).
    assert (Lf : (ka < length fs)%nat).
    { rewrite <- (len fs (t_restart e)), <- (map_length fst). apply nth_error_Some. intros C. unfold outputs in Ho. congruence. }
    destruct (A3 (firstn ka fs)) as (l & L1 & _ & _); [rewrite firstn_length_le; lia |].
    rewrite <- (firstn_skipn ka fs), samples_app, L1 in Ho. cbn [fst snd] in Ho. unfold outputs in Ho. rewrite map_app in Ho.
    assert (Ll : length l = ka).
    { pose proof (len (firstn ka fs) (t_restart e)) as Q. rewrite L1 in Q. cbn [snd] in Q. rewrite Q, firstn_length_le; lia. }
    rewrite nth_error_app2 in Ho by (rewrite map_length; lia). rewrite map_length, Ll, Nat.sub_diag in Ho.
    destruct (skipn ka fs) as [| f gs]; [discriminate Ho |]. cbn [env_samples snd map fst nth_error] in Ho. injection Ho as <-.
    assert (O1 : val (fmul (cube (fone : fl)) fone) = 1).
    { assert (M : forall x : fl, fin x -> val x = 1 -> fin (fmul x fone) /\ val (fmul x fone) = 1).
      { intros x Fx Vx. destruct (fmul_ok x fone Fx fin_fone) as [B1 B2].
        - rewrite Vx, val_fone. apply fits with 0%Z; [destruct I; lia |]. change (bpow radix2 0) with 1. rewrite Rabs_pos_eq; lra.
        - split; [exact B2 |]. rewrite B1, Vx, val_fone, Rmult_1_r. apply rnd_1. }
      unfold cube. destruct (M fone fin_fone val_fone) as [B1 B2]. destruct (M _ B1 B2) as [B3 B4]. apply (M _ B3 B4). }
    unfold ar_next. cbn [ar_peak e_state e_t e_scale e_rrate]. destruct (fleb _ _); cbn [fst snd]; exact O1.
Qed.
End Props.
Print Assumptions C37_range_partial.
Print Assumptions C37_release_partial.
Print Assumptions C38_range.
Print Assumptions C38_trigger_partial.

(** The cases that are excluded above. *)
Definition restarts : list (eop 24 128) := [ERestart; EBlock 1; ERestart; EBlock 1; ERestart; EBlock 1].
(** Restarted at its sustain level, the ASR envelope leaves the range: it attacks from a [t] that is above 1 already. *)
Theorem C37_range_refuted : exists o,
  In o (outputs (snd (env_run (asr_step 48000) (env_init 48000 (env_new (fzero : f32) fzero)) restarts))) /\ val o = 2.
Proof.
  set (l := outputs _).
  assert (E : exists o, nth_error l 2 = Some o /\ B2SF o = B2SF (fz 2 : f32)).
  { assert (Q : option_map B2SF (nth_error l 2) = Some (B2SF (fz 2 : f32))) by (vm_compute; reflexivity).
    destruct (nth_error l 2) as [o |]; [| discriminate Q]. exists o. split; [reflexivity |]. injection Q as Q. exact Q. }
  destruct E as (o & E1 & E2). exists o. split; [apply (nth_error_In _ _ E1) |].
  apply B2SF_inj in E2. rewrite E2. apply fz_small. lia.
Qed.
Print Assumptions C37_range_refuted.

Definition long_release : env 24 128 := fst (env_run (asr_step 48000) (env_init 48000 (env_new fzero (fz 700))) [ERestart; EBlock 1; ETrigRelease]).
(** A release of 700 s at 48 kHz, single precision: the step is too small for the format, so the envelope stays at 1 for ever. *)
Theorem C37_never_done_refuted : e_state long_release = Releasing /\
  forall sizes, done_frames (snd (env_run (asr_step 48000) long_release (map EBlock sizes))) = map (fun _ => None) (frames_of sizes).
Proof.
  assert (S0 : e_state long_release = Releasing) by (vm_compute; reflexivity). split; [exact S0 |].
  intros sizes. rewrite asr_blocks.
  rewrite (stuck_samples asr_next long_release (fmul (cube (e_t long_release)) (e_scale long_release))).
  - cbn [snd]. unfold done_frames. rewrite map_map. reflexivity.
  - intros i. unfold asr_next. rewrite S0.
    assert (E : fsub (e_t long_release) (e_rrate long_release) = e_t long_release) by (apply B2SF_inj; vm_compute; reflexivity).
    rewrite E. assert (Q : fleb (e_t long_release) fzero = false) by (vm_compute; reflexivity). rewrite Q.
    rewrite <- S0. destruct long_release; reflexivity.
Qed.
Print Assumptions C37_never_done_refuted.

Definition long_attack : env 24 128 :=
  fst (env_run (ar_step 48000) (env_init 48000 (env_new fzero (fdiv (fz 2) (fz 48000)))) [ERestart; EBlock 2; EAttack (fz 700); ERestart]).
(** The same for an attack of 700 s: triggered at 0.5 it stays there. *)
Theorem C38_never_done_refuted : e_state long_attack = Attacking /\
  forall sizes, done_frames (snd (env_run (ar_step 48000) long_attack (map EBlock sizes))) = map (fun _ => None) (frames_of sizes).
Proof.
  assert (S0 : e_state long_attack = Attacking) by (vm_compute; reflexivity). split; [exact S0 |].
  intros sizes. rewrite ar_blocks.
  rewrite (stuck_samples ar_next long_attack (e_t long_attack)).
  - cbn [snd]. unfold done_frames. rewrite map_map. reflexivity.
  - intros i. unfold ar_next. rewrite S0.
    assert (E : fadd (e_t long_attack) (e_arate long_attack) = e_t long_attack) by (apply B2SF_inj; vm_compute; reflexivity).
    rewrite E. assert (Q : fleb fone (e_t long_attack) = false) by (vm_compute; reflexivity). rewrite Q.
    rewrite <- S0. destruct long_attack; reflexivity.
Qed.
Print Assumptions C38_never_done_refuted.

(** * Concrete cases *)
(** Attack and release of four samples (single precision, 1/4 each): the attack, two samples of sustain, a release in the
    middle of a block, and a done report in the frame 2 of the block after it. *)
Definition quarter : f32 := fze 1 (-2).
Definition short_env : env 24 128 := env_init 1 (env_new (fz 4) (fz 4)).
Definition short_ops : list (eop 24 128) := [ERestart; EBlock 6; ETrigRelease; EBlock 1; EBlock 5].
Example short_hyps : nn (fz 4 : f32) /\ times_ok short_ops /\ no_restart_at_sustain 1 short_env short_ops.
Proof.
  split; [vm_compute; reflexivity |]. split.
  - intros o H. repeat (destruct H as [<- | H]; [exact Logic.I |]). destruct H.
  - vm_compute. repeat split.
Qed.
Example short_done : done_frames (snd (env_run (asr_step 1) short_env short_ops)) =
  [None; None; None; None; None; None; None; None; None; Some 2%N; None; None].
Proof. vm_compute. reflexivity. Qed.
Example short_values : map (fun o => B2SF o) (outputs (snd (env_run (asr_step 1) short_env short_ops))) =
  map (fun o : f32 => B2SF o) [fzero; fze 1 (-2); fze 1 (-1); fze 3 (-2); fone; fone; fone; fze 27 (-6); fze 1 (-3); fze 1 (-6); fzero; fzero].
Proof. vm_compute. reflexivity. Qed.
Example short_rates : e_state (fst (env_run (asr_step 1) short_env [ERestart; EBlock 6])) = Sustaining /\
  B2SF (e_rrate short_env) = B2SF quarter.
Proof. vm_compute. split; reflexivity. Qed.
(** An AR envelope with the same times, triggered again during its release *)
Definition short_ar : list (eop 24 128) := [ERestart; EBlock 6; ERestart; EBlock 7].
Example short_ar_done : done_frames (snd (env_run (ar_step 1) short_env short_ar)) =
  [None; None; None; None; None; None; None; None; None; None; None; Some 5%N; None].
Proof. vm_compute. reflexivity. Qed.
Example short_ar_values : map (fun o => B2SF o) (outputs (snd (env_run (ar_step 1) short_env short_ar))) =
  map (fun o : f32 => B2SF o) [fzero; fze 1 (-2); fze 1 (-1); fze 3 (-2); fone; fze 27 (-6); fze 1 (-1); fze 3 (-2); fone; fze 27 (-6); fze 1 (-3); fze 1 (-6); fzero].
Proof. vm_compute. reflexivity. Qed.
