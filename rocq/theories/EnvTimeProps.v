(** C37, C38: the times that are set are the times that are heard. *)
From Coq Require Import Reals Lra.
From Flocq Require Import Core BinarySingleNaN.
From Verif Require Import Base FloatBase FloatMore EnvModel EnvSpec EnvProofs EnvProps EnvTimeSpec EnvTimeProofs.
Local Open Scope R_scope.

Section Props.
Context {prec emax : Z} {I : ieee prec emax}.
Notation fl := (binary_float prec emax).
Notation eps := (@eps prec).
(** Any history, then a release from the attack or the sustain level: done is reported after the number of samples that the most
    recent release time stands for (up to the rounding errors [steps_for] and [rate_for] speak of), if that is at least one and
    at most 2^(prec - 1). *)
Theorem C37_release_time_partial : forall sr (a r : fl) ops, (0 < sr <= 2 ^ 24)%N ->
  let e := fst (env_run (asr_step sr) (env_init sr (env_new a r)) ops) in let s := release_after r ops in
  e_state e = Attacking \/ e_state e = Sustaining -> fin s -> 1 <= samples_of sr s <= bpow radix2 (Z.min 100 (prec - 1)) ->
  exists rho k, rate_for (prec := prec) (samples_of sr s) rho /\ (0 < k)%nat /\ steps_for 1 rho eps k /\
    forall sizes, let l := snd (env_run (asr_step sr) e (ETrigRelease :: map EBlock sizes)) in
      done_frames l = only_kth k (frames_of sizes) /\ forall m o, (k <= m)%nat -> nth_error (outputs l) m = Some o -> o = fzero.
Proof.
  intros sr a r ops Hs e s St Fs Ls. destruct (asr_timed sr ops a r _ (timed_init sr a r)) as (_ & R & _). fold e s in R.
  assert (P : proper sr s) by (split; [exact Fs |]; split; [apply Ls |]; eapply Rle_trans; [apply Ls | apply bpow_le; lia]).
  destruct (rate_exact sr s Hs P) as [F X]. rewrite <- R in F, X.
  assert (Ep : eps < val (e_rrate e)).
  { apply (rate_above (emax := emax) (samples_of sr s)); [| exact X]. split; [apply Ls |]. eapply Rle_trans; [apply Ls | apply bpow_le; lia]. }
  destruct (C37_release_partial sr e St F Ep) as (k & K0 & K1 & K2). exists (val (e_rrate e)), k. split; [exact X |]. split; [exact K0 |]. split; [exact K1 | exact K2].
Qed.
(** The same for the AR envelope, which releases by itself: a trigger from rest *)
Theorem C38_time_partial : forall sr (a r : fl) ops, (0 < sr <= 2 ^ 24)%N ->
  let e := fst (env_run (ar_step sr) (env_init sr (env_new a r)) ops) in let sa := attack_after a ops in let s := release_after r ops in
  fin (e_t e) -> val (e_t e) = 0 -> fin sa -> 1 <= samples_of sr sa <= bpow radix2 (Z.min 100 (prec - 1)) -> fin s -> 1 <= samples_of sr s <= bpow radix2 (Z.min 100 (prec - 1)) ->
  exists ra rr ka kr, rate_for (prec := prec) (samples_of sr sa) ra /\ rate_for (prec := prec) (samples_of sr s) rr /\ (0 < ka)%nat /\ (0 < kr)%nat /\
    ((INR ka - 1) * (ra - eps) < 1 \/ ka = 1%nat) /\ 1 <= INR ka * (ra + eps) /\ steps_for 1 rr eps kr /\
    forall sizes, let l := snd (env_run (ar_step sr) e (ERestart :: map EBlock sizes)) in
      done_frames l = only_kth (ka + kr) (frames_of sizes) /\
      (forall o, nth_error (outputs l) ka = Some o -> val o = 1) /\
      forall m o, (ka + kr <= m)%nat -> nth_error (outputs l) m = Some o -> o = fzero.
Proof.
  intros sr a r ops Hs e sa s Ft Vt Fa La Fs Ls. destruct (ar_timed sr ops a r _ (timed_init sr a r)) as (A & R & _). fold e s sa in A, R.
  assert (Pa : proper sr sa) by (split; [exact Fa |]; split; [apply La |]; eapply Rle_trans; [apply La | apply bpow_le; lia]).
  assert (P : proper sr s) by (split; [exact Fs |]; split; [apply Ls |]; eapply Rle_trans; [apply Ls | apply bpow_le; lia]).
  destruct (rate_exact sr sa Hs Pa) as [F1 X1]. destruct (rate_exact sr s Hs P) as [F2 X2]. rewrite <- A in F1, X1. rewrite <- R in F2, X2.
  assert (E1 : eps < val (e_arate e)).
  { apply (rate_above (emax := emax) (samples_of sr sa)); [| exact X1]. split; [apply La |]. eapply Rle_trans; [apply La | apply bpow_le; lia]. }
  assert (E2 : eps < val (e_rrate e)).
  { apply (rate_above (emax := emax) (samples_of sr s)); [| exact X2]. split; [apply Ls |]. eapply Rle_trans; [apply Ls | apply bpow_le; lia]. }
  destruct (C38_trigger_partial sr e Ft ltac:(lra) F1 E1 F2 E2) as (ka & kr & K0 & K1 & K2 & K3 & K4 & K5). rewrite Vt, Rminus_0_r in K2, K3.
  exists (val (e_arate e)), (val (e_rrate e)), ka, kr. repeat (split; [assumption |]). intros sizes. destruct (K5 sizes) as (P1 & _ & P3 & P4). split; [exact P1 |]. split; [exact P3 | exact P4].
Qed.
End Props.
Print Assumptions C37_release_time_partial.
Print Assumptions C38_time_partial.

(** At 1024 Hz: a release time of a half, then of 1/64 second (16 samples), set while attacking *)
Definition late_ops : list (eop 24 128) := [ERestart; EBlock 4; ERelease (fze 1 (-6)); EBlock 2].
Definition late_env : env 24 128 := fst (env_run (asr_step 1024) (env_init 1024 (env_new (fze 1 (-5)) (fze 1 (-1)))) late_ops).
Example late_case : e_state late_env = Attacking /\ release_after (fze 1 (-1) : f32) late_ops = fze 1 (-6) /\ samples_of 1024 (fze 1 (-6) : f32) = 16 /\
  done_frames (snd (env_run (asr_step 1024) late_env (ETrigRelease :: map EBlock [10; 10]%nat))) = repeat None 15 ++ [Some 5%N] ++ repeat None 4.
Proof.
  split; [vm_compute; reflexivity |]. split; [reflexivity |]. split; [| vm_compute; reflexivity].
  assert (V : val (fze 1 (-6) : f32) = bpow radix2 (-6)).
  { destruct (fze_ok (prec := 24) (emax := 128) 1 (-6)) as [V _]; [rewrite Rmult_1_l, rnd_bpow by lia; rewrite Rabs_pos_eq by apply bpow_ge_0; apply bpow_lt; lia |].
    rewrite V, Rmult_1_l. apply rnd_bpow. lia. }
  unfold samples_of. rewrite V. change (bpow radix2 (-6)) with (/ 64). change (IZR (Z.of_N 1024)) with 1024. lra.
Qed.
