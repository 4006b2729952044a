(** C65: the envelopes do not click, and the shape of their attack and release. *)
From Coq Require Import Reals Lra Lia.
From Flocq Require Import Core BinarySingleNaN.
From Verif Require Import Base FloatBase FloatMore EnvModel EnvSpec EnvJumpSpec EnvProofs EnvJumpProofs.
Local Open Scope R_scope.

Section Props.
Context {prec emax : Z} {I : ieee prec emax}.
Notation fl := (binary_float prec emax).
Notation env := (env prec emax).
Notation eps := (@eps prec).

(** Any format, sample rate, times of at least [n] samples and history in which the envelope is restarted only while it is
    stopped or in its attack (it may be released, and its times changed, at any moment): the output starts within [3 / n] of 0
    and two neighbouring samples are no further apart than that, up to rounding. *)
Theorem C65_smooth_partial : forall n sr (a r : fl) ops, 1 <= n -> (0 < sr <= 2 ^ 24)%N -> lasts n sr a -> lasts n sr r -> all_last n sr ops ->
  let e := env_init sr (env_new a r) in
  (quiet_restarts (asr_step sr) e ops -> no_click (3 / n + 24 * eps) 0 (outputs (snd (env_run (asr_step sr) e ops)))) /\
  (quiet_restarts (ar_step sr) e ops -> no_click (3 / n + 24 * eps) 0 (outputs (snd (env_run (ar_step sr) e ops)))).
Proof. intros n sr a r ops Hn Hr Ha Hb Ho e. split; intros Q; [apply asr_click | apply ar_click]; assumption. Qed.

(** The attack is a straight line at the attack rate, until 1 is reached; each sample adds at most one rounding error. *)
Theorem C65_attack : forall sr (e : env) sizes m, e_state e = Attacking -> fin (e_t e) -> 0 <= val (e_t e) <= 1 ->
  fin (e_arate e) -> 0 <= val (e_arate e) <= 1 -> (m < length (frames_of sizes))%nat -> val (e_t e) + INR m * (val (e_arate e) + eps) < 1 ->
  (exists o, nth_error (outputs (snd (env_run (asr_step sr) e (map EBlock sizes)))) m = Some o /\
    Rabs (val o - (val (e_t e) + INR m * val (e_arate e))) <= INR m * eps) /\
  (exists o, nth_error (outputs (snd (env_run (ar_step sr) e (map EBlock sizes)))) m = Some o /\
    Rabs (val o - (val (e_t e) + INR m * val (e_arate e))) <= INR m * eps).
Proof.
  intros sr e sizes m E Ft Vt Fa Va L B. rewrite asr_blocks, ar_blocks.
  split; apply attack_shape; try assumption; try (split; assumption); intros e0 i E0.
  - unfold asr_next. rewrite E0. cbn [fst snd]. split; [| reflexivity]. cbv zeta. destruct (fleb _ _); reflexivity.
  - unfold ar_next. rewrite E0. cbn [fst snd]. split; [| reflexivity]. cbv zeta. destruct (fleb _ _); reflexivity.
Qed.

(** The release is the cube of a straight line from 1 at the release rate, scaled to the level at which the release began: the
    level of the attack, or 1. *)
Lemma cube_near : forall t u s d, 0 <= t <= 1 -> 0 <= u <= 1 -> 0 <= s <= 1 -> Rabs (t - u) <= d ->
  Rabs (t * t * t * s - u * u * u * s) <= 3 * d.
Proof.
  intros t u s d Ht Hu Hs D. apply abs_le in D. apply Rabs_le. destruct (Rle_dec u t) as [L | L].
  - pose proof (cube_diff t u s ltac:(lra) ltac:(lra) Hs). lra.
  - pose proof (cube_diff u t s ltac:(lra) ltac:(lra) Hs). lra.
Qed.
Lemma release_cubic : forall next, (forall (e : env) i, e_state e = Releasing -> next e i = asr_next e i) ->
  forall m fs (e : env), e_state e = Releasing -> e_t e = fone -> unit_ (e_rrate e) -> unit_ (e_scale e) -> (m < length fs)%nat ->
  INR m * (val (e_rrate e) + eps) < 1 ->
  exists o, nth_error (outputs (snd (env_samples next fs e))) m = Some o /\
    Rabs (val o - val (e_scale e) * (1 - INR m * val (e_rrate e)) ^ 3) <= (3 * INR m + 3) * eps.
Proof.
  intros next Hn m fs e E T Hr Hs L B.
  destruct (release_shape next Hn m fs e E) as (o & t & O1 & O2 & O3 & O4); try assumption.
  { rewrite T. apply unit_one. }
  { rewrite T, val_fone. exact B. }
  rewrite T, val_fone in O3. exists o. split; [exact O1 |].
  pose proof (eps_pos (prec := prec)) as Ep. pose proof (pos_INR m) as Pm. destruct Hr as [_ Vr]. destruct Hs as [_ Vs].
  assert (U : 0 <= 1 - INR m * val (e_rrate e) <= 1) by (split; nra).
  pose proof (cube_near _ _ (val (e_scale e)) _ O2 U Vs O3) as D. apply abs_le in D. apply abs_le in O4. apply Rabs_le.
  replace (val (e_scale e) * (1 - INR m * val (e_rrate e)) ^ 3) with
    ((1 - INR m * val (e_rrate e)) * (1 - INR m * val (e_rrate e)) * (1 - INR m * val (e_rrate e)) * val (e_scale e)) by ring. lra.
Qed.
Theorem C65_release_asr : forall sr (e : env) sizes m lv,
  (e_state e = Attacking /\ lv = val (e_t e) \/ e_state e = Sustaining /\ lv = 1) -> (e_state e = Attacking -> fin (e_t e) /\ 0 <= lv <= 1) ->
  fin (e_rrate e) -> 0 <= val (e_rrate e) <= 1 -> (m < length (frames_of sizes))%nat -> INR m * (val (e_rrate e) + eps) < 1 ->
  exists o, nth_error (outputs (snd (env_run (asr_step sr) e (ETrigRelease :: map EBlock sizes)))) m = Some o /\
    Rabs (val o - lv * (1 - INR m * val (e_rrate e)) ^ 3) <= (3 * INR m + 3) * eps.
Proof.
  intros sr e sizes m lv S0 T Fr Vr L B. cbn [env_run asr_step fst snd app]. rewrite asr_blocks.
  assert (Q : e_state (t_release e) = Releasing /\ e_t (t_release e) = fone /\ e_rrate (t_release e) = e_rrate e /\ unit_ (e_scale (t_release e)) /\ val (e_scale (t_release e)) = lv).
  { unfold t_release. destruct S0 as [[E ->] | [E ->]]; rewrite E; repeat split; try apply T; try exact E; cbn [e_scale]; try apply unit_one; try apply val_fone. }
  destruct Q as (Q1 & Q2 & Q3 & Q4 & Q5).
  pose proof (release_cubic asr_next (fun _ _ _ => eq_refl) m (frames_of sizes) (t_release e)) as R. rewrite Q3, Q5 in R.
  apply R; try assumption. split; assumption.
Qed.
Theorem C65_release_ar : forall sr (e : env) sizes m, e_state e = Releasing -> e_t e = fone -> e_scale e = fone ->
  fin (e_rrate e) -> 0 <= val (e_rrate e) <= 1 -> (m < length (frames_of sizes))%nat -> INR m * (val (e_rrate e) + eps) < 1 ->
  exists o, nth_error (outputs (snd (env_run (ar_step sr) e (map EBlock sizes)))) m = Some o /\
    Rabs (val o - (1 - INR m * val (e_rrate e)) ^ 3) <= (3 * INR m + 3) * eps.
Proof.
  intros sr e sizes m E T Sc Fr Vr L B. rewrite ar_blocks.
  destruct (release_cubic ar_next) with (m := m) (fs := frames_of sizes) (e := e) as (o & O1 & O2); try assumption.
  - intros e0 i E0. unfold ar_next, asr_next. rewrite E0. reflexivity.
  - split; assumption.
  - rewrite Sc. apply unit_one.
  - exists o. split; [exact O1 |]. rewrite Sc, val_fone, Rmult_1_l in O2. exact O2.
Qed.
End Props.
Print Assumptions C65_smooth_partial.
Print Assumptions C65_attack.
Print Assumptions C65_release_asr.
Print Assumptions C65_release_ar.

(** What is left out: a restart during the release. The attack goes on from [t], but the output was the cube of [t]. *)
Definition second : env 24 128 := env_init 100 (env_new fone fone).
Definition asr_retrigger : list (eop 24 128) := [ERestart; EBlock 101; ETrigRelease; EBlock 39; ERestart; EBlock 1].
Definition ar_retrigger : list (eop 24 128) := [ERestart; EBlock 140; ERestart; EBlock 1].
Definition jumps (l : list f32) (m : nat) : bool :=
  match nth_error l m, nth_error l (S m) with
  | Some x, Some y => is_finite x && is_finite y && fleb x (fze 1 (-2)) && fleb (fze 1 (-1)) y
  | _, _ => false
  end.
Lemma jumps_val : forall l m, jumps l m = true -> exists x y, nth_error l m = Some x /\ nth_error l (S m) = Some y /\ / 4 <= val y - val x.
Proof.
  intros l m H. unfold jumps in H. destruct (nth_error l m) as [x |]; [| discriminate]. destruct (nth_error l (S m)) as [y |]; [| discriminate].
  apply andb_prop in H as [H H4]. apply andb_prop in H as [H H3]. apply andb_prop in H as [H1 H2].
  exists x, y. split; [reflexivity |]. split; [reflexivity |].
  assert (P : forall k, (-126 <= k < 128)%Z -> val (fze 1 k : f32) = bpow radix2 k /\ fin (fze 1 k : f32)).
  { intros k K. destruct (fze_ok (prec := 24) (emax := 128) 1 k) as [A B]; rewrite Rmult_1_l in *.
    - apply fits with k; [lia |]. rewrite Rabs_pos_eq by apply bpow_ge_0. lra.
    - split; [rewrite A; apply rnd_bpow; lia | exact B]. }
  destruct (P (-2)%Z ltac:(lia)) as [A1 A2]. destruct (P (-1)%Z ltac:(lia)) as [B1 B2].
  change (bpow radix2 (-2)) with (/ 4) in A1. change (bpow radix2 (-1)) with (/ 2) in B1.
  apply fleb_true in H3; [| exact H1 | exact A2]. apply fleb_true in H4; [| exact B2 | exact H2].
  rewrite A1 in H3. rewrite B1 in H4. lra.
Qed.
(** One second of attack and release at 100 samples per second ([n] = 100): neighbouring samples 1/4 apart, eight times the bound. *)
Theorem C65_restart_refuted :
  (exists m x y, nth_error (outputs (snd (env_run (asr_step 100) second asr_retrigger))) m = Some x /\
     nth_error (outputs (snd (env_run (asr_step 100) second asr_retrigger))) (S m) = Some y /\ / 4 <= val y - val x) /\
  (exists m x y, nth_error (outputs (snd (env_run (ar_step 100) second ar_retrigger))) m = Some x /\
     nth_error (outputs (snd (env_run (ar_step 100) second ar_retrigger))) (S m) = Some y /\ / 4 <= val y - val x).
Proof. split; [exists 139%nat | exists 139%nat]; apply jumps_val; vm_compute; reflexivity. Qed.
Print Assumptions C65_restart_refuted.

(** The hypotheses can be met: attack and release of one second at 100 samples per second, released during the attack, restarted
    when it is over. *)
Definition calm_ops : list (eop 24 128) := [ERestart; EBlock 60; ETrigRelease; EAttack fone; EBlock 150; ERestart; EBlock 30].
Example calm_hyps : lasts 100 100 (fone : f32) /\ all_last 100 100 calm_ops /\ quiet_restarts (asr_step 100) second calm_ops.
Proof.
  assert (L : lasts 100 100 (fone : f32)) by (split; [reflexivity | rewrite val_fone; cbn; lra]).
  split; [exact L |]. split.
  - intros o [<- | [<- | [<- | [<- | [<- | [<- | [<- | []]]]]]]]; try constructor; exact L || apply L.
  - vm_compute. repeat split.
Qed.
Example calm_run : length (snd (env_run (asr_step 100) second calm_ops)) = 240%nat /\
  existsb (fun o => match snd o with Some _ => true | None => false end) (snd (env_run (asr_step 100) second calm_ops)) = true.
Proof. vm_compute. split; reflexivity. Qed.
Example attack_hyps : let e := t_restart second in e_state e = Attacking /\ fin (e_t e) /\ fin (e_arate e) /\ (50 < length (frames_of [60]))%nat.
Proof. vm_compute. repeat split; lia. Qed.
