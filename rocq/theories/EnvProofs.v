From Coq Require Import Reals Lra.
From Flocq Require Import Core BinarySingleNaN.
From Verif Require Import Base FloatBase FloatMore EnvModel EnvSpec.
Local Open Scope R_scope.

Section Proofs.
Context {prec emax : Z} {I : ieee prec emax}.
Notation fl := (binary_float prec emax).
Notation env := (env prec emax).
Notation rnd := (@rnd prec emax).
Notation eps := (@eps prec).

Lemma rate_of_nn : forall (s : fl) sr, nn s -> (0 < sr < U32)%N -> nn (rate_of s sr).
Proof.
  intros s sr Hs Hr. unfold rate_of. destruct (feqb s fzero) eqn:E.
  - apply fin_nn; [apply fin_fone | rewrite val_fone; lra].
  - destruct (fz_ok (prec := prec) (emax := emax) (Z.of_N sr)) as [A B].
    { apply fits with 32%Z; [destruct I; lia |]. rewrite Rabs_pos_eq by (apply IZR_le; lia).
      change (bpow radix2 32) with (IZR (2 ^ 32)). apply IZR_le. unfold U32 in Hr. lia. }
    apply rate_nn; try assumption. rewrite A. rewrite <- (rnd_1 (prec := prec) (emax := emax)). apply rnd_le. apply IZR_le. lia.
Qed.

Definition rates_ok (e : env) : Prop := nn (e_arate e) /\ nn (e_rrate e) /\ unit_ (e_scale e).
Definition asr_inv (e : env) : Prop := rates_ok e /\ (e_state e <> Sustaining -> unit_ (e_t e)).

Lemma out_unit : forall t s : fl, unit_ t -> unit_ s -> unit_ (fmul (cube t) s).
Proof. intros t s Ht Hs. unfold cube. apply unit_mul; [| exact Hs]. apply unit_mul; [| exact Ht]. apply unit_mul; assumption. Qed.
Lemma attack_step : forall t r : fl, unit_ t -> nn r -> fleb fone (fadd t r) = false -> unit_ (fadd t r).
Proof.
  intros t r [Ft Vt] Hr H. apply not_ge_one in H.
  - destruct H as [F V]. split; [exact F | lra].
  - apply fadd_nn; [apply fin_nn; [exact Ft | lra] | exact Hr].
Qed.
Lemma release_step : forall t r : fl, unit_ t -> nn r -> fleb (fsub t r) fzero = false -> unit_ (fsub t r).
Proof.
  intros t r Ht Hr H. destruct (fsub_unit t r Ht Hr) as [E | (_ & _ & F & _ & V)]; [congruence |].
  destruct Ht as [Ft Vt]. split; [exact F | lra].
Qed.
Lemma asr_next_ok : forall e i, asr_inv e -> asr_inv (fst (fst (asr_next e i))) /\ unit_ (snd (fst (asr_next e i))).
Proof.
  intros e i [(R1 & R2 & R3) T]. unfold asr_next. destruct (e_state e) eqn:S0; cbn [fst snd].
  - split; [split; [repeat split; assumption || apply R3 | intros _; apply T; discriminate] | apply unit_zero].
  - specialize (T ltac:(discriminate)). split; [| exact T]. split; [repeat split; assumption || apply R3 |].
    cbn [e_state e_t]. destruct (fleb fone (fadd (e_t e) (e_arate e))) eqn:E; intros H; [contradiction |].
    apply attack_step; assumption.
  - split; [split; [repeat split; assumption || apply R3 | rewrite S0; intros H; contradiction] | apply unit_one].
  - specialize (T ltac:(discriminate)).
    destruct (fleb (fsub (e_t e) (e_rrate e)) fzero) eqn:E; cbn [fst snd].
    + split; [split; [repeat split; assumption || apply R3 | intros _; apply unit_zero] | apply out_unit; assumption].
    + split; [split; [repeat split; assumption || apply R3 | intros _; apply release_step; assumption] | apply out_unit; assumption].
Qed.
Definition ar_inv (e : env) : Prop := rates_ok e /\ unit_ (e_t e) /\ e_state e <> Sustaining.
Lemma ar_next_ok : forall e i, ar_inv e -> ar_inv (fst (fst (ar_next e i))) /\ unit_ (snd (fst (ar_next e i))).
Proof.
  intros e i ((R1 & R2 & R3) & T & S1). unfold ar_next. destruct (e_state e) eqn:S0; cbn [fst snd].
  - split; [| apply unit_zero]. repeat split; try assumption; try apply R3; try apply T. rewrite S0. exact S1.
  - split; [| exact T].
    destruct (fleb fone (fadd (e_t e) (e_arate e))) eqn:E; (split; [| split]); cbn [e_state e_t]; try discriminate.
    + split; [exact R1 |]. split; [exact R2 | apply unit_one].
    + apply unit_one.
    + split; [exact R1 |]. split; [exact R2 | exact R3].
    + apply attack_step; assumption.
  - contradiction.
  - destruct (fleb (fsub (e_t e) (e_rrate e)) fzero) eqn:E; cbn [fst snd]; (split; [| apply out_unit; assumption]);
      (split; [split; [exact R1 | split; [exact R2 | exact R3]] | split; [| discriminate]]); cbn [e_t].
    + apply unit_zero.
    + apply release_step; assumption.
Qed.
Lemma samples_ok : forall (inv : env -> Prop) next, (forall e i, inv e -> inv (fst (fst (next e i))) /\ unit_ (snd (fst (next e i)))) ->
  forall fs e, inv e -> inv (fst (env_samples next fs e)) /\ forall o, In o (outputs (snd (env_samples next fs e))) -> unit_ o.
Proof.
  intros inv next Hn. induction fs as [| i fs IH]; intros e He; cbn [env_samples fst snd].
  - split; [exact He | intros o []].
  - destruct (Hn e i He) as [A B]. destruct (IH _ A) as [C D]. split; [exact C |].
    intros o [<- | H]; [exact B | apply D; exact H].
Qed.
Lemma set_attack_ok : forall sr (e : env) s, (0 < sr < U32)%N -> nn s -> rates_ok e -> rates_ok (set_attack sr e s).
Proof.
  intros sr e s Hr Hs (R1 & R2 & R3). unfold set_attack. destruct (negb _).
  - split; [apply rate_of_nn; assumption | split; assumption].
  - split; [| split]; assumption.
Qed.
Lemma set_release_ok : forall sr (e : env) s, (0 < sr < U32)%N -> nn s -> rates_ok e -> rates_ok (set_release sr e s).
Proof.
  intros sr e s Hr Hs (R1 & R2 & R3). unfold set_release. destruct (negb _).
  - split; [exact R1 | split; [apply rate_of_nn; assumption | exact R3]].
  - split; [| split]; assumption.
Qed.
Lemma set_attack_same : forall sr (e : env) s, e_state (set_attack sr e s) = e_state e /\ e_t (set_attack sr e s) = e_t e.
Proof. intros. unfold set_attack. destruct (negb _); split; reflexivity. Qed.
Lemma set_release_same : forall sr (e : env) s, e_state (set_release sr e s) = e_state e /\ e_t (set_release sr e s) = e_t e.
Proof. intros. unfold set_release. destruct (negb _); split; reflexivity. Qed.
Lemma init_ok : forall sr a r, (0 < sr < U32)%N -> nn a -> nn r -> rates_ok (env_init sr (env_new a r)).
Proof.
  intros sr a r Hr Ha Hb. unfold env_init, env_new. split; [| split]; cbn [e_arate e_rrate e_scale e_asec e_rsec].
  - destruct (feqb fone fone); [apply rate_of_nn; assumption | apply fin_nn; [apply fin_fone | rewrite val_fone; lra]].
  - destruct (feqb fone fone); [apply rate_of_nn; assumption | apply fin_nn; [apply fin_fone | rewrite val_fone; lra]].
  - apply unit_one.
Qed.
Lemma asr_run_ok : forall sr ops e, (0 < sr < U32)%N -> asr_inv e -> times_ok ops -> no_restart_at_sustain sr e ops ->
  forall o, In o (outputs (snd (env_run (asr_step sr) e ops))) -> unit_ o.
Proof.
  intros sr ops. induction ops as [| op ops IH]; intros e Hr He Ht Hn o Ho; [destruct Ho |].
  cbn [env_run snd] in Ho. unfold outputs in Ho. rewrite map_app in Ho.
  assert (Ht' : times_ok ops) by (intros x H; apply (Ht x); right; exact H).
  specialize (Ht op (or_introl eq_refl)). destruct Hn as [Hn1 Hn2].
  assert (Step : asr_inv (fst (asr_step sr e op)) /\ forall o, In o (map fst (snd (asr_step sr e op))) -> unit_ o).
  { destruct He as [R T]. destruct op; cbn [asr_step fst snd].
    - split; [| intros ? []]. split; [apply set_attack_ok; assumption |].
      destruct (set_attack_same sr e seconds) as [-> ->]. exact T.
    - split; [| intros ? []]. split; [apply set_release_ok; assumption |].
      destruct (set_release_same sr e seconds) as [-> ->]. exact T.
    - split; [| intros ? []]. unfold t_release. destruct R as (R1 & R2 & R3). destruct (e_state e) eqn:S0.
      + split; [split; [| split]; assumption |]. rewrite S0. exact T.
      + split; [split; [exact R1 | split; [exact R2 | apply T; discriminate]] | intros _; apply unit_one].
      + split; [split; [exact R1 | split; [exact R2 | apply unit_one]] | intros _; apply unit_one].
      + split; [split; [| split]; assumption |]. rewrite S0. exact T.
    - split; [| intros ? []]. split; [exact R |]. intros _. cbn [t_restart e_t].
      destruct (e_state e); try contradiction; apply T; discriminate.
    - apply (samples_ok asr_inv asr_next asr_next_ok). split; assumption. }
  destruct Step as [A B]. apply in_app_or in Ho as [Ho | Ho]; [apply B; exact Ho |].
  apply (IH _ Hr A Ht' Hn2 o Ho).
Qed.
Lemma ar_run_ok : forall sr ops e, (0 < sr < U32)%N -> ar_inv e -> times_ok ops ->
  forall o, In o (outputs (snd (env_run (ar_step sr) e ops))) -> unit_ o.
Proof.
  intros sr ops. induction ops as [| op ops IH]; intros e Hr He Ht o Ho; [destruct Ho |].
  cbn [env_run snd] in Ho. unfold outputs in Ho. rewrite map_app in Ho.
  assert (Ht' : times_ok ops) by (intros x H; apply (Ht x); right; exact H).
  specialize (Ht op (or_introl eq_refl)).
  assert (Step : ar_inv (fst (ar_step sr e op)) /\ forall o, In o (map fst (snd (ar_step sr e op))) -> unit_ o).
  { destruct He as (R & T & S0). destruct op; cbn [ar_step fst snd].
    - split; [| intros ? []]. destruct (set_attack_same sr e seconds) as [Q1 Q2]. split; [apply set_attack_ok; assumption |].
      rewrite Q1, Q2. split; assumption.
    - split; [| intros ? []]. destruct (set_release_same sr e seconds) as [Q1 Q2]. split; [apply set_release_ok; assumption |].
      rewrite Q1, Q2. split; assumption.
    - split; [| intros ? []]. split; [exact R | split; assumption].
    - split; [| intros ? []]. split; [exact R | split; [exact T | discriminate]].
    - apply (samples_ok ar_inv ar_next ar_next_ok). split; [exact R | split; assumption]. }
  destruct Step as [A B]. apply in_app_or in Ho as [Ho | Ho]; [apply B; exact Ho |].
  apply (IH _ Hr A Ht' o Ho).
Qed.

(** * How long it takes *)
Lemma INR_S1 : forall k, INR (S k) - 1 = INR k. Proof. intros. rewrite S_INR. ring. Qed.
Section Time.
Variable next : env -> N -> env * fl * option N.
Hypothesis next_rel : forall e i, e_state e = Releasing -> next e i = asr_next e i.
Hypothesis next_stop : forall e i, e_state e = Stopped -> next e i = (e, fzero, None).

Lemma stopped_samples : forall fs e, e_state e = Stopped ->
  env_samples next fs e = (e, map (fun _ => (fzero, None)) fs).
Proof.
  induction fs as [| i fs IH]; intros e H; [reflexivity |]. cbn [env_samples]. rewrite (next_stop e i H). cbn [fst snd].
  rewrite (IH e H). reflexivity.
Qed.
(** Exactly one done report, after [k] samples; silence afterwards. *)
Definition ends_after (e : env) (k : nat) : Prop :=
  forall fs, let l := snd (env_samples next fs e) in
    done_frames l = only_kth k fs /\
    forall m o, (k <= m)%nat -> nth_error (outputs l) m = Some o -> o = fzero.
Lemma only_kth_none : forall k fs j, (k < j)%nat ->
  map (fun '(m, f) => if (m =? k)%nat then Some f else None) (combine (seq j (length fs)) fs) = map (fun _ : N => None) fs.
Proof.
  intros k. induction fs as [| f fs IH]; intros j H; [reflexivity |]. cbn [length seq combine map].
  rewrite (proj2 (Nat.eqb_neq j k)) by lia. f_equal. apply IH. lia.
Qed.
Lemma only_kth_shift : forall k (fs : list N) j,
  map (fun '(m, f) => if (m =? S k)%nat then Some f else None) (combine (seq (S j) (length fs)) fs) =
  map (fun '(m, f) => if (m =? k)%nat then Some f else None) (combine (seq j (length fs)) fs).
Proof. intros k. induction fs as [| f fs IH]; intros j; [reflexivity |]. cbn [length seq combine map Nat.eqb]. f_equal. apply IH. Qed.
Lemma ends_now : forall e, (forall i, exists o e', next e i = (e', o, Some i) /\ e_state e' = Stopped) -> ends_after e 1.
Proof.
  intros e H fs. destruct fs as [| i fs]; cbn [env_samples snd]; [split; [reflexivity | intros [| m] o _ E; discriminate] |].
  destruct (H i) as (o & e' & E & S0). rewrite E. cbn [fst snd]. rewrite (stopped_samples fs e' S0). cbn [snd].
  unfold done_frames, outputs, only_kth. cbn [map length seq combine Nat.eqb fst snd]. split.
  - f_equal. rewrite map_map. symmetry. apply only_kth_none. lia.
  - intros m x Hm E'. destruct m as [| m]; [lia |]. cbn [nth_error] in E'. rewrite map_map in E'.
    apply nth_error_In, in_map_iff in E' as (? & <- & _). reflexivity.
Qed.
Lemma ends_later : forall e k, (forall i, exists o e', next e i = (e', o, None) /\ ends_after e' k) -> (0 < k)%nat -> ends_after e (S k).
Proof using next.
  clear next_rel next_stop.
  intros e k H Hk fs. destruct fs as [| i fs]; cbn [env_samples snd]; [split; [reflexivity | intros [| m] o _ E; discriminate] |].
  destruct (H i) as (o & e' & E & S0). rewrite E. cbn [fst snd]. destruct (S0 fs) as [A B].
  unfold done_frames, outputs, only_kth in *. cbn [map length seq combine fst snd]. split.
  - rewrite (proj2 (Nat.eqb_neq 1 (S k))) by lia. f_equal. rewrite A. symmetry. apply only_kth_shift.
  - intros m x Hm E'. destruct m as [| m]; [lia |]. apply (B m x); [lia | exact E'].
Qed.

Lemma release_time : forall N0 e, e_state e = Releasing -> unit_ (e_t e) -> 0 < val (e_t e) -> nn (e_rrate e) -> fin (e_rrate e) ->
  eps < val (e_rrate e) -> val (e_t e) <= INR N0 * (val (e_rrate e) - eps) ->
  exists k, (0 < k)%nat /\ steps_for (val (e_t e)) (val (e_rrate e)) eps k /\ ends_after e k.
Proof.
  induction N0 as [| N0 IH]; intros e S0 Ht Pt Nr Fr Er Hb; [cbn in Hb; lra |].
  pose proof (eps_pos (prec := prec)) as Ep.
  destruct (fleb (fsub (e_t e) (e_rrate e)) fzero) eqn:E.
  - exists 1%nat. split; [lia |]. split.
    + unfold steps_for. cbn [INR].
      destruct (Rle_dec (val (e_t e) - val (e_rrate e)) eps) as [L | L]; [lra |]. exfalso.
      destruct (fsub_ok (e_t e) (e_rrate e)) as [A1 A2]; [apply Ht | exact Fr | |].
      { apply fits with 0%Z; [destruct I; lia |]. change (bpow radix2 0) with 1. destruct Ht as [_ Ht]. rewrite Rabs_pos_eq; lra. }
      apply fleb_true in E; [| exact A2 | reflexivity]. rewrite A1, val_fzero in E.
      destruct Ht as [_ Ht].
      pose proof (unit_error (prec := prec) (emax := emax) (val (e_t e) - val (e_rrate e)) ltac:(lra)) as U.
      apply Rabs_le_inv in U. lra.
    + apply ends_now. intros i. rewrite (next_rel e i S0). unfold asr_next. rewrite S0, E.
      eexists. eexists. split; [reflexivity | reflexivity].
  - destruct (fsub_unit _ _ Ht Nr) as [C | (_ & _ & F & V & P)]; [congruence |].
    set (e' := mk_env Releasing (fsub (e_t e) (e_rrate e)) (e_asec e) (e_arate e) (e_rsec e) (e_rrate e) (e_scale e)).
    assert (X : 0 <= val (e_t e) - val (e_rrate e) < 1).
    { destruct Ht as [_ Ht]. split; [| lra].
      destruct (Rle_dec 0 (val (e_t e) - val (e_rrate e))) as [L | L]; [exact L |]. exfalso.
      assert (rnd (val (e_t e) - val (e_rrate e)) <= 0) by (rewrite <- (rnd_0 (prec := prec) (emax := emax)); apply rnd_le; lra). lra. }
    pose proof (unit_error (prec := prec) (emax := emax) _ X) as U. apply Rabs_le_inv in U. rewrite <- V in U.
    destruct (IH e') as (k & K0 & K1 & K2); cbn [e' e_state e_t e_rrate]; try assumption; try reflexivity.
    { split; [exact F |]. destruct Ht as [_ Ht]. lra. }
    { lra. }
    { rewrite S_INR in Hb. lra. }
    exists (S k). split; [lia |]. split.
    + unfold steps_for in *. cbn [e' e_t e_rrate] in K1. rewrite INR_S1, S_INR. lra.
    + apply ends_later; [| exact K0]. intros i. rewrite (next_rel e i S0). unfold asr_next. rewrite S0, E.
      eexists. exists e'. split; [reflexivity | exact K2].
Qed.
Lemma release_time' : forall e, e_state e = Releasing -> unit_ (e_t e) -> 0 < val (e_t e) -> nn (e_rrate e) -> fin (e_rrate e) ->
  eps < val (e_rrate e) ->
  exists k, (0 < k)%nat /\ steps_for (val (e_t e)) (val (e_rrate e)) eps k /\ ends_after e k.
Proof.
  intros e S0 Ht Pt Nr Fr Er.
  assert (A : exists n, val (e_t e) <= INR n * (val (e_rrate e) - eps)).
  { destruct (archimed (val (e_t e) / (val (e_rrate e) - eps))) as [Q _].
    exists (Z.to_nat (up (val (e_t e) / (val (e_rrate e) - eps)))).
    assert (P : 0 < val (e_t e) / (val (e_rrate e) - eps)) by (apply Rdiv_lt_0_compat; lra).
    rewrite INR_IZR_INZ, Z2Nat.id by (apply le_IZR; lra).
    apply Rmult_le_reg_r with (/ (val (e_rrate e) - eps)); [apply Rinv_0_lt_compat; lra |].
    rewrite Rmult_assoc, Rinv_r by lra. rewrite Rmult_1_r. apply Rlt_le. exact Q. }
  destruct A as [n A]. apply (release_time n e); assumption.
Qed.
End Time.

Lemma asr_release_time : forall e : env, e_state e = Releasing -> unit_ (e_t e) -> 0 < val (e_t e) -> nn (e_rrate e) -> fin (e_rrate e) ->
  eps < val (e_rrate e) ->
  exists k, (0 < k)%nat /\ steps_for (val (e_t e)) (val (e_rrate e)) eps k /\ ends_after asr_next e k.
Proof.
  apply release_time'; [reflexivity |]. intros e i H. unfold asr_next. rewrite H. reflexivity.
Qed.
Lemma ar_release_time : forall e : env, e_state e = Releasing -> unit_ (e_t e) -> 0 < val (e_t e) -> nn (e_rrate e) -> fin (e_rrate e) ->
  eps < val (e_rrate e) ->
  exists k, (0 < k)%nat /\ steps_for (val (e_t e)) (val (e_rrate e)) eps k /\ ends_after ar_next e k.
Proof.
  apply release_time'.
  - intros e i H. unfold ar_next, asr_next. rewrite H. reflexivity.
  - intros e i H. unfold ar_next. rewrite H. reflexivity.
Qed.

(** The attack of the AR envelope *)
Definition ar_peak (e : env) : env := mk_env Releasing fone (e_asec e) (e_arate e) (e_rsec e) (e_rrate e) fone.
(** [k] samples that do not fall and do not report done lead to [e']. *)
Definition rises_to (e : env) (k : nat) (e' : env) : Prop :=
  forall fs, length fs = k -> exists l, env_samples ar_next fs e = (e', l) /\ done_frames l = map (fun _ => None) fs /\
    forall m x y, nth_error (outputs l) m = Some x -> nth_error (outputs l) (S m) = Some y -> val x <= val y.
(** A later end is an end that much later. *)
Definition carries (e : env) (k : nat) (e' : env) : Prop :=
  forall j, (0 < j)%nat -> ends_after ar_next e' j -> ends_after ar_next e (k + j).
Lemma carries_now : forall e e', (forall i, exists o, ar_next e i = (e', o, None)) -> carries e 1 e'.
Proof.
  intros e e' H j Hj E. apply ends_later; [| exact Hj]. intros i. destruct (H i) as [o Q]. exists o, e'. split; assumption.
Qed.
Lemma carries_later : forall e e1 k e', (forall i, exists o, ar_next e i = (e1, o, None)) -> carries e1 k e' -> carries e (S k) e'.
Proof.
  intros e e1 k e' H C j Hj E. change (S k + j)%nat with (S (k + j)). apply ends_later; [| lia].
  intros i. destruct (H i) as [o Q]. exists o, e1. split; [exact Q | apply C; assumption].
Qed.
Lemma attack_time : forall N0 e, e_state e = Attacking -> unit_ (e_t e) -> nn (e_arate e) -> fin (e_arate e) ->
  eps < val (e_arate e) -> 1 - val (e_t e) <= INR N0 * (val (e_arate e) - eps) ->
  exists k, (0 < k)%nat /\ ((INR k - 1) * (val (e_arate e) - eps) < 1 - val (e_t e) \/ k = 1%nat) /\
    1 - val (e_t e) <= INR k * (val (e_arate e) + eps) /\ rises_to e k (ar_peak e) /\ carries e k (ar_peak e).
Proof.
  induction N0 as [| N0 IH]; intros e S0 Ht Nr Fr Er Hb.
  - cbn in Hb. assert (T1 : val (e_t e) = 1) by (destruct Ht as [_ Ht]; lra).
    exists 1%nat. pose proof (eps_pos (prec := prec)) as Ep. split; [lia |]. split; [right; reflexivity |]. split; [cbn; lra |].
    assert (E : fleb fone (fadd (e_t e) (e_arate e)) = true).
    { destruct (fleb fone (fadd (e_t e) (e_arate e))) eqn:E; [reflexivity |]. exfalso.
      apply not_ge_one in E; [| apply fadd_nn; [apply fin_nn; [apply Ht | lra] | exact Nr]].
      destruct E as [F V].
      pose proof (Bplus_correct prec emax _ _ mode_NE (e_t e) (e_arate e) (proj1 Ht) Fr) as C.
      destruct (Rlt_bool_spec (Rabs (round radix2 (SpecFloat.fexp prec emax) (round_mode mode_NE) (B2R (e_t e) + B2R (e_arate e)))) (bpow radix2 emax)) as [L | L].
      - destruct C as (C1 & _). change (val (fadd (e_t e) (e_arate e)) = rnd (val (e_t e) + val (e_arate e))) in C1.
        assert (1 <= rnd (val (e_t e) + val (e_arate e))) by (rewrite <- (rnd_1 (prec := prec) (emax := emax)) at 1; apply rnd_le; lra). lra.
      - destruct C as [C1 _]. unfold fin, fadd in F. destruct (Bplus mode_NE (e_t e) (e_arate e)); try discriminate F; discriminate C1. }
    split.
    { intros fs Hl. destruct fs as [| i [| ? ?]]; try discriminate Hl. cbn [env_samples]. unfold ar_next. rewrite S0.
      rewrite E. cbn [fst snd]. eexists. split; [reflexivity |]. split; [reflexivity |].
      intros [| m] x y Hx Hy; cbn in *; try discriminate; destruct m; discriminate. }
    apply carries_now. intros i. unfold ar_next. rewrite S0, E. eexists. reflexivity.
  - pose proof (eps_pos (prec := prec)) as Ep.
    destruct (fleb fone (fadd (e_t e) (e_arate e))) eqn:E.
    + exists 1%nat. split; [lia |]. split; [right; reflexivity |]. split.
      * cbn [INR]. destruct (Rle_dec (1 - val (e_t e)) (1 * (val (e_arate e) + eps))) as [L | L]; [exact L |]. exfalso.
        destruct Ht as [Ft Ht].
        destruct (fadd_ok (e_t e) (e_arate e) Ft Fr) as [A1 A2].
        { apply fits with 0%Z; [destruct I; lia |]. change (bpow radix2 0) with 1. rewrite Rabs_pos_eq; lra. }
        apply fleb_true in E; [| apply fin_fone | exact A2]. rewrite A1, val_fone in E.
        pose proof (unit_error (prec := prec) (emax := emax) (val (e_t e) + val (e_arate e)) ltac:(lra)) as U.
        apply Rabs_le_inv in U. lra.
      * split; [| apply carries_now; intros i; unfold ar_next; rewrite S0, E; eexists; reflexivity].
        intros fs Hl. destruct fs as [| i [| ? ?]]; try discriminate Hl. cbn [env_samples]. unfold ar_next. rewrite S0, E. cbn [fst snd]. eexists. split; [reflexivity |]. split; [reflexivity |].
        intros [| m] x y Hx Hy; cbn in *; try discriminate; destruct m; discriminate.
    + destruct (not_ge_one _ ltac:(apply fadd_nn; [apply fin_nn; [apply Ht | apply (proj2 Ht)] | exact Nr]) E) as [F V].
      assert (A : val (fadd (e_t e) (e_arate e)) = rnd (val (e_t e) + val (e_arate e))).
      { pose proof (Bplus_correct prec emax _ _ mode_NE (e_t e) (e_arate e) (proj1 Ht) Fr) as C.
        destruct (Rlt_bool_spec (Rabs (round radix2 (SpecFloat.fexp prec emax) (round_mode mode_NE) (B2R (e_t e) + B2R (e_arate e)))) (bpow radix2 emax)) as [L | L].
        - destruct C as (C1 & _). exact C1.
        - destruct C as [C1 _]. unfold fin, fadd in F. destruct (Bplus mode_NE (e_t e) (e_arate e)); try discriminate F; discriminate C1. }
      assert (X : 0 <= val (e_t e) + val (e_arate e) < 1).
      { destruct Ht as [_ Ht]. split; [lra |].
        destruct (Rlt_dec (val (e_t e) + val (e_arate e)) 1) as [L | L]; [exact L |]. exfalso.
        assert (1 <= rnd (val (e_t e) + val (e_arate e))) by (rewrite <- (rnd_1 (prec := prec) (emax := emax)) at 1; apply rnd_le; lra). lra. }
      pose proof (unit_error (prec := prec) (emax := emax) _ X) as U. apply Rabs_le_inv in U. rewrite <- A in U.
      set (e' := mk_env Attacking (fadd (e_t e) (e_arate e)) (e_asec e) (e_arate e) (e_rsec e) (e_rrate e) (e_scale e)).
      destruct (IH e') as (k & K0 & K1 & K2 & K3 & K4); cbn [e' e_state e_t e_arate]; try assumption; try reflexivity.
      { split; [exact F | lra]. }
      { rewrite S_INR in Hb. lra. }
      cbn [e' e_t e_arate] in K1, K2.
      exists (S k). split; [lia |]. split.
      { left. rewrite INR_S1. destruct K1 as [K1 | ->]; [lra | cbn; lra]. }
      split; [rewrite S_INR; lra |].
      split; [| apply carries_later with e'; [intros i; unfold ar_next; rewrite S0, E; eexists; reflexivity | exact K4]].
      intros fs Hl. destruct fs as [| i fs]; [discriminate Hl |]. injection Hl as Hl. destruct (K3 fs Hl) as (l & L1 & L2 & L3).
      assert (Q : ar_next e i = (e', e_t e, None)) by (unfold ar_next; rewrite S0, E; reflexivity).
      cbn [env_samples]. rewrite Q. cbn [fst snd]. rewrite L1. cbn [fst snd].
      eexists. split; [reflexivity |]. split; [unfold done_frames in *; cbn [map snd]; rewrite L2; reflexivity |].
      intros m x y Hx Hy. destruct m as [| m].
      * cbn [outputs map fst nth_error] in Hx, Hy. injection Hx as <-.
        destruct fs as [| i' fs]; [cbn in Hl; lia |]. cbn [env_samples] in L1. injection L1 as _ <-. cbn [outputs map fst nth_error] in Hy.
        injection Hy as <-. unfold ar_next. cbn [e' e_state fst snd e_t]. lra.
      * apply (L3 m x y); [exact Hx | exact Hy].
Qed.
Lemma attack_time' : forall e : env, e_state e = Attacking -> unit_ (e_t e) -> nn (e_arate e) -> fin (e_arate e) -> eps < val (e_arate e) ->
  exists k, (0 < k)%nat /\ ((INR k - 1) * (val (e_arate e) - eps) < 1 - val (e_t e) \/ k = 1%nat) /\
    1 - val (e_t e) <= INR k * (val (e_arate e) + eps) /\ rises_to e k (ar_peak e) /\ carries e k (ar_peak e).
Proof.
  intros e S0 Ht Nr Fr Er.
  assert (A : exists n, 1 - val (e_t e) <= INR n * (val (e_arate e) - eps)).
  { destruct Ht as [_ Ht]. destruct (archimed ((1 - val (e_t e)) / (val (e_arate e) - eps))) as [Q _].
    exists (Z.to_nat (up ((1 - val (e_t e)) / (val (e_arate e) - eps)))).
    assert (P : 0 <= (1 - val (e_t e)) / (val (e_arate e) - eps)).
    { apply Rmult_le_pos; [lra |]. left. apply Rinv_0_lt_compat. lra. }
    rewrite INR_IZR_INZ, Z2Nat.id by (apply le_IZR; lra).
    apply Rmult_le_reg_r with (/ (val (e_arate e) - eps)); [apply Rinv_0_lt_compat; lra |].
    rewrite Rmult_assoc, Rinv_r by lra. rewrite Rmult_1_r. apply Rlt_le. exact Q. }
  destruct A as [n A]. apply (attack_time n e); assumption.
Qed.

(** * Blocks *)
Lemma samples_app : forall next fs gs (e : env), env_samples next (fs ++ gs) e =
  (fst (env_samples next gs (fst (env_samples next fs e))), snd (env_samples next fs e) ++ snd (env_samples next gs (fst (env_samples next fs e)))).
Proof.
  intros next. induction fs as [| f fs IH]; intros gs e; cbn [app env_samples fst snd]; [destruct (env_samples next gs e); reflexivity |].
  rewrite IH. reflexivity.
Qed.
Lemma asr_blocks : forall sr sizes e, env_run (asr_step sr) e (map EBlock sizes) = env_samples asr_next (frames_of sizes) e.
Proof.
  intros sr. induction sizes as [| n sizes IH]; intros e; [reflexivity |]. unfold frames_of in *. cbn [map concat env_run asr_step].
  rewrite samples_app, IH. reflexivity.
Qed.
Lemma ar_blocks : forall sr sizes e, env_run (ar_step sr) e (map EBlock sizes) = env_samples ar_next (frames_of sizes) e.
Proof.
  intros sr. induction sizes as [| n sizes IH]; intros e; [reflexivity |]. unfold frames_of in *. cbn [map concat env_run ar_step].
  rewrite samples_app, IH. reflexivity.
Qed.
(** A state that does not change and does not report done never does. *)
Lemma stuck_samples : forall next (e : env) o, (forall i, next e i = (e, o, None)) ->
  forall fs, env_samples next fs e = (e, map (fun _ => (o, None)) fs).
Proof. intros next e o H. induction fs as [| f fs IH]; [reflexivity |]. cbn [env_samples]. rewrite H. cbn [fst snd]. rewrite IH. reflexivity. Qed.
End Proofs.
