From Coq Require Import Reals Lra Lia.
From Flocq Require Import Core Relative BinarySingleNaN.
From Verif Require Import Base FloatBase FloatMore EnvModel EnvSpec EnvJumpSpec EnvProofs.
Local Open Scope R_scope.

Section Proofs.
Context {prec emax : Z} {I : ieee prec emax}.
Notation fl := (binary_float prec emax).
Notation env := (env prec emax).
Notation eop := (eop prec emax).
Notation rnd := (@rnd prec emax).
Notation eps := (@eps prec).

Lemma unit_error' : forall x, 0 <= x <= 1 -> Rabs (rnd x - x) <= eps.
Proof.
  intros x Hx. destruct (Req_dec x 1) as [-> | N].
  - rewrite rnd_1. rewrite Rminus_diag_eq, Rabs_R0 by reflexivity. left. apply eps_pos.
  - apply unit_error. lra.
Qed.
Lemma abs_le : forall x b, Rabs x <= b -> - b <= x <= b.
Proof. intros x b H. unfold Rabs in H. destruct (Rcase_abs x); lra. Qed.
Lemma eps_small : eps <= / 4.
Proof.
  unfold FloatMore.eps. replace (/ 4) with (bpow radix2 (-2)) by (cbn; lra). apply bpow_le. destruct I. unfold FLX.Prec_gt_0 in *. lia.
Qed.
Lemma big_error : forall y, 1 <= y -> y * (1 - 2 * eps) <= rnd y.
Proof.
  intros y H. assert (E : Rabs (rnd y - y) <= 2 * eps * y).
  { assert (P : (0 < prec)%Z) by (destruct I; unfold FLX.Prec_gt_0 in *; lia).
    pose proof (relative_error_N_FLT radix2 (SpecFloat.emin prec emax) prec P (fun x => negb (Z.even x)) y) as Q.
    assert (L : bpow radix2 (SpecFloat.emin prec emax + prec - 1) <= Rabs y).
    { rewrite Rabs_pos_eq by lra. apply Rle_trans with 1; [| exact H]. change 1 with (bpow radix2 0). apply bpow_le.
      unfold SpecFloat.emin. destruct I. lia. }
    specialize (Q L). rewrite (Rabs_pos_eq y) in Q by lra.
    eapply Rle_trans; [exact Q |]. right. unfold FloatMore.eps.
    replace (- prec + 1)%Z with ((- prec - 1) + 2)%Z by ring. rewrite bpow_plus. cbn. field. }
  apply abs_le in E. lra.
Qed.
(** The rate of a time that lasts at least [n] samples *)
Lemma rate_bound : forall n sr (s : fl), 1 <= n -> (0 < sr <= 2 ^ 24)%N -> lasts n sr s ->
  unit_ (rate_of s sr) /\ val (rate_of s sr) <= / n + 5 * eps.
Proof.
  intros n sr s Hn Hr [Fs Ls]. pose proof (eps_pos (prec := prec)) as Ep. pose proof eps_small as Es.
  destruct (fz_small (prec := prec) (emax := emax) (Z.of_N sr) ltac:(lia)) as [Vr Fr].
  assert (Rr : 1 <= IZR (Z.of_N sr)) by (apply IZR_le; lia).
  assert (Ps : 0 < val s).
  { destruct (Rlt_le_dec 0 (val s)) as [P | P]; [exact P |]. exfalso.
    assert (val s * IZR (Z.of_N sr) <= 0) by (apply (Rmult_le_compat_r (IZR (Z.of_N sr))) in P; [lra | lra]). lra. }
  unfold rate_of. rewrite feqb_ok by (exact Fs || reflexivity). rewrite val_fzero, Req_bool_false by lra.
  destruct (fmul_fin_nn s (fz (Z.of_N sr)) Fs Fr ltac:(lra) ltac:(lra)) as [N1 V1].
  assert (Hi : 0 < / n) by (apply Rinv_0_lt_compat; lra).
  destruct (nn_cases _ N1) as [[Fm Vm] | Em].
  - specialize (V1 Fm). rewrite Vr in V1. set (y := val s * IZR (Z.of_N sr)) in *.
    assert (G1 : 1 <= rnd y) by (rewrite <- (rnd_1 (prec := prec) (emax := emax)); apply rnd_le; lra).
    assert (G2 : y * (1 - 2 * eps) <= rnd y) by (apply big_error; lra).
    assert (Dv : 0 <= 1 / rnd y <= 1).
    { unfold Rdiv. rewrite Rmult_1_l. split; [left; apply Rinv_0_lt_compat; lra |]. rewrite <- Rinv_1. apply Rinv_le_contravar; lra. }
    destruct (fdiv_ok fone (fmul s (fz (Z.of_N sr))) fin_fone) as [A B].
    { rewrite V1. lra. }
    { rewrite val_fone, V1. apply fits with 0%Z; [destruct I; lia |]. change (bpow radix2 0) with 1. rewrite Rabs_pos_eq; lra. }
    rewrite val_fone, V1 in A.
    assert (U : 0 <= rnd (1 / rnd y) <= 1) by (apply rnd_between; [apply rnd_0 | apply rnd_1 | exact Dv]).
    split; [split; [exact B | rewrite A; exact U] |]. rewrite A.
    pose proof (abs_le _ _ (unit_error' _ Dv)) as E1.
    assert (E2 : 1 / rnd y <= / n + 4 * eps); [| lra].
    assert (E3 : / (y * (1 - 2 * eps)) <= / y + 4 * eps).
    { assert (Y1 : 0 < / y <= 1) by (split; [apply Rinv_0_lt_compat; lra | rewrite <- Rinv_1; apply Rinv_le_contravar; lra]).
      rewrite Rinv_mult. apply Rle_trans with (/ y * (1 + 4 * eps)).
      - apply Rmult_le_compat_l; [lra |]. apply Rmult_le_reg_r with (1 - 2 * eps); [lra |]. rewrite Rinv_l by lra. nra.
      - nra. }
    assert (E4 : / y <= / n) by (apply Rinv_le_contravar; lra).
    assert (E5 : 1 / rnd y <= / (y * (1 - 2 * eps))).
    { unfold Rdiv. rewrite Rmult_1_l. apply Rinv_le_contravar; [| exact G2]. apply Rmult_lt_0_compat; lra. }
    lra.
  - rewrite Em. assert (E : fdiv fone (B754_infinity false : fl) = B754_zero false).
    { pose proof (is_finite_strict_Bone prec emax _ _) as B. pose proof (Bsign_Bone prec emax _ _) as Sg.
      unfold fone, fdiv. destruct (Bone : fl) as [b | b | | b m e Bd]; try discriminate B. cbn in Sg. subst b. reflexivity. }
    rewrite E. split; [split; [reflexivity | cbn; lra] | cbn; lra].
Qed.

(** ** One sample *)
Lemma cube_error : forall t s : fl, unit_ t -> unit_ s ->
  unit_ (fmul (cube t) s) /\ Rabs (val (fmul (cube t) s) - val t * val t * val t * val s) <= 3 * eps.
Proof.
  intros t s Ht Hs. unfold cube.
  destruct (unit_mul t t Ht Ht) as [U1 V1]. destruct (unit_mul _ t U1 Ht) as [U2 V2]. destruct (unit_mul _ s U2 Hs) as [U3 V3].
  split; [exact U3 |]. destruct Ht as [Ft Vt]. destruct Hs as [Fs Vs]. destruct U1 as [_ R1]. destruct U2 as [_ R2].
  pose proof (abs_le _ _ (unit_error' (val t * val t) ltac:(nra))) as E1. rewrite <- V1 in E1.
  set (a := val (fmul t t)) in *.
  pose proof (abs_le _ _ (unit_error' (a * val t) ltac:(nra))) as E2. rewrite <- V2 in E2.
  set (b := val (fmul (fmul t t) t)) in *.
  pose proof (abs_le _ _ (unit_error' (b * val s) ltac:(nra))) as E3. rewrite <- V3 in E3.
  set (c := val (fmul (fmul (fmul t t) t) s)) in *. pose proof (eps_pos (prec := prec)) as Ep.
  set (T := val t) in *. set (S := val s) in *. clearbody a b c T S.
  assert (E4 : - eps <= a * T - T * T * T <= eps).
  { replace (a * T - T * T * T) with ((a - T * T) * T) by ring. split; nra. }
  assert (E5 : - (2 * eps) <= b * S - T * T * T * S <= 2 * eps).
  { replace (b * S - T * T * T * S) with ((b - T * T * T) * S) by ring. split; nra. }
  apply Rabs_le. lra.
Qed.
Lemma cube_diff : forall x y s, 0 <= y <= x -> x <= 1 -> 0 <= s <= 1 -> 0 <= x * x * x * s - y * y * y * s <= 3 * (x - y).
Proof.
  intros x y s Hy Hx Hs.
  assert (D : x * x * x * s - y * y * y * s = (x - y) * ((x * x + x * y + y * y) * s)) by ring. rewrite D.
  assert (Q : 0 <= (x * x + x * y + y * y) * s <= 3).
  { assert (0 <= x * x + x * y + y * y <= 3) by nra. split; nra. }
  split; [apply Rmult_le_pos; lra |]. rewrite (Rmult_comm 3). apply Rmult_le_compat_l; lra.
Qed.

(** The value the next sample will have *)
Definition level (e : env) : R :=
  match e_state e with
  | Stopped => 0
  | Attacking => val (e_t e)
  | Sustaining => 1
  | Releasing => val (fmul (cube (e_t e)) (e_scale e))
  end.
(** Gentle rates, and [t] where it should be *)
Definition calm (q : R) (e : env) : Prop :=
  unit_ (e_arate e) /\ val (e_arate e) <= q /\ unit_ (e_rrate e) /\ val (e_rrate e) <= q /\ unit_ (e_scale e) /\
  (e_state e <> Sustaining -> unit_ (e_t e)) /\ (e_state e = Stopped -> val (e_t e) = 0).
Definition gentle (q : R) (next : env -> N -> env * fl * option N) : Prop :=
  forall e i, calm q e -> let r := next e i in
    calm q (fst (fst r)) /\ fin (snd (fst r)) /\ val (snd (fst r)) = level e /\ Rabs (level (fst (fst r)) - level e) <= 3 * q + 9 * eps.

Lemma attack_add : forall t r : fl, unit_ t -> unit_ r -> fin (fadd t r) /\ val (fadd t r) = rnd (val t + val r) /\
  Rabs (rnd (val t + val r) - (val t + val r)) <= eps \/ 1 <= val t + val r.
Proof.
  intros t r [Ft Vt] [Fr Vr]. destruct (Rlt_le_dec (val t + val r) 1) as [L | L]; [left | right; exact L].
  destruct (fadd_ok t r Ft Fr) as [A B].
  { apply fits with 0%Z; [destruct I; lia |]. change (bpow radix2 0) with 1. rewrite Rabs_pos_eq; lra. }
  split; [exact B |]. split; [exact A |]. apply unit_error. lra.
Qed.
Lemma add_fin : forall t r : fl, unit_ t -> unit_ r -> fin (fadd t r) /\ val (fadd t r) = rnd (val t + val r).
Proof.
  intros t r [Ft Vt] [Fr Vr]. destruct (fadd_ok t r Ft Fr) as [A B]; [| split; assumption].
  apply fits with 1%Z; [destruct I; lia |]. change (bpow radix2 1) with 2. rewrite Rabs_pos_eq; lra.
Qed.
(** An attack step that does not reach 1, and one that does *)
Lemma attack_on : forall t r : fl, unit_ t -> unit_ r -> fleb fone (fadd t r) = false ->
  unit_ (fadd t r) /\ Rabs (val (fadd t r) - (val t + val r)) <= eps.
Proof.
  intros t r Ht Hr H. destruct (add_fin t r Ht Hr) as [F V].
  apply fleb_false in H; [| apply fin_fone | exact F]. rewrite val_fone in H.
  assert (L : val t + val r < 1).
  { destruct (Rlt_le_dec (val t + val r) 1) as [L | L]; [exact L |]. exfalso.
    apply (rnd_le (prec := prec) (emax := emax)) in L. rewrite rnd_1, <- V in L. lra. }
  destruct Ht as [_ Vt]. destruct Hr as [_ Vr]. split.
  - split; [exact F |]. split; [| lra]. rewrite V, <- (rnd_0 (prec := prec) (emax := emax)). apply rnd_le. lra.
  - rewrite V. apply unit_error. lra.
Qed.
Lemma attack_off : forall t r : fl, unit_ t -> unit_ r -> fleb fone (fadd t r) = true -> 1 - val t <= val r + eps.
Proof.
  intros t r Ht Hr H. destruct (add_fin t r Ht Hr) as [F V].
  apply fleb_true in H; [| apply fin_fone | exact F]. rewrite val_fone, V in H.
  destruct Ht as [_ Vt]. destruct Hr as [_ Vr].
  destruct (Rlt_le_dec (val t + val r) 1) as [L | L]; [| pose proof (eps_pos (prec := prec)); lra].
  pose proof (abs_le _ _ (unit_error (prec := prec) (emax := emax) (val t + val r) ltac:(lra))). lra.
Qed.
(** Steps of the release *)
Lemma release_on : forall t r : fl, unit_ t -> unit_ r -> fleb (fsub t r) fzero = false ->
  unit_ (fsub t r) /\ val (fsub t r) <= val t /\ Rabs (val (fsub t r) - (val t - val r)) <= eps.
Proof.
  intros t r Ht Hr H. pose proof (fin_nn r (proj1 Hr) (proj1 (proj2 Hr))) as Nr.
  destruct (fsub_unit t r Ht Nr) as [E | (_ & _ & F & V & B)]; [congruence |].
  destruct Ht as [_ Vt]. destruct Hr as [_ Vr]. split; [split; [exact F | lra] |]. split; [lra |].
  rewrite V. destruct (Rlt_le_dec (val t - val r) 0) as [L | L]; [| apply unit_error'; lra].
  exfalso. apply Rlt_le, (rnd_le (prec := prec) (emax := emax)) in L. rewrite rnd_0, <- V in L. lra.
Qed.
Lemma release_off : forall t r : fl, unit_ t -> unit_ r -> fleb (fsub t r) fzero = true -> val t <= val r + eps.
Proof.
  intros t r [Ft Vt] [Fr Vr] H. pose proof (eps_pos (prec := prec)) as Ep.
  destruct (Rlt_le_dec (val r) (val t)) as [L | L]; [| lra].
  destruct (fsub_ok t r Ft Fr) as [A B].
  { apply fits with 0%Z; [destruct I; lia |]. change (bpow radix2 0) with 1. rewrite Rabs_pos_eq; lra. }
  apply fleb_true in H; [| exact B | reflexivity]. rewrite val_fzero, A in H.
  pose proof (abs_le _ _ (unit_error' (val t - val r) ltac:(lra))). lra.
Qed.
Lemma small_cube : forall t s : fl, unit_ t -> unit_ s -> 0 <= val (fmul (cube t) s) <= val t + 3 * eps.
Proof.
  intros t s Ht Hs. destruct (cube_error t s Ht Hs) as [[_ U] E]. apply abs_le in E. destruct Ht as [_ Vt]. destruct Hs as [_ Vs].
  split; [lra |]. assert (val t * val t * val t * val s <= val t); [| lra].
  assert (0 <= val t * val t <= 1) by nra. assert (0 <= val t * val t * val t <= val t) by (split; nra). nra.
Qed.
Lemma one_cube : forall s : fl, unit_ s -> val (fmul (cube fone) s) = val s.
Proof.
  intros s Hs. unfold cube. destruct (unit_mul (fone : fl) fone unit_one unit_one) as [U1 V1].
  rewrite val_fone, Rmult_1_l, rnd_1 in V1. destruct (unit_mul _ (fone : fl) U1 unit_one) as [U2 V2].
  rewrite V1, val_fone, Rmult_1_l, rnd_1 in V2. destruct (unit_mul _ s U2 Hs) as [U3 V3].
  rewrite V2, Rmult_1_l, rnd_val in V3. exact V3.
Qed.

Lemma release_gentle : forall q (e : env) i, calm q e -> e_state e = Releasing -> 0 <= q -> let r := asr_next e i in
    calm q (fst (fst r)) /\ fin (snd (fst r)) /\ val (snd (fst r)) = level e /\ Rabs (level (fst (fst r)) - level e) <= 3 * q + 9 * eps.
Proof.
  intros q e i (A1 & A2 & R1 & R2 & Sc & T & Z) E Hq. pose proof (eps_pos (prec := prec)) as Ep.
  unfold asr_next, level. rewrite E. specialize (T ltac:(rewrite E; discriminate)).
  destruct (cube_error (e_t e) (e_scale e) T Sc) as [U Er].
  destruct (fleb (fsub (e_t e) (e_rrate e)) fzero) eqn:L; cbn [fst snd e_state e_t e_scale].
  - split; [repeat split; try apply A1; try apply R1; try apply Sc; try assumption; cbn; lra |].
    split; [apply U |]. split; [reflexivity |].
    pose proof (release_off _ _ T R1 L). pose proof (small_cube _ _ T Sc).
    rewrite Rabs_minus_sym, Rminus_0_r. rewrite Rabs_pos_eq; lra.
  - destruct (release_on _ _ T R1 L) as (U' & V' & D').
    split. { unfold calm. cbn [e_state e_t e_scale e_arate e_rrate]. repeat split; try apply A1; try apply R1; try apply Sc; try assumption; try apply U'; try discriminate. }
    split; [apply U |]. split; [reflexivity |].
    destruct (cube_error _ (e_scale e) U' Sc) as [U2 Er2].
    destruct T as [_ Vt]. destruct Sc as [_ Vs]. destruct U' as [_ Vu].
    pose proof (cube_diff (val (e_t e)) (val (fsub (e_t e) (e_rrate e))) (val (e_scale e)) (conj (proj1 Vu) V') (proj2 Vt) Vs).
    apply abs_le in D'. apply abs_le in Er. apply abs_le in Er2. apply Rabs_le. lra.
Qed.
Lemma asr_gentle : forall q, 0 <= q -> gentle q asr_next.
Proof.
  intros q Hq e i C. pose proof (eps_pos (prec := prec)) as Ep. destruct (e_state e) eqn:E.
  - unfold asr_next, level. rewrite E. cbn [fst snd]. rewrite E. split; [exact C |]. split; [reflexivity |]. split; [reflexivity |].
    rewrite Rminus_diag_eq, Rabs_R0 by reflexivity. lra.
  - destruct C as (A1 & A2 & R1 & R2 & Sc & T & Z). specialize (T ltac:(rewrite E; discriminate)).
    unfold asr_next, level. rewrite E. cbn [fst snd e_state e_t e_scale].
    destruct (fleb fone (fadd (e_t e) (e_arate e))) eqn:L.
    + split. { unfold calm. cbn [e_state e_t e_scale e_arate e_rrate]. repeat split; try apply A1; try apply R1; try apply Sc; try assumption; try discriminate; congruence. }
      split; [apply T |]. split; [reflexivity |]. pose proof (attack_off _ _ T A1 L). destruct T as [_ Vt]. rewrite Rabs_pos_eq; lra.
    + destruct (attack_on _ _ T A1 L) as [U D].
      split. { unfold calm. cbn [e_state e_t e_scale e_arate e_rrate]. repeat split; try apply A1; try apply R1; try apply Sc; try assumption; try apply U; try discriminate. }
      split; [apply T |]. split; [reflexivity |]. apply abs_le in D. destruct A1 as [_ V1]. apply Rabs_le. lra.
  - unfold asr_next, level. rewrite E. cbn [fst snd]. rewrite E. split; [exact C |]. split; [apply fin_fone |]. split; [apply val_fone |].
    rewrite Rminus_diag_eq, Rabs_R0 by reflexivity. lra.
  - apply release_gentle; assumption.
Qed.
Definition no_hold (e : env) : Prop := e_state e <> Sustaining.
Lemma ar_gentle : forall q e i, 0 <= q -> calm q e -> no_hold e -> let r := ar_next e i in
    (calm q (fst (fst r)) /\ no_hold (fst (fst r))) /\ fin (snd (fst r)) /\ val (snd (fst r)) = level e /\ Rabs (level (fst (fst r)) - level e) <= 3 * q + 9 * eps.
Proof.
  intros q e i Hq C Nh. pose proof (eps_pos (prec := prec)) as Ep. destruct (e_state e) eqn:E.
  - unfold ar_next, level. rewrite E. cbn [fst snd]. rewrite E. split; [split; assumption |]. split; [reflexivity |]. split; [reflexivity |].
    rewrite Rminus_diag_eq, Rabs_R0 by reflexivity. lra.
  - destruct C as (A1 & A2 & R1 & R2 & Sc & T & Z). specialize (T ltac:(rewrite E; discriminate)).
    unfold ar_next, level. rewrite E. cbn [fst snd].
    destruct (fleb fone (fadd (e_t e) (e_arate e))) eqn:L; cbn [fst snd e_state e_t e_scale].
    + split.
      { split; [| unfold no_hold; discriminate]. unfold calm. cbn [e_state e_t e_scale e_arate e_rrate].
        pose proof (unit_one (prec := prec) (emax := emax)) as U1.
        repeat split; try apply A1; try apply R1; try apply U1; try assumption; try discriminate. }
      split; [apply T |]. split; [reflexivity |]. pose proof (attack_off _ _ T A1 L). destruct T as [_ Vt].
      rewrite (one_cube fone unit_one), val_fone. rewrite Rabs_pos_eq; lra.
    + destruct (attack_on _ _ T A1 L) as [U D].
      split. { split; [| unfold no_hold; discriminate]. unfold calm. cbn [e_state e_t e_scale e_arate e_rrate]. repeat split; try apply A1; try apply R1; try apply Sc; try assumption; try apply U; try discriminate. }
      split; [apply T |]. split; [reflexivity |]. apply abs_le in D. destruct A1 as [_ V1]. apply Rabs_le. lra.
  - contradiction.
  - assert (Q : ar_next e i = asr_next e i) by (unfold ar_next, asr_next; rewrite E; reflexivity). rewrite Q.
    destruct (release_gentle q e i C E Hq) as [B1 B2]. split; [split; [exact B1 |] | exact B2].
    unfold asr_next. rewrite E. destruct (fleb _ _); unfold no_hold; discriminate.
Qed.

(** ** Histories *)
Section Hist.
Variable q : R.
Hypothesis Hq : 0 <= q.
Notation b := (3 * q + 9 * eps).
Variable next : env -> N -> env * fl * option N.
Variable inv : env -> Prop.
Hypothesis Hn : forall e i, calm q e -> inv e -> let r := next e i in
    (calm q (fst (fst r)) /\ inv (fst (fst r))) /\ fin (snd (fst r)) /\ val (snd (fst r)) = level e /\ Rabs (level (fst (fst r)) - level e) <= b.

Lemma samples_click : forall fs e x, calm q e -> inv e -> Rabs (level e - x) <= b ->
  let r := env_samples next fs e in
  (calm q (fst r) /\ inv (fst r)) /\ no_click b x (outputs (snd r)) /\
  exists y, Rabs (level (fst r) - y) <= b /\ forall l, no_click b y l -> no_click b x (outputs (snd r) ++ l).
Proof.
  induction fs as [| i fs IH]; intros e x C J H; cbn [env_samples fst snd outputs map no_click].
  - split; [split; assumption |]. split; [constructor |]. exists x. split; [exact H | intros l Hl; exact Hl].
  - destruct (Hn e i C J) as ([C1 J1] & F1 & V1 & D1).
    rewrite <- V1 in D1. destruct (IH (fst (fst (next e i))) (val (snd (fst (next e i)))) C1 J1 D1) as ([C2 J2] & K2 & y & Y1 & Y2).
    split; [split; assumption |]. split.
    + split; [exact F1 |]. split; [rewrite V1; exact H | exact K2].
    + exists y. split; [exact Y1 |]. intros l Hl. cbn [app no_click]. split; [exact F1 |]. split; [rewrite V1; exact H | apply Y2; exact Hl].
Qed.
Variable step : env -> eop -> env * list (fl * option N).
Hypothesis step_block : forall e n, step e (EBlock n) = env_samples next (block_frames n) e.
Variable ok : eop -> Prop.
(** Other operations leave the level where it is *)
Hypothesis step_other : forall e o, calm q e -> inv e -> ok o ->
  match o with EBlock _ => True | ERestart => e_state e = Stopped \/ e_state e = Attacking | _ => True end ->
  match o with
  | EBlock _ => True
  | _ => (calm q (fst (step e o)) /\ inv (fst (step e o))) /\ snd (step e o) = [] /\ level (fst (step e o)) = level e
  end.
Lemma run_click : forall ops e x, calm q e -> inv e -> Rabs (level e - x) <= b -> (forall o, In o ops -> ok o) ->
  quiet_restarts step e ops -> no_click b x (outputs (snd (env_run step e ops))).
Proof.
  induction ops as [| o ops IH]; intros e x C J H Ho Qr; [constructor |].
  destruct Qr as [Q1 Q2]. cbn [env_run snd]. unfold outputs. rewrite map_app. fold (outputs (snd (step e o))).
  assert (Ho' : forall o', In o' ops -> ok o') by (intros o' H'; apply Ho; right; exact H').
  assert (Cs : (exists n, o = EBlock n) \/ (calm q (fst (step e o)) /\ inv (fst (step e o))) /\ snd (step e o) = [] /\ level (fst (step e o)) = level e).
  { pose proof (step_other e o C J (Ho o (or_introl eq_refl))) as S0. destruct o.
    - right. apply S0; constructor.
    - right. apply S0; constructor.
    - right. apply S0; constructor.
    - right. apply S0. destruct (e_state e); try contradiction; auto.
    - left. exists n. reflexivity. }
  destruct Cs as [[n ->] | ([C1 J1] & N1 & L1)].
  - rewrite step_block in *. destruct (samples_click (block_frames n) e x C J H) as ([C1 J1] & _ & y & Y1 & Y2).
    apply Y2. apply IH; assumption.
  - rewrite N1. cbn [outputs map app]. apply IH; try assumption. rewrite L1. exact H.
Qed.
End Hist.

Lemma calm_rates : forall q (e : env) a ra r rr, calm q e -> unit_ ra -> val ra <= q -> unit_ rr -> val rr <= q ->
  calm q (mk_env (e_state e) (e_t e) a ra r rr (e_scale e)).
Proof.
  intros q e a ra r rr (A1 & A2 & R1 & R2 & Sc & T & Z) H1 H2 H3 H4. unfold calm. cbn [e_state e_t e_scale e_arate e_rrate].
  split; [exact H1 |]. split; [exact H2 |]. split; [exact H3 |]. split; [exact H4 |]. split; [exact Sc |]. split; assumption.
Qed.
Section Steps.
Variable n : R.
Variable sr : N.
Hypothesis Hn : 1 <= n.
Hypothesis Hr : (0 < sr <= 2 ^ 24)%N.
Notation q := (/ n + 5 * eps).
Lemma q_pos : 0 <= q.
Proof. pose proof (eps_pos (prec := prec)). assert (0 < / n) by (apply Rinv_0_lt_compat; lra). lra. Qed.
Lemma set_attack_calm : forall (e : env) s, calm q e -> lasts n sr s -> calm q (set_attack sr e s) /\ level (set_attack sr e s) = level e.
Proof.
  intros e s C H. unfold set_attack. destruct (negb _); [| split; [exact C | reflexivity]].
  destruct (rate_bound n sr s Hn Hr H) as [U V]. split; [| reflexivity].
  apply calm_rates; try assumption; apply C.
Qed.
Lemma set_release_calm : forall (e : env) s, calm q e -> lasts n sr s -> calm q (set_release sr e s) /\ level (set_release sr e s) = level e.
Proof.
  intros e s C H. unfold set_release. destruct (negb _); [| split; [exact C | reflexivity]].
  destruct (rate_bound n sr s Hn Hr H) as [U V]. split; [| reflexivity].
  apply calm_rates; try assumption; apply C.
Qed.
Lemma restart_calm : forall e : env, calm q e -> e_state e = Stopped \/ e_state e = Attacking ->
  calm q (t_restart e) /\ level (t_restart e) = level e.
Proof.
  intros e (A1 & A2 & R1 & R2 & Sc & T & Z) H. split.
  - unfold calm, t_restart. cbn [e_state e_t e_scale e_arate e_rrate].
    split; [exact A1 |]. split; [exact A2 |]. split; [exact R1 |]. split; [exact R2 |]. split; [exact Sc |].
    split; [| discriminate]. intros _. apply T. destruct H as [-> | ->]; discriminate.
  - unfold level, t_restart. cbn [e_state e_t]. destruct H as [E | E]; rewrite E; [apply Z; exact E | reflexivity].
Qed.
Lemma release_calm : forall e : env, calm q e -> calm q (t_release e) /\ level (t_release e) = level e.
Proof.
  intros e C. unfold t_release. destruct (e_state e) eqn:E; try (split; [exact C | reflexivity]);
    destruct C as (A1 & A2 & R1 & R2 & Sc & T & Z).
  - specialize (T ltac:(rewrite E; discriminate)). split.
    + unfold calm. cbn [e_state e_t e_scale e_arate e_rrate].
      split; [exact A1 |]. split; [exact A2 |]. split; [exact R1 |]. split; [exact R2 |]. split; [exact T |].
      split; [intros _; apply unit_one | discriminate].
    + unfold level. cbn [e_state e_t e_scale]. rewrite E. apply one_cube. exact T.
  - split.
    + unfold calm. cbn [e_state e_t e_scale e_arate e_rrate].
      split; [exact A1 |]. split; [exact A2 |]. split; [exact R1 |]. split; [exact R2 |]. split; [apply unit_one |].
      split; [intros _; apply unit_one | discriminate].
    + unfold level. cbn [e_state e_t e_scale]. rewrite E, one_cube by apply unit_one. apply val_fone.
Qed.
Lemma init_calm : forall a r : fl, lasts n sr a -> lasts n sr r -> calm q (env_init sr (env_new a r)).
Proof.
  intros a r Ha Hb. destruct (rate_bound n sr a Hn Hr Ha) as [U1 V1]. destruct (rate_bound n sr r Hn Hr Hb) as [U2 V2].
  unfold calm, env_init, env_new. cbn [e_state e_t e_scale e_arate e_rrate e_asec e_rsec].
  rewrite feqb_ok, Req_bool_true by (reflexivity || apply fin_fone).
  split; [exact U1 |]. split; [exact V1 |]. split; [exact U2 |]. split; [exact V2 |]. split; [apply unit_one |].
  split; [intros _; apply unit_zero | reflexivity].
Qed.
Lemma bound_eq : 3 * q + 9 * eps = 3 / n + 24 * eps. Proof. field. lra. Qed.

Lemma asr_click : forall (a r : fl) ops, lasts n sr a -> lasts n sr r -> all_last n sr ops ->
  let e := env_init sr (env_new a r) in quiet_restarts (asr_step sr) e ops ->
  no_click (3 / n + 24 * eps) 0 (outputs (snd (env_run (asr_step sr) e ops))).
Proof.
  intros a r ops Ha Hb Ho e Hq. rewrite <- bound_eq. pose proof q_pos as Q0.
  apply (run_click q asr_next (fun _ => True)) with (ok := fun o : eop => match o with EAttack s | ERelease s => lasts n sr s | _ => True end).
  - intros e0 i C _. destruct (asr_gentle q Q0 e0 i C) as (B1 & B2). split; [split; [exact B1 | constructor] | exact B2].
  - reflexivity.
  - intros e0 o C _ Ok Rs. destruct o; cbn [asr_step fst snd].
    + destruct (set_attack_calm e0 seconds C Ok). split; [split; [assumption | constructor] | split; [reflexivity | assumption]].
    + destruct (set_release_calm e0 seconds C Ok). split; [split; [assumption | constructor] | split; [reflexivity | assumption]].
    + destruct (release_calm e0 C). split; [split; [assumption | constructor] | split; [reflexivity | assumption]].
    + destruct (restart_calm e0 C Rs). split; [split; [assumption | constructor] | split; [reflexivity | assumption]].
    + constructor.
  - apply init_calm; assumption.
  - constructor.
  - unfold level, e, env_init, env_new. cbn [e_state]. rewrite Rminus_0_r, Rabs_R0. pose proof (eps_pos (prec := prec)). lra.
  - exact Ho.
  - exact Hq.
Qed.
Lemma ar_click : forall (a r : fl) ops, lasts n sr a -> lasts n sr r -> all_last n sr ops ->
  let e := env_init sr (env_new a r) in quiet_restarts (ar_step sr) e ops ->
  no_click (3 / n + 24 * eps) 0 (outputs (snd (env_run (ar_step sr) e ops))).
Proof.
  intros a r ops Ha Hb Ho e Hq. rewrite <- bound_eq. pose proof q_pos as Q0.
  apply (run_click q ar_next no_hold) with (ok := fun o : eop => match o with EAttack s | ERelease s => lasts n sr s | _ => True end).
  - intros e0 i C J. apply ar_gentle; assumption.
  - reflexivity.
  - intros e0 o C J Ok Rs. destruct o; cbn [ar_step fst snd].
    + destruct (set_attack_calm e0 seconds C Ok). split; [split; [assumption |] | split; [reflexivity | assumption]].
      unfold no_hold. destruct (set_attack_same sr e0 seconds) as [-> _]. exact J.
    + destruct (set_release_calm e0 seconds C Ok). split; [split; [assumption |] | split; [reflexivity | assumption]].
      unfold no_hold. destruct (set_release_same sr e0 seconds) as [-> _]. exact J.
    + split; [split; assumption | split; reflexivity].
    + destruct (restart_calm e0 C Rs). split; [split; [assumption | discriminate] | split; [reflexivity | assumption]].
    + constructor.
  - apply init_calm; assumption.
  - discriminate.
  - unfold level, e, env_init, env_new. cbn [e_state]. rewrite Rminus_0_r, Rabs_R0. pose proof (eps_pos (prec := prec)). lra.
  - exact Ho.
  - exact Hq.
Qed.
End Steps.

(** ** Shape *)
(** The [m]-th sample of an attack, as long as it cannot have reached 1 *)
Lemma attack_shape : forall next, (forall (e : env) i, e_state e = Attacking ->
    fst (fst (next e i)) = (let t' := fadd (e_t e) (e_arate e) in if fleb fone t' then fst (fst (next e i)) else
      mk_env Attacking t' (e_asec e) (e_arate e) (e_rsec e) (e_rrate e) (e_scale e)) /\ snd (fst (next e i)) = e_t e) ->
  forall m fs (e : env), e_state e = Attacking -> unit_ (e_t e) -> unit_ (e_arate e) -> (m < length fs)%nat ->
  val (e_t e) + INR m * (val (e_arate e) + eps) < 1 ->
  exists o, nth_error (outputs (snd (env_samples next fs e))) m = Some o /\ Rabs (val o - (val (e_t e) + INR m * val (e_arate e))) <= INR m * eps.
Proof.
  intros next Hn. induction m as [| m IH]; intros fs e E Ht Ha L B; (destruct fs as [| i fs]; [cbn in L; lia |]);
    cbn [env_samples snd outputs map nth_error]; destruct (Hn e i E) as [N1 N2].
  - exists (e_t e). rewrite N2. split; [reflexivity |]. cbn [INR]. rewrite Rmult_0_l, Rplus_0_r, Rminus_diag_eq, Rabs_R0 by reflexivity. lra.
  - pose proof (eps_pos (prec := prec)) as Ep. rewrite S_INR in *. pose proof (pos_INR m) as Pm.
    assert (F : fleb fone (fadd (e_t e) (e_arate e)) = false).
    { destruct (fleb fone (fadd (e_t e) (e_arate e))) eqn:F; [| reflexivity]. exfalso.
      pose proof (attack_off _ _ Ht Ha F). destruct Ha as [_ Va]. nra. }
    destruct (attack_on _ _ Ht Ha F) as [U D]. apply abs_le in D. cbv zeta in N1. rewrite F in N1. rewrite N1.
    cbn [length] in L.
    destruct (IH fs (mk_env Attacking (fadd (e_t e) (e_arate e)) (e_asec e) (e_arate e) (e_rsec e) (e_rrate e) (e_scale e)) eq_refl U Ha ltac:(lia)) as (o & O1 & O2).
    { cbn [e_t e_arate]. nra. }
    exists o. split; [exact O1 |]. cbn [e_t e_arate] in O2. apply abs_le in O2. apply Rabs_le. nra.
Qed.
Lemma release_shape : forall next, (forall (e : env) i, e_state e = Releasing -> next e i = asr_next e i) ->
  forall m fs (e : env), e_state e = Releasing -> unit_ (e_t e) -> unit_ (e_rrate e) -> unit_ (e_scale e) -> (m < length fs)%nat ->
  INR m * (val (e_rrate e) + eps) < val (e_t e) ->
  exists o t, nth_error (outputs (snd (env_samples next fs e))) m = Some o /\
    0 <= t <= 1 /\ Rabs (t - (val (e_t e) - INR m * val (e_rrate e))) <= INR m * eps /\ Rabs (val o - t * t * t * val (e_scale e)) <= 3 * eps.
Proof.
  intros next Hn. induction m as [| m IH]; intros fs e E Ht Ha Hs L B; (destruct fs as [| i fs]; [cbn in L; lia |]);
    cbn [env_samples snd outputs map nth_error]; rewrite (Hn e i E); unfold asr_next; rewrite E.
  - destruct (cube_error _ _ Ht Hs) as [U D]. exists (fmul (cube (e_t e)) (e_scale e)), (val (e_t e)).
    split; [destruct (fleb _ _); reflexivity |]. split; [apply Ht |]. split; [| exact D].
    cbn [INR]. rewrite !Rmult_0_l, Rminus_0_r, Rminus_diag_eq, Rabs_R0 by reflexivity. lra.
  - pose proof (eps_pos (prec := prec)) as Ep. rewrite S_INR in *. pose proof (pos_INR m) as Pm.
    assert (F : fleb (fsub (e_t e) (e_rrate e)) fzero = false).
    { destruct (fleb (fsub (e_t e) (e_rrate e)) fzero) eqn:F; [| reflexivity]. exfalso.
      pose proof (release_off _ _ Ht Ha F). destruct Ha as [_ Va]. nra. }
    destruct (release_on _ _ Ht Ha F) as (U & V & D). apply abs_le in D. rewrite F. cbn [fst snd].
    cbn [length] in L.
    destruct (IH fs (mk_env Releasing (fsub (e_t e) (e_rrate e)) (e_asec e) (e_arate e) (e_rsec e) (e_rrate e) (e_scale e)) eq_refl U Ha Hs ltac:(lia)) as (o & t & O1 & O2 & O3 & O4).
    { cbn [e_t e_rrate]. nra. }
    exists o, t. split; [exact O1 |]. split; [exact O2 |]. cbn [e_t e_rrate e_scale] in O3, O4. split; [| exact O4].
    apply abs_le in O3. apply Rabs_le. nra.
Qed.
End Proofs.
