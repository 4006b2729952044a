From Coq Require Import Reals Lra Lia.
From Flocq Require Import Core BinarySingleNaN.
From Verif Require Import Base FloatBase SineModel SineSpec SineProofs SineNearSpec.
From Verif Require PanProofs SinTabProofs.
Local Open Scope R_scope.

Section Near.
Context {prec emax : Z} {I : ieee prec emax}.
Notation fl := (binary_float prec emax).
Notation u := (bpow radix2 (- prec)).
Lemma err : forall k x, (0 <= k <= 10)%Z -> Rabs x < bpow radix2 k -> Rabs (@rnd prec emax x - x) <= bpow radix2 (k - 1) * u.
Proof.
  intros k x Hk Hx. rewrite <- bpow_plus. replace (k - 1 + - prec)%Z with (k - prec - 1)%Z by lia. apply SinTabProofs.rnd_error; [lia | exact Hx |].
  destruct I. unfold SpecFloat.emin. lia.
Qed.
Lemma u_small : 0 < u <= / 16777216.
Proof. split; [apply bpow_gt_0 |]. change (/ 16777216) with (bpow radix2 (-24)). apply bpow_le. destruct I. lia. Qed.
Lemma quotient_near : forall f sr : fl, fin f -> fin sr -> 1 <= val sr -> 0 <= val f <= val sr -> Rabs (val (fdiv f sr) - val f / val sr) <= u.
Proof.
  intros f sr Ff Fs S1 S2.
  assert (Q : 0 <= val f / val sr <= 1).
  { split; [apply Rmult_le_pos; [lra | left; apply Rinv_0_lt_compat; lra] |]. apply (Rmult_le_reg_r (val sr)); [lra |].
    unfold Rdiv. rewrite Rmult_assoc, Rinv_l by lra. lra. }
  assert (B : 0 <= @rnd prec emax (val f / val sr) <= 1) by (apply rnd_between; [apply rnd_0 | apply rnd_1 | exact Q]).
  destruct (fdiv_ok f sr Ff ltac:(lra)) as [A C].
  { apply below_top with 0%Z; [destruct I; lia |]. change (bpow radix2 0) with 1. rewrite Rabs_pos_eq; lra. }
  rewrite A. pose proof (err 1 (val f / val sr) ltac:(lia)) as E. change (bpow radix2 1) with 2 in E. change (bpow radix2 (1 - 1)) with 1 in E. rewrite Rmult_1_l in E.
  apply E. rewrite Rabs_pos_eq; lra.
Qed.
Variables (tau : fl) (fsin : fl -> fl) (d e : R).
Notation O := (FYops tau fsin).
Lemma output_near : sine_library d e tau fsin -> d <= / 4 -> forall (s : sine fl) t z n, state_ok s -> fin (y_offset s) -> Rabs (val (y_offset s)) <= 1 ->
  Rabs (val (y_phase s) - (t - IZR z)) <= n ->
  Rabs (val (snd (sine_sample O s)) - sin (2 * PI * (t + val (y_offset s)))) <= 2 * PI * (n + 2 * u) + 8 * u + 3 * d + e /\ fin (snd (sine_sample O s)).
Proof.
  intros (Ft & Vt & L) Hd s t z n [[P1 P2] _] Fo Vo N. pose proof u_small as U. pose proof PanProofs.pi_bounds as Pb. unfold sine_sample. cbn [snd FYops y_sin y_mul y_add y_tau].
  set (p := y_phase s) in *. set (o := y_offset s) in *. apply Rabs_le_inv in Vo. apply Rabs_le_inv in Vt.
  assert (T1 : Rabs (val p + val o) < bpow radix2 2) by (change (bpow radix2 2) with 4; apply Rabs_def1; lra).
  destruct (fadd_ok p o P1 Fo) as [A C]; [apply fits with 2%Z; [destruct I; lia | apply Rlt_le; exact T1] |].
  pose proof (err 2 _ ltac:(lia) T1) as E1. rewrite <- A in E1. change (bpow radix2 (2 - 1)) with 2 in E1. set (a := fadd p o) in *. apply Rabs_le_inv in E1.
  assert (Ba : -1.001 <= val a <= 2.001) by lra.
  assert (Bt : -13.5 <= val a * val tau <= 13.5).
  { assert (Tp : 0 <= val tau <= 6.6) by lra. split; [apply Rle_trans with (-1.001 * val tau); [lra | apply Rmult_le_compat_r; lra] | apply Rle_trans with (2.001 * val tau); [apply Rmult_le_compat_r; lra | lra]]. }
  assert (T2 : Rabs (val a * val tau) < bpow radix2 4) by (change (bpow radix2 4) with 16; apply Rabs_def1; lra).
  destruct (fmul_ok a tau C Ft) as [A2 C2]; [apply fits with 4%Z; [destruct I; lia | apply Rlt_le; exact T2] |].
  pose proof (err 4 _ ltac:(lia) T2) as E2. rewrite <- A2 in E2. change (bpow radix2 (4 - 1)) with 8 in E2. set (b := fmul a tau) in *. apply Rabs_le_inv in E2.
  destruct (L b C2) as [F E]; [apply Rabs_le; lra |]. split; [| exact F].
  assert (W : Rabs (val a * val tau - val a * (2 * PI)) <= 3 * d).
  { replace (val a * val tau - val a * (2 * PI)) with (val a * (val tau - 2 * PI)) by ring. rewrite Rabs_mult. apply Rmult_le_compat; [apply Rabs_pos | apply Rabs_pos | apply Rabs_le; lra | apply Rabs_le; lra]. }
  assert (X : Rabs (2 * PI * (val a - (t + val o - IZR z))) <= 2 * PI * (n + 2 * u)).
  { rewrite Rabs_mult, (Rabs_pos_eq (2 * PI)) by lra. apply Rmult_le_compat_l; [lra |]. apply Rabs_le_inv in N. apply Rabs_le. lra. }
  rewrite <- (sin_turns (t + val o) (- z)), opp_IZR. pose proof (proj1 (PanProofs.sin_cos_slow (val b) (2 * PI * (t + val o + - IZR z)))) as Q.
  assert (Y : Rabs (val b - 2 * PI * (t + val o + - IZR z)) <= 2 * PI * (n + 2 * u) + 8 * u + 3 * d).
  { replace (val b - 2 * PI * (t + val o + - IZR z)) with ((val b - val a * val tau) + (val a * val tau - val a * (2 * PI)) + 2 * PI * (val a - (t + val o - IZR z))) by ring.
    apply Rabs_le_inv in W, X. apply Rabs_le. lra. }
  pose proof (Rle_trans _ _ _ Q Y) as Q2. apply Rabs_le_inv in Q2, E. apply Rabs_le. lra.
Qed.
Lemma run_near : sine_library d e tau fsin -> d <= / 4 -> forall l (s : sine fl) per t n, Forall usual l -> state_ok s -> fin (y_offset s) -> Rabs (val (y_offset s)) <= 1 ->
  Rabs (val (y_inc s) - per) <= u -> (exists z, Rabs (val (y_phase s) - (t - IZR z)) <= INR n * (2 * u)) ->
  let out := snd (sine_run O s l) in let w := wanted per (val (y_offset s)) t (map exact_call l) in
  length out = length w /\ forall k y x, nth_error out k = Some y -> nth_error w k = Some x ->
    fin y /\ Rabs (val y - x) <= 2 * PI * (INR (n + k) * (2 * u) + 2 * u) + 8 * u + 3 * d + e.
Proof.
  intros Lib Hd. pose proof u_small as U. pose proof PI_RGT_0 as Pp.
  induction l as [| o l IH]; intros s per t n H K Fo Vo Di (z & Z); cbv zeta; [split; [reflexivity | intros [| k]; discriminate] |].
  inversion H as [| ? ? H1 H2]; subst. destruct o as [r | f r | o | |]; cbn [sine_run map exact_call wanted fst snd].
  - contradiction.
  - cbn [sine_step fst snd app]. destruct H1 as (Ff & Fr & R1 & Vf). apply (IH (sine_freq O f r s)); [exact H2 | | exact Fo | exact Vo | apply quotient_near; assumption | exists z; exact Z].
    split; [apply K | apply quotient_unit; assumption].
  - cbn [sine_step fst snd app]. destruct H1 as [F1 V1]. apply (IH (sine_offset o s)); [exact H2 | split; apply K | exact F1 | exact V1 | exact Di | exists z; exact Z].
  - cbn [sine_step fst snd app]. destruct (IH (sine_reset O s) per 0 0%nat H2) as [A B]; [split; [split; [reflexivity | cbn; lra] | apply K] | exact Fo | exact Vo | exact Di | |].
    { exists 0%Z. cbn. replace (0 - (0 - 0)) with 0 by ring. rewrite Rabs_R0. lra. }
    split; [exact A |]. intros k y x Y X. destruct (B k y x Y X) as [B1 B2]. split; [exact B1 |]. eapply Rle_trans; [exact B2 |].
    assert (M : INR (0 + k) <= INR (n + k)) by (apply le_INR; lia). apply Rplus_le_compat_r, Rplus_le_compat_r, Rplus_le_compat_r.
    apply Rmult_le_compat_l; [lra |]. apply Rplus_le_compat_r. apply Rmult_le_compat_r; lra.
  - cbn [sine_step fst snd]. destruct (sample_ok tau fsin s K) as (P & q & Q). destruct (output_near Lib Hd s t z (INR n * (2 * u)) K Fo Vo Z) as [B1 B2].
    destruct (IH (fst (sine_sample O s)) per (t + per) (S n) H2) as [A B].
    + split; [exact P | apply K].
    + exact Fo.
    + exact Vo.
    + exact Di.
    + exists (z + q)%Z. rewrite plus_IZR, S_INR. apply Rabs_le_inv in Di, Z, Q. apply Rabs_le. lra.
    + cbn [app length]. split; [f_equal; exact A |]. intros [| k] y x Y X; cbn [nth_error] in Y, X.
      * injection Y as <-. injection X as <-. rewrite Nat.add_0_r. split; [exact B2 | exact B1].
      * replace (n + S k)%nat with (S n + k)%nat by lia. apply (B k y x Y X).
Qed.
End Near.
