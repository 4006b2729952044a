(** C57, C58, C63: how far rounding takes the state variable filter from the exact one. *)
From Coq Require Import Reals Lra Psatz.
From Coquelicot Require Import Complex.
From Flocq Require Import Core BinarySingleNaN.
From Verif Require Import Base FloatBase SvfModel SvfSpec SvfProofs SvfFloatSpec SvfFloatProofs SvfFloatProps SvfRespSpec SvfRespProofs SvfErrSpec SvfErrProofs.
Local Open Scope R_scope.

(** A filter in any IEEE format whose settings have more damping than rounding error, given the samples [x], stays close to the
    exact filter given the numbers [y], for ever: apart from what the difference of the inputs carries over, the outputs differ by
    a multiple of one rounding error that depends on the settings only. *)
Theorem C57_rounding_partial : forall prec emax (I : ieee prec emax) pi tan sqrt powf s0 srf x y M del sr,
  let O := ieee_ops pi tan sqrt powf in
  let s := set_coeffs O s0 srf in
  let g := g_val O s0 srf in let k := k_val O s0 in
  let m0 := val (v_m0 s) in let m1 := val (v_m1 s) in let m2 := val (v_m2 s) in
  let start := Rabs (val (v_ic1 s)) + Rabs (val (v_ic2 s)) in
  sturdy O s0 srf -> fin (v_ic1 s) -> fin (v_ic2 s) ->
  (forall n, fin (x n) /\ Rabs (val (x n)) <= M) -> (forall n, Rabs (val (x n) - y n) <= del) ->
  ceiling g k m0 m1 m2 * (start + M + @tiny prec emax) <= bpow radix2 (emax - 1) ->
  forall n, Rabs (val (f_output O s x n) - output (exact_twin sr g k s) y n)
    <= closeness g k m0 m1 m2 * (@unit_roundoff prec * (start + M) + @tiny prec emax) + carried g k m0 m1 m2 * del.
Proof.
  intros prec emax I pi tan sqrt powf s0 srf x y M del sr O s g k m0 m1 m2 start H F1 F2 Hx Hy HK n.
  pose proof (sturdy_tuned pi tan sqrt powf s0 srf H) as T.
  assert (B : 0 < g /\ 0 < k /\ 1400 * @unit_roundoff prec <= damping g k).
  { unfold sturdy in H. cbv zeta in H. destruct (m_of _ _ _ _) as [[? ?] ?].
    destruct H as (_ & _ & Rg & Rk & _ & _ & _ & D). pose proof (bpow_gt_0 radix2 (-24)). unfold g, k, g_val, k_val. repeat split; lra. }
  destruct B as (Hg & Hk & Hd).
  exact (twin_close pi tan sqrt powf sr g k s x y M del Hg Hk Hd T F1 F2 Hx Hy HK n).
Qed.
Print Assumptions C57_rounding_partial.

(** So the gain of a constant signal and of the fastest alternating one are what the type promises, up to rounding: low, high and
    band pass, notch, peak and all pass. *)
Theorem C58_rounded : forall prec emax (I : ieee prec emax) pi tan sqrt powf s0 srf c,
  let O := ieee_ops pi tan sqrt powf in
  let s := set_coeffs O s0 srf in
  let g := g_val O s0 srf in let k := k_val O s0 in
  let m0 := val (v_m0 s) in let m1 := val (v_m1 s) in let m2 := val (v_m2 s) in
  let start := Rabs (val (v_ic1 s)) + Rabs (val (v_ic2 s)) in
  let bound := closeness g k m0 m1 m2 * (@unit_roundoff prec * (start + Rabs (val c)) + @tiny prec emax) in
  sturdy O s0 srf -> simple (v_ty s0) -> fin (v_ic1 s) -> fin (v_ic2 s) -> fin c ->
  ceiling g k m0 m1 m2 * (start + Rabs (val c) + @tiny prec emax) <= bpow radix2 (emax - 1) ->
  forall eps, 0 < eps -> exists N, forall n, (N <= n)%nat ->
    Rabs (val (f_output O s (fun _ => c) n) - dc_gain (v_ty s0) 1 * val c) <= bound + eps /\
    Rabs (val (f_output O s (fun n => if Nat.even n then c else fneg c) n) - top_gain (v_ty s0) 1 * alternating (val c) n) <= bound + eps.
Proof.
  intros prec emax I pi tan sqrt powf s0 srf c O s g k m0 m1 m2 start bound H Hs F1 F2 Fc HK eps He.
  assert (Rd : ready 1 (exact_twin 1 g k s)) by (apply twin_ready; [lra | exact H | exact Hs]).
  assert (Ty : v_ty (exact_twin 1 g k s) = v_ty s0) by (unfold s, set_coeffs; destruct (m_of _ _ _ _) as [[? ?] ?]; reflexivity).
  assert (Z : forall a b : R, a = b -> Rabs (a - b) <= 0) by (intros a b ->; rewrite Rminus_diag_eq by reflexivity; rewrite Rabs_R0; lra).
  assert (Dg : forall ty A, simple ty -> dc_gain ty A = dc_gain ty 1 /\ top_gain ty A = top_gain ty 1) by (intros [] A Ht; cbn in *; tauto).
  destruct (dc_cv 1 _ (val c) Rd eps He) as [N1 H1]. destruct (top_cv 1 _ (val c) Rd eps He) as [N2 H2]. rewrite Ty in H1, H2.
  rewrite (proj1 (Dg _ (linear_gain _) Hs)) in H1.
  exists (N1 + N2)%nat. intros n Hn. specialize (H1 n ltac:(lia)). specialize (H2 n ltac:(lia)). unfold R_dist in H1, H2. rewrite Rminus_0_r in H2.
  rewrite (proj2 (Dg _ (linear_gain _) Hs)) in H2. split.
  - pose proof (C57_rounding_partial prec emax I pi tan sqrt powf s0 srf (fun _ => c) (fun _ => val c) (Rabs (val c)) 0 1 H F1 F2
      (fun _ => conj Fc (Rle_refl _)) (fun _ => Z _ _ eq_refl) HK n) as E. fold O s g k m0 m1 m2 start in E. fold bound in E. rewrite Rmult_0_r, Rplus_0_r in E.
    match goal with |- Rabs (?p - ?q) <= _ => replace (p - q) with ((p - output (exact_twin 1 g k s) (fun _ => val c) n) + (output (exact_twin 1 g k s) (fun _ => val c) n - q)) by ring end.
    eapply Rle_trans; [apply Rabs_triang |]. lra.
  - pose proof (C57_rounding_partial prec emax I pi tan sqrt powf s0 srf (fun n => if Nat.even n then c else fneg c) (alternating (val c)) (Rabs (val c)) 0 1 H F1 F2) as E.
    fold O s g k m0 m1 m2 start in E. fold bound in E. rewrite Rmult_0_r, Rplus_0_r in E.
    assert (E' : Rabs (val (f_output O s (fun n => if Nat.even n then c else fneg c) n) - output (exact_twin 1 g k s) (alternating (val c)) n) <= bound).
    { apply E; [| | exact HK].
      - intros i. destruct (Nat.even i); [split; [exact Fc | apply Rle_refl] |]. split; [apply fin_fneg; exact Fc |]. rewrite val_fneg, Rabs_Ropp. apply Rle_refl.
      - intros i. apply Z. unfold alternating. destruct (Nat.even i); [reflexivity | apply val_fneg]. }
    match goal with |- Rabs (?p - ?q) <= _ => replace (p - q) with ((p - output (exact_twin 1 g k s) (alternating (val c)) n) + (output (exact_twin 1 g k s) (alternating (val c)) n - q)) by ring end.
    eapply Rle_trans; [apply Rabs_triang |]. lra.
Qed.
Print Assumptions C58_rounded.

(** And samples that follow a sinusoid to within [del] come out with the complex gain of the analog filter of the same type, whose
    cutoff and resonance are the ones that belong to the computed [g] and [k]. *)
Theorem C63_float_partial : forall prec emax (I : ieee prec emax) pi tan sqrt powf s0 srf x M del sr f a phi,
  let O := ieee_ops pi tan sqrt powf in
  let s := set_coeffs O s0 srf in
  let g := g_val O s0 srf in let k := k_val O s0 in
  let m0 := val (v_m0 s) in let m1 := val (v_m1 s) in let m2 := val (v_m2 s) in
  let start := Rabs (val (v_ic1 s)) + Rabs (val (v_ic2 s)) in
  let bound := closeness g k m0 m1 m2 * (@unit_roundoff prec * (start + M) + @tiny prec emax) + carried g k m0 m1 m2 * del in
  sturdy O s0 srf -> simple (v_ty s0) -> fin (v_ic1 s) -> fin (v_ic2 s) -> 0 < f < sr / 2 ->
  (forall n, fin (x n) /\ Rabs (val (x n)) <= M) -> (forall n, Rabs (val (x n) - sinusoid sr f a phi n) <= del) ->
  ceiling g k m0 m1 m2 * (start + M + @tiny prec emax) <= bpow radix2 (emax - 1) ->
  forall eps, 0 < eps -> exists N, forall n, (N <= n)%nat ->
    Rabs (val (f_output O s x n) - filtered (wanted (v_ty s0) sr (sr * atan g / PI) (/ k) 0 f) sr f a phi n) <= bound + eps.
Proof.
  intros prec emax I pi tan sqrt powf s0 srf x M del sr f a phi O s g k m0 m1 m2 start bound H Hs F1 F2 Hf Hx Hy HK eps He.
  assert (Rd : ready sr (exact_twin sr g k s)) by (apply twin_ready; [lra | exact H | exact Hs]).
  assert (Ty : v_ty (exact_twin sr g k s) = v_ty s0) by (unfold s, set_coeffs; destruct (m_of _ _ _ _) as [[? ?] ?]; reflexivity).
  assert (NB : v_ty (exact_twin sr g k s) <> Bell) by (rewrite Ty; intros E; rewrite E in Hs; exact Hs).
  destruct (responds_wanted sr _ f Rd Hf NB a phi eps He) as [N HN]. exists N. intros n Hn. specialize (HN n Hn).
  unfold R_dist in HN. rewrite Rminus_0_r, Ty in HN. unfold exact_twin in HN at 2 3 4. cbn [v_cutoff v_q v_gain] in HN.
  pose proof (C57_rounding_partial prec emax I pi tan sqrt powf s0 srf x (sinusoid sr f a phi) M del sr H F1 F2 Hx Hy HK n) as E.
  fold O s g k m0 m1 m2 start in E. fold bound in E.
  match goal with |- Rabs (?p - ?q) <= _ => replace (p - q) with ((p - output (exact_twin sr g k s) (sinusoid sr f a phi) n) + (output (exact_twin sr g k s) (sinusoid sr f a phi) n - q)) by ring end.
  eapply Rle_trans; [apply Rabs_triang |]. lra.
Qed.
Print Assumptions C63_float_partial.

(** A double precision low pass at a quarter of the sample rate (the tangent is one), at rest, with input up to one: the output is
    exact to seven digits. *)
Definition f64_svf_ops : float_ops (binary_float 53 1024) := ieee_ops (fze 7074237752028440 (-51)) (fun _ => fone) (fun x => x) (fun _ y => y).
Definition quarter_low64 : svf (binary_float 53 1024) := svf_new f64_svf_ops Low (fz 12000) fone fzero.
Example one_over_one64 : fin (fdiv (fone : binary_float 53 1024) fone) /\ val (fdiv (fone : binary_float 53 1024) fone) = 1.
Proof.
  assert (E : rnd (prec := 53) (emax := 1024) (val (fone : binary_float 53 1024) / val (fone : binary_float 53 1024)) = 1).
  { rewrite val_fone. unfold Rdiv. rewrite Rinv_1, Rmult_1_r. apply rnd_1. }
  destruct (fdiv_ok (fone : binary_float 53 1024) fone fin_fone) as [V F].
  - rewrite val_fone. lra.
  - rewrite E. apply below_top with 1%Z; [lia |]. rewrite Rabs_R1. change 1 with (bpow radix2 0). apply bpow_le. lia.
  - split; [exact F |]. rewrite V. exact E.
Qed.
Example quarter64_sturdy : sturdy f64_svf_ops quarter_low64 (fz 48000) /\ simple (v_ty quarter_low64).
Proof.
  split; [| exact Logic.I].
  destruct one_over_one64 as [F V]. unfold sturdy, quarter_low64, svf_new. cbn [v_ty v_cutoff v_q v_gain m_of g_of k_of f64_svf_ops ieee_ops o_tan o_div o_one o_zero].
  assert (B1 : bpow radix2 (-24) <= 1) by (change 1 with (bpow radix2 0); apply bpow_le; lia).
  assert (B2 : 1 <= bpow radix2 24) by (change 1 with (bpow radix2 0); apply bpow_le; lia).
  rewrite V, val_fone. repeat split; try assumption; try apply fin_fone; try reflexivity.
  apply C57_double_damping; [split; [change 1 with (bpow radix2 0); apply bpow_le; lia | lra] | lra].
Qed.
Example quarter64_close : let s := set_coeffs f64_svf_ops quarter_low64 (fz 48000) in
  let g := g_val f64_svf_ops quarter_low64 (fz 48000) in let k := k_val f64_svf_ops quarter_low64 in
  let m0 := val (v_m0 s) in let m1 := val (v_m1 s) in let m2 := val (v_m2 s) in
  let start := Rabs (val (v_ic1 s)) + Rabs (val (v_ic2 s)) in
  ceiling g k m0 m1 m2 * (start + 1 + @tiny 53 1024) <= bpow radix2 (1024 - 1)
  /\ closeness g k m0 m1 m2 * (@unit_roundoff 53 * (start + 1) + @tiny 53 1024) <= / 10000000.
Proof.
  destruct one_over_one64 as [F V]. cbv zeta.
  unfold g_val, k_val, quarter_low64, svf_new, set_coeffs. cbn [v_ty v_cutoff v_q v_gain m_of g_of k_of f64_svf_ops ieee_ops o_tan o_div o_one o_zero v_m0 v_m1 v_m2 v_ic1 v_ic2].
  unfold ceiling, closeness. rewrite V, val_fone, val_fzero, Rabs_R0, Rabs_R1.
  assert (T0 : 0 < @tiny 53 1024) by apply bpow_gt_0.
  assert (T : @tiny 53 1024 <= bpow radix2 (-60)) by (unfold tiny; apply bpow_le; lia).
  assert (T60 : bpow radix2 (-60) = / 1152921504606846976) by (cbn; lra).
  assert (U : @unit_roundoff 53 = / 9007199254740992) by (cbn; lra).
  split.
  - assert (S0 : 0 <= swing 1 1 <= 100000).
    { unfold swing, damping. split; [apply sqrt_pos |]. rewrite <- (sqrt_square 100000) by lra. apply sqrt_le_1_alt. lra. }
    apply Rle_trans with (40 * 100000 * 2 * 2); [apply Rmult_le_compat; lra |].
    apply Rle_trans with (bpow radix2 60); [cbn; lra | apply bpow_le; lia].
  - assert (D : damping 1 1 = / 190) by (unfold damping; lra).
    assert (S0 : 0 <= loudness 1 1 <= 360).
    { unfold loudness. rewrite D. split; [apply sqrt_pos |]. rewrite <- (sqrt_square 360) by lra. apply sqrt_le_1_alt. lra. }
    rewrite D, U. unfold Rdiv. rewrite Rinv_inv.
    apply Rle_trans with (2500 * (360 * 190) * 2 * (/ 9007199254740992 + / 1152921504606846976)); [apply Rmult_le_compat; lra | lra].
Qed.
