From Coq Require Import Reals Lra.
From Flocq Require Import Core BinarySingleNaN.
From Verif Require Import Base FloatBase FloatMore SegProofs NoiseModel NoiseSpec.
Local Open Scope R_scope.

Section Proofs.
Context {prec emax : Z} {I : ieee prec emax}.
Notation fl := (binary_float prec emax).
Notation rnd := (@rnd prec emax).

(** * Grids *)
Lemma rnd_grid : forall z e, (Z.abs z <= 2 ^ prec)%Z -> (-100 <= e)%Z -> rnd (IZR z * bpow radix2 e) = IZR z * bpow radix2 e.
Proof.
  intros z e Hz He. apply rnd_format. pose proof (ieee_prec (prec := prec) (emax := emax)). pose proof (ieee_emax (prec := prec) (emax := emax)).
  destruct (Z.eq_dec (Z.abs z) (2 ^ prec)) as [E | N].
  - assert (Q : generic_format radix2 (SpecFloat.fexp prec emax) (bpow radix2 (prec + e))) by (apply bpow_format; lia).
    assert (B : bpow radix2 (prec + e) = IZR (2 ^ prec) * bpow radix2 e).
    { rewrite bpow_plus. f_equal. rewrite <- (IZR_Zpower radix2 prec) by lia. reflexivity. }
    destruct (Z.abs_eq_or_opp z) as [K | K]; rewrite K in E.
    + rewrite E, <- B. exact Q.
    + replace z with (- 2 ^ prec)%Z by lia. rewrite opp_IZR, Ropp_mult_distr_l_reverse, <- B. apply generic_format_opp. exact Q.
  - replace (SpecFloat.fexp prec emax) with (FLT_exp (SpecFloat.emin prec emax) prec) by reflexivity.
    apply generic_format_FLT. exists (Float radix2 z e); [reflexivity | cbn; lia | cbn]. unfold SpecFloat.emin. lia.
Qed.
Lemma grid_size : forall z e k, (Z.abs z <= 2 ^ k)%Z -> (0 <= k)%Z -> Rabs (IZR z * bpow radix2 e) <= bpow radix2 (k + e).
Proof.
  intros z e k H Hk. rewrite Rabs_mult, (Rabs_pos_eq (bpow _ _)) by apply bpow_ge_0. rewrite bpow_plus, <- (IZR_Zpower radix2 k) by exact Hk.
  apply Rmult_le_compat_r; [apply bpow_ge_0 |]. rewrite <- abs_IZR. apply IZR_le. exact H.
Qed.
Lemma prec_pow : (2 ^ 24 <= 2 ^ prec)%Z.
Proof. pose proof (ieee_prec (prec := prec) (emax := emax)). apply Z.pow_le_mono_r; lia. Qed.
Lemma grid_add : forall e a b x y, on_grid e x a -> on_grid e y b -> (-100 <= e <= 0)%Z -> (Z.abs (a + b) <= 2 ^ prec)%Z -> on_grid e (fadd x y) (a + b).
Proof.
  intros e a b x y [Fx Vx] [Fy Vy] He H. pose proof (ieee_prec (prec := prec) (emax := emax)). pose proof (ieee_lt (prec := prec) (emax := emax)).
  assert (E : val x + val y = IZR (a + b) * bpow radix2 e) by (rewrite Vx, Vy, plus_IZR; ring).
  destruct (fadd_ok x y Fx Fy) as [A B].
  - rewrite E, rnd_grid by (assumption || lia). apply below_top with (prec + e)%Z; [lia |]. apply grid_size; [exact H | lia].
  - split; [exact B |]. rewrite A, E. apply rnd_grid; [exact H | lia].
Qed.
Lemma grid_sub : forall e a b x y, on_grid e x a -> on_grid e y b -> (-100 <= e <= 0)%Z -> (Z.abs (a - b) <= 2 ^ prec)%Z -> on_grid e (fsub x y) (a - b).
Proof.
  intros e a b x y [Fx Vx] [Fy Vy] He H. pose proof (ieee_prec (prec := prec) (emax := emax)). pose proof (ieee_lt (prec := prec) (emax := emax)).
  assert (E : val x - val y = IZR (a - b) * bpow radix2 e) by (rewrite Vx, Vy, minus_IZR; ring).
  destruct (fsub_ok x y Fx Fy) as [A B].
  - rewrite E, rnd_grid by (assumption || lia). apply below_top with (prec + e)%Z; [lia |]. apply grid_size; [exact H | lia].
  - split; [exact B |]. rewrite A, E. apply rnd_grid; [exact H | lia].
Qed.
Lemma grid_zero : forall e, on_grid e (fzero : fl) 0.
Proof. intros. split; [reflexivity |]. rewrite Rmult_0_l. reflexivity. Qed.
Lemma white_ok : forall r : fl, rand01 r -> white (white_of r).
Proof.
  intros r (z & [Fr Vr] & Hz). pose proof (ieee_emax (prec := prec) (emax := emax)). pose proof prec_pow. exists (z - 2 ^ 23)%Z. split; [| lia]. unfold white_of.
  destruct (fz_small (prec := prec) (emax := emax) 2) as [V2 F2]; [lia |].
  assert (E : val r * val (fz 2 : fl) = IZR z * bpow radix2 (-23)).
  { rewrite Vr, V2. change (-23)%Z with (1 + -24)%Z. rewrite bpow_plus. change (bpow radix2 1) with 2. ring. }
  assert (M : on_grid (-23) (fmul r (fz 2)) z).
  { destruct (fmul_ok r (fz 2) Fr F2) as [A B].
    - rewrite E. rewrite rnd_grid by lia. apply below_top with (24 + -23)%Z; [lia |]. apply grid_size; lia.
    - split; [exact B |]. rewrite A, E. apply rnd_grid; lia. }
  apply grid_sub; [exact M | | lia | lia]. split; [apply fin_fone |]. rewrite val_fone. change (IZR (2 ^ 23)) with (bpow radix2 23).
  rewrite <- bpow_plus. reflexivity.
Qed.

(** * Pink noise: the rows *)
Definition pink_ok (s : pink prec emax) : Prop := length (p_ws s) = octaves /\ (1 <= p_cnt s <= 256)%N /\ p_mask s = 256%N.
Lemma ptz_pow : forall p, (2 ^ N.of_nat (ptz p) <= N.pos p)%N.
Proof.
  induction p as [q IH | q IH |]; cbn [ptz]; [cbn; lia | | cbn; lia]. rewrite Nat2N.inj_succ, N.pow_succ_r'. lia.
Qed.
Lemma index_ok : forall s, pink_ok s -> exists i, noise_index s = Some i /\ (i < octaves)%nat.
Proof.
  intros s (_ & H & M). unfold noise_index. destruct (p_cnt s) as [| p] eqn:E; [lia |]. rewrite M. replace (N.pos p <=? 256)%N with true by (symmetry; apply N.leb_le; lia).
  exists (ptz p). split; [reflexivity |]. pose proof (ptz_pow p) as P. unfold octaves.
  destruct (Nat.lt_ge_cases (ptz p) 9) as [L | L]; [exact L |]. exfalso.
  assert (2 ^ 9 <= 2 ^ N.of_nat (ptz p))%N by (apply N.pow_le_mono_r; lia). change (2 ^ 9)%N with 512%N in H0. lia.
Qed.
Lemma incr_ok : forall s, pink_ok s -> exists c, increment s = Some c /\ (1 <= c <= 256)%N.
Proof.
  intros s (_ & H & M). unfold increment. rewrite M. replace (0 <? p_cnt s)%N with true by (symmetry; apply N.ltb_lt; lia).
  replace (p_cnt s <=? 256)%N with true by (symmetry; apply N.leb_le; lia). cbn [andb]. eexists. split; [reflexivity |].
  change (256 - 1)%N with (N.ones 8). rewrite N.land_ones. pose proof (N.mod_upper_bound (p_cnt s) (2 ^ 8) ltac:(lia)). change (2 ^ 8)%N with 256%N in *. lia.
Qed.
(** A step replaces row [i] *)
Lemma pink_step_ok : forall s w1 w2, pink_ok s -> exists i old ws c,
  (i < octaves)%nat /\ nth_error (p_ws s) i = Some old /\ set_nth (p_ws s) i w1 = Some ws /\
  let p := fadd (fsub (fadd (fsub (p_sum s) old) w1) (p_on s)) w2 in
  pink_step s w1 w2 = Some (mk_pink ws w2 c (p_mask s) p, fdiv p (fadd (fz (Z.of_nat octaves)) fone)) /\ pink_ok (mk_pink ws w2 c (p_mask s) p).
Proof.
  intros s w1 w2 H. destruct (index_ok s H) as (i & E & Hi). destruct (incr_ok s H) as (c & Ec & Hc). destruct H as (H1 & H2 & H3).
  destruct (nth_error (p_ws s) i) as [old |] eqn:En; [| apply nth_error_None in En; lia].
  destruct (set_nth_some (p_ws s) i w1 ltac:(lia)) as [ws Es].
  exists i, old, ws, c. split; [exact Hi |]. split; [exact En |]. split; [exact Es |]. cbv zeta.
  unfold pink_step. rewrite E. cbn [bind]. replace (i <? octaves)%nat with true by (symmetry; apply Nat.ltb_lt; exact Hi). cbn [negb].
  rewrite En. cbn [bind]. rewrite Es. cbn [bind]. rewrite Ec. cbn [bind]. split; [reflexivity |].
  split; [cbn [p_ws]; rewrite (set_nth_length _ _ _ _ Es); exact H1 |]. split; [exact Hc | exact H3].
Qed.
Lemma pink_new_ok : pink_ok pink_new.
Proof. split; [reflexivity |]. split; [cbn; lia | reflexivity]. Qed.
Lemma pink_run_ok : forall ws s, pink_ok s -> exists s' l, pink_run s ws = Some (s', l) /\ pink_ok s' /\ length l = length ws.
Proof.
  induction ws as [| [w1 w2] ws IH]; intros s H; [exists s, []; repeat split; try reflexivity; apply H |].
  destruct (pink_step_ok s w1 w2 H) as (i & old & ws' & c & _ & _ & _ & E & H'). cbn [pink_run fst snd]. rewrite E. cbn [bind fst snd].
  destruct (IH _ H') as (s' & l & E2 & H2 & L). rewrite E2. cbn [bind fst snd]. exists s', (fdiv (fadd (fsub (fadd (fsub (p_sum s) old) w1) (p_on s)) w2) (fadd (fz (Z.of_nat octaves)) fone) :: l).
  split; [reflexivity |]. split; [exact H2 | cbn [length]; lia].
Qed.

(** * Brown noise *)
Lemma clamp_ok : forall x : fl, fin x -> between (-1) 1 (clamp x (fneg fone) fone).
Proof.
  intros x Fx. unfold clamp.
  assert (Vn : val (fneg (fone : fl)) = -1) by (rewrite val_fneg, val_fone; reflexivity).
  assert (Fn : fin (fneg (fone : fl))) by (apply fin_fneg; apply fin_fone).
  assert (V1 : val (fone : fl) = 1) by apply val_fone. assert (F1 : fin (fone : fl)) by apply fin_fone.
  destruct (fltb x (fneg fone)) eqn:C.
  - destruct (fltb fone (fneg fone)) eqn:D; [apply fltb_true in D; try assumption; lra |]. split; [exact Fn | lra].
  - apply fltb_false in C; try assumption. destruct (fltb fone x) eqn:D; [apply fltb_true in D; try assumption; split; [exact F1 | lra] |].
    apply fltb_false in D; try assumption. split; [exact Fx | lra].
Qed.
Lemma tenth_ok : fin (tenth : fl) /\ 0 <= val (tenth : fl) <= 1.
Proof.
  pose proof (ieee_emax (prec := prec) (emax := emax)). unfold tenth. destruct (fz_small (prec := prec) (emax := emax) 10) as [V F]; [lia |].
  destruct (fdiv_ok fone (fz 10 : fl) fin_fone) as [A B].
  - rewrite V. apply Rgt_not_eq. lra.
  - rewrite V, val_fone. apply fits with 0%Z; [lia |]. change (bpow radix2 0) with 1. rewrite Rabs_pos_eq; lra.
  - split; [exact B |]. rewrite A, V, val_fone. apply rnd_between; [apply rnd_0 | apply rnd_1 | lra].
Qed.
Lemma brown_step_ok : forall last w : fl, between (-1) 1 last -> between (-1) 1 w -> between (-1) 1 (brown_step last w).
Proof.
  intros last w [Fl Vl] [Fw Vw]. pose proof (ieee_emax (prec := prec) (emax := emax)). destruct tenth_ok as [Ft Vt]. unfold brown_step. apply clamp_ok.
  assert (P : Rabs (val w * val (tenth : fl)) <= bpow radix2 0).
  { change (bpow radix2 0) with 1. rewrite Rabs_mult. rewrite <- (Rmult_1_l 1). apply Rmult_le_compat; try apply Rabs_pos; apply Rabs_le; lra. }
  destruct (fmul_ok w tenth Fw Ft) as [A B]; [apply fits with 0%Z; [lia | exact P] |].
  assert (Q : Rabs (val (fmul w tenth)) <= 1) by (rewrite A; apply (rnd_bound _ 0); [lia | exact P]).
  apply fadd_ok; [exact Fl | exact B |]. apply fits with 1%Z; [lia |]. change (bpow radix2 1) with 2. apply Rabs_le. apply Rabs_le_inv in Q. lra.
Qed.
Lemma brown_run_ok : forall ws (last : fl), between (-1) 1 last -> Forall (between (-1) 1) ws -> Forall (between (-1) 1) (brown_run last ws).
Proof.
  induction ws as [| w ws IH]; intros last Hl Hw; cbn [brown_run]; [constructor |]. inversion Hw; subst. constructor; [apply brown_step_ok; assumption |].
  apply IH; [apply brown_step_ok; assumption | assumption].
Qed.
Lemma white_between : forall w : fl, white w -> between (-1) 1 w.
Proof.
  intros w (z & [F V] & H). split; [exact F |]. rewrite V.
  assert (B : Rabs (IZR z * bpow radix2 (-23)) <= bpow radix2 (23 + -23)) by (apply grid_size; lia). change (bpow radix2 (23 + -23)) with 1 in B. apply Rabs_le_inv in B. lra.
Qed.

(** * Interpolated random numbers *)
Definition rl_ok (s : rlin prec emax) : Prop := (exists c t, (0 <= c < 2 ^ 24)%Z /\ (0 <= t < 2 ^ 24)%Z /\ on_grid (-24) (r_cur s) c /\ on_grid (-24) (r_width s) (t - c)) /\
  (fin (r_phase s) /\ 0 <= val (r_phase s) < 1) /\ nn (r_step s) /\ (fin (r_inc s) /\ 0 <= val (r_inc s)).
Lemma grid24 : forall x z, on_grid (-24) x z -> (0 <= z < 2 ^ 24)%Z -> 0 <= val (x : fl) <= 1.
Proof.
  intros x z [_ V] H. rewrite V. assert (0 <= IZR z) by (apply IZR_le; lia). pose proof (bpow_gt_0 radix2 (-24)).
  split; [apply Rmult_le_pos; lra |].
  assert (B : Rabs (IZR z * bpow radix2 (-24)) <= bpow radix2 (24 + -24)) by (apply grid_size; lia). change (bpow radix2 (24 + -24)) with 1 in B. apply Rabs_le_inv in B. lra.
Qed.
Lemma new_value_ok : forall s r c t, (0 <= c < 2 ^ 24)%Z -> (0 <= t < 2 ^ 24)%Z -> on_grid (-24) (r_cur s) c -> on_grid (-24) (r_width s) (t - c) ->
  nn (r_step s) -> (fin (r_inc s) /\ 0 <= val (r_inc s)) -> rand01 r -> rl_ok (rl_new_value s r).
Proof.
  intros s r c t Hc Ht Gc Gw Hs Hi (z & Gz & Hz). pose proof prec_pow. unfold rl_new_value.
  assert (G : on_grid (-24) (fadd (r_cur s) (r_width s)) t) by (replace t with (c + (t - c))%Z by lia; apply grid_add; [assumption | assumption | lia | lia]).
  split; [exists t, z; cbn [r_cur r_width]; split; [lia |]; split; [lia |]; split; [exact G | apply grid_sub; [assumption | assumption | lia | lia]] |].
  cbn [r_phase r_step r_inc]. split; [| split; assumption]. split; [reflexivity |]. change (val (fzero : fl)) with 0. lra.
Qed.
Lemma out_between : forall s, rl_ok s -> between 0 1 (fadd (r_cur s) (fmul (r_phase s) (r_width s))).
Proof.
  intros s ((c & t & Hc & Ht & Gc & Gw) & (Fp & Vp) & _). pose proof (ieee_emax (prec := prec) (emax := emax)). pose proof prec_pow.
  assert (Vc := grid24 _ _ Gc Hc). destruct Gc as [Fc Ec]. destruct Gw as [Fw Ew].
  set (w := val (r_width s)) in *. set (p := val (r_phase s)) in *. set (cv := val (r_cur s)) in *.
  assert (Vt : 0 <= cv + w <= 1).
  { replace (cv + w) with (IZR t * bpow radix2 (-24)) by (rewrite Ec, Ew, minus_IZR; ring).
    assert (B : Rabs (IZR t * bpow radix2 (-24)) <= bpow radix2 (24 + -24)) by (apply grid_size; lia). change (bpow radix2 (24 + -24)) with 1 in B. apply Rabs_le_inv in B.
    assert (0 <= IZR t) by (apply IZR_le; lia). pose proof (bpow_gt_0 radix2 (-24)). split; [apply Rmult_le_pos; lra | lra]. }
  assert (Rw : rnd w = w) by (unfold w; apply rnd_val).
  assert (M : (0 <= w -> 0 <= p * w <= w) /\ (w <= 0 -> w <= p * w <= 0)).
  { split; intros; split; try nra. }
  assert (B1 : Rabs (p * w) <= 1).
  { destruct (Rle_lt_dec 0 w) as [L | L]; [destruct (proj1 M L) | destruct (proj2 M ltac:(lra))]; apply Rabs_le; lra. }
  destruct (fmul_ok (r_phase s) (r_width s) Fp Fw) as [A1 A2].
  { apply fits with 0%Z; [lia | exact B1]. }
  assert (N : (0 <= w -> 0 <= val (fmul (r_phase s) (r_width s)) <= w) /\ (w <= 0 -> w <= val (fmul (r_phase s) (r_width s)) <= 0)).
  { rewrite A1. fold p w. split; intros L; apply rnd_between; try apply rnd_0; try exact Rw; apply M; exact L. }
  assert (S : 0 <= cv + val (fmul (r_phase s) (r_width s)) <= 1).
  { destruct (Rle_lt_dec 0 w) as [L | L]; [destruct (proj1 N L) | destruct (proj2 N ltac:(lra))]; lra. }
  destruct (fadd_ok (r_cur s) (fmul (r_phase s) (r_width s)) Fc A2) as [D1 D2].
  { fold cv. apply fits with 0%Z; [lia |]. change (bpow radix2 0) with 1. rewrite Rabs_pos_eq; lra. }
  split; [exact D2 |]. rewrite D1. apply rnd_between; [apply rnd_0 | apply rnd_1 | exact S].
Qed.
(** Frequencies: zero or more, finite *)
Definition rl_op_ok (o : rl_op prec emax) : Prop := match o with RFreq v => fin v /\ 0 <= val v | RFrame r => rand01 r end.
Lemma rl_step_ok : forall s o, rl_ok s -> rl_op_ok o -> rl_ok (fst (rl_step s o)) /\ Forall (between 0 1) (snd (rl_step s o)).
Proof.
  intros s o H Ho. pose proof (out_between s H) as Out. destruct H as ((c & t & Hc & Ht & Gc & Gw) & (Fp & Vp) & Hs & Fi & Vi). destruct o as [v | r]; cbn [rl_step].
  - destruct Ho as [Fv Vv]. destruct (feqb (r_inc s) fzero); cbn [fst snd]; (split; [| constructor]);
      (split; [exists c, t; cbn [r_cur r_width]; repeat (split; [assumption |]); assumption |]); cbn [r_phase r_step r_inc]; (split; [split; assumption |]); (split; [| split; assumption]).
    + apply fin_nn; assumption.
    + apply fmul_fin_nn; assumption.
  - cbn [fst snd r_phase]. split; [| constructor; [exact Out | constructor]].
    assert (Np : nn (fadd (r_phase s) (r_step s))) by (apply fadd_nn; [apply fin_nn; lra || assumption | exact Hs]).
    destruct (fleb fone (fadd (r_phase s) (r_step s))) eqn:C.
    + apply (new_value_ok _ r c t); try assumption. cbn [r_inc]. split; assumption.
    + destruct (not_ge_one _ Np C) as [F V]. split; [exists c, t; cbn [r_cur r_width]; repeat (split; [assumption |]); assumption |].
      cbn [r_phase r_step r_inc]. split; [split; assumption |]. split; [exact Hs | split; assumption].
Qed.
Lemma rl_run_ok : forall ops s, rl_ok s -> Forall rl_op_ok ops -> Forall (between 0 1) (rl_run s ops).
Proof.
  induction ops as [| o ops IH]; intros s H Ho; cbn [rl_run]; [constructor |]. inversion Ho; subst. destruct (rl_step_ok s o H) as [A B]; [assumption |].
  apply Forall_app. split; [exact B | apply IH; assumption].
Qed.
Lemma rl_init_ok : forall freq sr r0 r1, fin freq -> 0 <= val freq -> fin sr -> 1 <= val sr -> rand01 r0 -> rand01 r1 -> rl_ok (rl_init freq sr r0 r1).
Proof.
  intros freq sr r0 r1 Ff Vf Fs Vs (z0 & G0 & H0) R1. pose proof (ieee_emax (prec := prec) (emax := emax)). unfold rl_init.
  destruct (fdiv_ok fone sr fin_fone) as [A B]; [apply Rgt_not_eq; lra | |].
  { rewrite val_fone. apply fits with 0%Z; [lia |]. change (bpow radix2 0) with 1. unfold Rdiv. rewrite Rmult_1_l.
    rewrite Rabs_pos_eq by (left; apply Rinv_0_lt_compat; lra). rewrite <- Rinv_1. apply Rinv_le; lra. }
  assert (P : 0 <= val (fdiv fone sr)).
  { rewrite A, val_fone. rewrite <- (rnd_0 (prec := prec) (emax := emax)). apply rnd_le. unfold Rdiv. rewrite Rmult_1_l. left. apply Rinv_0_lt_compat. lra. }
  apply (new_value_ok _ r1 z0 z0); cbn [r_cur r_width r_step r_inc]; try assumption.
  - rewrite Z.sub_diag. apply grid_zero.
  - apply fmul_fin_nn; assumption.
  - split; assumption.
Qed.
End Proofs.
