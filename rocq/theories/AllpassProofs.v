From Coq Require Import Reals Lra.
From Flocq Require Import Core BinarySingleNaN.
From Verif Require Import Base FloatBase FloatMore AllpassModel AllpassSpec DelaySpec DelayProofs.
Local Open Scope R_scope.

Section Proofs.
Context {prec emax : Z} {I : ieee prec emax}.
Notation fl := (binary_float prec emax).
Notation ap := (ap prec emax).
Notation rnd := (@rnd prec emax).

Lemma top_pos : 0 < @top emax. Proof. apply bpow_gt_0. Qed.
Lemma silent_zero : silent (fzero : fl). Proof. split; reflexivity. Qed.
Lemma mul_zero_r : forall x y : fl, fin x -> silent y -> silent (fmul x y).
Proof.
  intros x y Fx [Fy Vy]. destruct (fmul_ok x y Fx Fy) as [A B]; [rewrite Vy, Rmult_0_r, rnd_0, Rabs_R0; apply top_pos |].
  split; [exact B |]. rewrite A, Vy, Rmult_0_r. apply rnd_0.
Qed.
Lemma mul_zero_l : forall x y : fl, silent x -> fin y -> silent (fmul x y).
Proof.
  intros x y [Fx Vx] Fy. destruct (fmul_ok x y Fx Fy) as [A B]; [rewrite Vx, Rmult_0_l, rnd_0, Rabs_R0; apply top_pos |].
  split; [exact B |]. rewrite A, Vx, Rmult_0_l. apply rnd_0.
Qed.
Lemma add_zero_l : forall x y : fl, silent x -> fin y -> fin (fadd x y) /\ val (fadd x y) = val y.
Proof.
  intros x y [Fx Vx] Fy. destruct (fadd_ok x y Fx Fy) as [A B]; [rewrite Vx, Rplus_0_l, rnd_val; apply val_top |].
  split; [exact B |]. rewrite A, Vx, Rplus_0_l. apply rnd_val.
Qed.
Lemma add_silent : forall x y : fl, silent x -> silent y -> silent (fadd x y).
Proof. intros x y Hx [Fy Vy]. destruct (add_zero_l x y Hx Fy) as [A B]. split; [exact A | rewrite B; exact Vy]. Qed.
Lemma sub_silent : forall x y : fl, silent x -> silent y -> silent (fsub x y).
Proof.
  intros x y [Fx Vx] [Fy Vy]. destruct (fsub_ok x y Fx Fy) as [A B]; [rewrite Vx, Vy, Rminus_0_r, rnd_0, Rabs_R0; apply top_pos |].
  split; [exact B |]. rewrite A, Vx, Vy, Rminus_0_r. apply rnd_0.
Qed.

(** * Setting the delay *)
Lemma trunc_le : forall x : fl, 0 <= val x -> IZR (Btrunc x) = IZR (Ztrunc (val x)) /\ (0 <= Btrunc x)%Z /\ IZR (Btrunc x) <= val x < IZR (Btrunc x) + 1.
Proof.
  intros x H. pose proof (ieee_lt (prec := prec) (emax := emax)).
  assert (P : Prec_lt_emax prec emax) by exact H0.
  pose proof (@Btrunc_correct prec emax P x) as E. unfold round, F2R, scaled_mantissa, cexp, FIX_exp in E. cbn [Fnum Fexp] in E.
  change (bpow radix2 0) with 1 in E. cbn [Z.opp] in E. change (bpow radix2 0) with 1 in E. rewrite !Rmult_1_r in E.
  change (B2R x) with (val x) in E. split; [exact E |]. rewrite E. rewrite Ztrunc_floor by exact H.
  assert (F : (0 <= Zfloor (val x))%Z) by (apply Zfloor_lub; exact H).
  apply eq_IZR in E. rewrite Ztrunc_floor in E by exact H. split; [rewrite E; exact F |].
  split; [apply Zfloor_lb |]. apply Zfloor_ub.
Qed.
Lemma half_ok : fin (fze 1 (-1) : fl) /\ val (fze 1 (-1) : fl) = / 2.
Proof.
  pose proof (ieee_emax (prec := prec) (emax := emax)).
  destruct (fze_ok (prec := prec) (emax := emax) 1 (-1)) as [A B].
  - rewrite Rmult_1_l. apply fits with (-1)%Z; [lia | rewrite Rabs_pos_eq by apply bpow_ge_0; lra].
  - split; [exact B |]. rewrite A, Rmult_1_l. apply rnd_bpow. lia.
Qed.
Lemma coeff_fin : forall d : fl, fin d -> 0 <= val d <= bpow radix2 61 -> fin (coeff_of d).
Proof.
  intros d Fd Vd. pose proof (ieee_emax (prec := prec) (emax := emax)). unfold coeff_of.
  assert (B1 : 1 <= bpow radix2 61) by (change 1 with (bpow radix2 0); apply bpow_le; lia).
  assert (E62 : bpow radix2 62 = 2 * bpow radix2 61) by (change 62%Z with (1 + 61)%Z; rewrite bpow_plus; reflexivity).
  destruct (fsub_ok fone d fin_fone Fd) as [A1 A2].
  { rewrite val_fone. apply fits with 62%Z; [lia |]. apply Rabs_le. lra. }
  destruct (fadd_ok fone d fin_fone Fd) as [C1 C2].
  { rewrite val_fone. apply fits with 62%Z; [lia |]. apply Rabs_le. lra. }
  rewrite val_fone in A1, C1.
  assert (D1 : 1 <= val (fadd fone d)) by (rewrite C1, <- (rnd_1 (prec := prec) (emax := emax)) at 1; apply rnd_le; lra).
  assert (N1 : Rabs (val (fsub fone d)) <= bpow radix2 62) by (rewrite A1; apply rnd_bound; [lia | apply Rabs_le; lra]).
  destruct (fdiv_ok (fsub fone d) (fadd fone d) A2) as [E1 E2]; [apply Rgt_not_eq; lra | |].
  { apply fits with 62%Z; [lia |]. unfold Rdiv. rewrite Rabs_mult.
    rewrite (Rabs_pos_eq (/ _)) by (left; apply Rinv_0_lt_compat; lra).
    apply Rle_trans with (bpow radix2 62 * 1); [| lra]. apply Rmult_le_compat; [apply Rabs_pos | left; apply Rinv_0_lt_compat; lra | exact N1 |].
    rewrite <- Rinv_1. apply Rinv_le; lra. }
  exact E2.
Qed.
Lemma INR_len : forall n, INR n = IZR (Z.of_nat n). Proof. intros. apply INR_IZR_INZ. Qed.
Lemma ap_set_ok : forall x s, within (length (a_buf s)) x -> (a_w s < length (a_buf s))%nat ->
  exists s', ap_set x s = Some s' /\ a_buf s' = a_buf s /\ a_w s' = a_w s /\ (a_r s' < length (a_buf s))%nat /\ fin (a_coeff s') /\
    a_pin s' = a_pin s /\ a_pout s' = a_pout s /\ a_clear s' = a_clear s.
Proof.
  intros x s (Fx & Vx & Bx) Hw. pose proof (ieee_emax (prec := prec) (emax := emax)).
  destruct (trunc_le x (proj1 Vx)) as (_ & T0 & T1). set (z := Btrunc x) in *.
  assert (Hz : (z < Z.of_nat (length (a_buf s)))%Z) by (apply lt_IZR; rewrite INR_len in Vx; lra).
  unfold ap_set, floor_usize. unfold fin in Fx. rewrite Fx. change (is_finite x = true) with (fin x) in Fx.
  assert (L0 : fleb fzero x = true) by (rewrite fleb_ok by (assumption || reflexivity); apply Rle_bool_true; rewrite val_fzero; lra).
  rewrite L0. cbn [bind]. fold z. rewrite Z2Nat.id by exact T0.
  assert (Z1 : IZR 0 <= IZR z) by (apply IZR_le; exact T0).
  destruct (fz_ok (prec := prec) (emax := emax) z) as [A1 A2].
  { apply fits with 60%Z; [lia |]. rewrite Rabs_pos_eq by exact Z1. lra. }
  assert (B1 : 0 <= val (fz z : fl) <= val x).
  { rewrite A1. split; [rewrite <- (rnd_0 (prec := prec) (emax := emax)); apply rnd_le; exact Z1 |].
    apply Rle_trans with (rnd (val x)); [apply rnd_le; lra | rewrite rnd_val; lra]. }
  destruct (fsub_ok x (fz z) Fx A2) as [C1 C2].
  { apply fits with 60%Z; [lia |]. rewrite Rabs_pos_eq; lra. }
  assert (D1 : 0 <= val (fsub x (fz z)) <= bpow radix2 60).
  { rewrite C1. apply rnd_between; [apply rnd_0 | apply rnd_bpow; lia | lra]. }
  assert (E61 : bpow radix2 61 = 2 * bpow radix2 60) by (change 61%Z with (1 + 60)%Z; rewrite bpow_plus; reflexivity).
  assert (B60 : 1 <= bpow radix2 60) by (change 1 with (bpow radix2 0); apply bpow_le; lia).
  assert (F1 : fin (fadd (fsub x (fz z)) fone) /\ 0 <= val (fadd (fsub x (fz z)) fone) <= bpow radix2 61).
  { destruct (fadd_ok (fsub x (fz z)) fone C2 fin_fone) as [G1 G2]; rewrite val_fone in *.
    - apply fits with 61%Z; [lia |]. rewrite Rabs_pos_eq; lra.
    - split; [exact G2 |]. rewrite G1. apply rnd_between; [apply rnd_0 | apply rnd_bpow; lia | lra]. }
  destruct half_ok as [Hf Hv].
  destruct (fltb (fze 1 (-1)) x && fltb (fsub x (fz z)) (fze 1 (-1)))%bool eqn:C.
  - apply andb_true_iff in C as [Ca Cb]. apply fltb_true in Ca; try assumption. apply fltb_true in Cb; try assumption. rewrite Hv in *.
    destruct (Nat.eqb_spec (Z.to_nat z) 0) as [Z0 | Z0].
    { exfalso. assert (z = 0%Z) by lia. rewrite H0 in *. rewrite A1, rnd_0, Rminus_0_r, rnd_val in C1. lra. }
    cbn [bind fst snd].
    destruct (Nat.leb_spec (Z.to_nat z - 1) (a_w s)) as [L | L]; [| destruct (Nat.leb_spec (Z.to_nat z - 1) (length (a_buf s))) as [L2 | L2]; [| lia]];
      cbn [bind]; (eexists; split; [reflexivity |]); cbn [a_buf a_w a_r a_coeff a_pin a_pout a_clear]; (split; [reflexivity |]); (split; [reflexivity |]); (split; [lia |]); (split; [apply coeff_fin; apply F1 |]); (split; [reflexivity |]); split; reflexivity.
  - cbn [bind fst snd].
    destruct (Nat.leb_spec (Z.to_nat z) (a_w s)) as [L | L]; [| destruct (Nat.leb_spec (Z.to_nat z) (length (a_buf s))) as [L2 | L2]; [| lia]];
      cbn [bind]; (eexists; split; [reflexivity |]); cbn [a_buf a_w a_r a_coeff a_pin a_pout a_clear]; (split; [reflexivity |]); (split; [reflexivity |]); (split; [lia |]); (split; [apply coeff_fin; [exact C2 | lra] |]); (split; [reflexivity |]); split; reflexivity.
Qed.

(** * Silence *)
Definition quiet (s : ap) : Prop :=
  (0 < length (a_buf s))%nat /\ (a_w s < length (a_buf s))%nat /\ (a_r s < length (a_buf s))%nat /\ Forall silent (a_buf s) /\ fin (a_coeff s) /\
  silent (a_pin s) /\ silent (a_pout s).
Lemma Forall_set : forall (P : fl -> Prop) l i x l', Forall P l -> P x -> set_nth l i x = Some l' -> Forall P l'.
Proof.
  intros P. induction l as [| y l IH]; intros [| i] x l' Hl Hx E; cbn in E; try discriminate E.
  - injection E as <-. inversion Hl. constructor; assumption.
  - destruct (set_nth l i x) as [l2 |] eqn:E2; [| discriminate E]. injection E as <-. inversion Hl. constructor; [assumption | apply (IH i x); assumption].
Qed.
Lemma read_quiet : forall s, quiet s -> exists s' o, ap_read s = Some (s', o) /\ quiet s' /\ silent o /\ a_buf s' = a_buf s.
Proof.
  intros s (Q0 & Q1 & Q2 & Q3 & Q4 & Q5 & Q6). unfold ap_read.
  replace (length (a_buf s) =? 0)%nat with false by (symmetry; apply Nat.eqb_neq; lia).
  pose proof (Nat.mod_upper_bound (a_r s + 1) (length (a_buf s)) ltac:(lia)).
  destruct (0 <? a_clear s)%nat.
  - eexists. eexists. split; [reflexivity |]. split; [| split; [apply silent_zero | reflexivity]].
    split; [exact Q0 |]. split; [exact Q1 |]. split; [assumption |]. split; [exact Q3 |]. split; [exact Q4 |]. split; assumption.
  - destruct (nth_error (a_buf s) (a_r s)) as [x |] eqn:X; [| apply nth_error_None in X; lia]. cbn [bind].
    assert (Sx : silent x) by (apply (proj1 (Forall_forall _ _) Q3); apply (nth_error_In _ _ X)).
    assert (So : silent (interp_sample (a_coeff s) (a_pin s) (a_pout s) x)).
    { apply add_silent; [| exact Q5]. apply mul_zero_r; [exact Q4 | apply sub_silent; assumption]. }
    eexists. eexists. split; [reflexivity |]. split; [| split; [exact So | reflexivity]].
    split; [exact Q0 |]. split; [exact Q1 |]. split; [assumption |]. split; [exact Q3 |]. split; [exact Q4 |]. split; assumption.
Qed.
Lemma write_quiet : forall s x, quiet s -> silent x -> exists s', ap_write x s = Some s' /\ quiet s' /\ length (a_buf s') = length (a_buf s).
Proof.
  intros s x (Q0 & Q1 & Q2 & Q3 & Q4 & Q5 & Q6) Hx. unfold ap_write.
  destruct (set_nth_some (a_buf s) (a_w s) x Q1) as [buf' E]. rewrite E. cbn [bind].
  pose proof (set_nth_length _ _ _ _ E) as Lb.
  eexists. split; [reflexivity |]. split; [| exact Lb].
  pose proof (Nat.mod_upper_bound (a_w s + 1) (length buf') ltac:(lia)).
  unfold quiet. cbn [a_buf a_w a_r a_coeff a_pin a_pout]. split; [lia |]. split; [assumption |]. split; [lia |].
  split; [apply (Forall_set _ _ _ _ _ Q3 Hx E) |]. split; [exact Q4 |]. split; assumption.
Qed.
Lemma process_quiet : forall s x, quiet s -> silent x -> exists s' o, ap_process x s = Some (s', o) /\ quiet s' /\ silent o /\ length (a_buf s') = length (a_buf s).
Proof.
  intros s x Q Hx. destruct (read_quiet s Q) as (s1 & o & E & Q1 & So & Eb). destruct (write_quiet s1 x Q1 Hx) as (s2 & E2 & Q2 & L2).
  exists s2, o. unfold ap_process. rewrite E. cbn [bind fst snd]. rewrite E2. split; [reflexivity |]. split; [exact Q2 |]. split; [exact So |]. rewrite L2, Eb. reflexivity.
Qed.
Lemma fb_quiet : forall fb s x, fin fb -> quiet s -> silent x -> exists s' o, fb_process fb x s = Some (s', o) /\ quiet s' /\ silent o /\ length (a_buf s') = length (a_buf s).
Proof.
  intros fb s x Ff Q Hx. destruct (read_quiet s Q) as (s1 & o & E & Q1 & So & Eb).
  assert (Sw : silent (fadd (fmul o fb) x)) by (apply add_silent; [apply mul_zero_l; assumption | exact Hx]).
  destruct (write_quiet s1 _ Q1 Sw) as (s2 & E2 & Q2 & L2).
  eexists. eexists. unfold fb_process. rewrite E. cbn [bind fst snd]. rewrite E2. split; [reflexivity |]. split; [exact Q2 |].
  split; [apply sub_silent; [exact So | apply mul_zero_r; assumption] |]. rewrite L2, Eb. reflexivity.
Qed.
Lemma run_quiet : forall proc, (forall s x, quiet s -> silent x -> exists s' o, proc x s = Some (s', o) /\ quiet s' /\ silent o /\ length (a_buf s') = length (a_buf s)) ->
  forall ops s, quiet s -> silent_ops (length (a_buf s)) ops -> exists l, ap_run proc s ops = Some l /\ Forall silent l.
Proof.
  intros proc Hp. induction ops as [| o ops IH]; intros s Q Ho; [exists []; split; [reflexivity | constructor] |].
  assert (Ho' : silent_ops (length (a_buf s)) ops) by (intros x H; apply Ho; right; exact H).
  specialize (Ho o (or_introl eq_refl)). destruct o as [x | | x]; cbn [ap_run].
  - destruct Q as (Q0 & Q1 & Q2 & Q3 & Q4 & Q5 & Q6).
    destruct (ap_set_ok x s Ho Q1) as (s' & E & B1 & B2 & B3 & B4 & B5 & B6 & _). rewrite E. cbn [bind]. apply IH; [| rewrite B1; exact Ho'].
    unfold quiet. rewrite B1, B2, B5, B6. repeat (split; [assumption |]). assumption.
  - destruct Ho.
  - destruct (Hp s x Q Ho) as (s' & y & E & Q' & Sy & Lb). rewrite E. cbn [bind fst snd]. rewrite <- Lb in Ho'. destruct (IH s' Q' Ho') as (l & E2 & Fl).
    rewrite E2. exists (y :: l). split; [reflexivity | constructor; assumption].
Qed.

(** * Whole delays *)
Lemma interp_whole : forall c pin pout x : fl, silent c -> bounded pin -> bounded pout -> bounded x -> same (interp_sample c pin pout x) pin.
Proof.
  intros c pin pout x Hc [Fi Bi] [Fo Bo] [Fx Bx]. pose proof (ieee_emax (prec := prec) (emax := emax)). unfold interp_sample.
  destruct (fsub_ok x pout Fx Fo) as [_ F].
  { apply fits with 101%Z; [lia |]. change 101%Z with (1 + 100)%Z. rewrite bpow_plus. change (bpow radix2 1) with 2.
    pose proof (Rabs_triang (val x) (- val pout)) as T. rewrite Rabs_Ropp in T. unfold Rminus. lra. }
  apply add_zero_l; [| exact Fi]. apply mul_zero_l; assumption.
Qed.
Lemma bounded_same : forall x y : fl, same x y -> bounded y -> bounded x.
Proof. intros x y [Fx V] [Fy B]. split; [exact Fx | rewrite V; exact B]. Qed.
Lemma bounded_one : bounded (fone : fl).
Proof. split; [apply fin_fone |]. rewrite val_fone, Rabs_R1. change 1 with (bpow radix2 0). apply bpow_le. lia. Qed.
Lemma bounded_zero : bounded (fzero : fl).
Proof. split; [reflexivity |]. change (val (fzero : fl)) with 0. rewrite Rabs_R0. apply bpow_ge_0. Qed.
Notation back := (back fl fzero).
(** After the inputs [xs]: what the reader will find *)
Definition whole (len nf : nat) (s : ap) (xs : list fl) : Prop :=
  length (a_buf s) = len /\ a_w s = (length xs mod len)%nat /\ a_r s = ((length xs + (len - nf)) mod len)%nat /\ a_clear s = 0%nat /\
  ring fzero len 0 (fun _ => fzero) (a_buf s) xs /\ silent (a_coeff s) /\ bounded (a_pin s) /\ bounded (a_pout s) /\ Forall bounded xs /\
  ((0 < length xs)%nat -> a_pin s = back xs (length xs) (nf + 1)).
Lemma bounded_back : forall xs n d, Forall bounded xs -> bounded (back xs n d).
Proof.
  intros xs n d H. unfold DelaySpec.back. destruct (n <? d)%nat; [apply bounded_zero |].
  destruct (Nat.lt_ge_cases (n - d) (length xs)) as [L | L].
  - apply (proj1 (Forall_forall _ _) H). apply nth_In. exact L.
  - rewrite nth_overflow by exact L. apply bounded_zero.
Qed.
Lemma whole_step : forall len nf s xs x, (1 <= nf <= len)%nat -> whole len nf s xs -> bounded x ->
  exists s' o, ap_process x s = Some (s', o) /\ whole len nf s' (xs ++ [x]) /\ same o (a_pin s).
Proof.
  intros len nf s xs x Hn (W1 & W2 & W3 & W4 & W5 & W6 & W7 & W8 & W9 & W10) Hx.
  unfold ap_process, ap_read. rewrite W1, W4. replace (len =? 0)%nat with false by (symmetry; apply Nat.eqb_neq; lia). change (0 <? 0)%nat with false. cbn [bind].
  assert (R : nth_error (a_buf s) (a_r s) = Some (back xs (length xs) nf)).
  { rewrite W3. destruct W5 as [_ R]. specialize (R nf Hn). replace (0 + length xs + len - nf)%nat with (length xs + (len - nf))%nat in R by lia.
    exact R. }
  rewrite R. cbn [bind fst snd]. set (y := back xs (length xs) nf).
  assert (By : bounded y) by (apply bounded_back; exact W9).
  assert (So := interp_whole (a_coeff s) (a_pin s) (a_pout s) y W6 W7 W8 By).
  unfold ap_write. cbn [a_buf a_w a_r a_nf a_clear a_coeff a_pin a_pout].
  pose proof (Nat.mod_upper_bound (length xs) len ltac:(lia)) as Bw.
  destruct (set_nth_some (a_buf s) (a_w s) x) as [buf' E]; [lia |]. rewrite E. cbn [bind].
  pose proof (set_nth_length _ _ _ _ E) as Lb.
  eexists. eexists. split; [reflexivity |]. split; [| exact So].
  unfold whole. cbn [a_buf a_w a_r a_nf a_clear a_coeff a_pin a_pout]. rewrite app_length. cbn [length].
  split; [lia |]. split; [rewrite Lb, W1, W2, Nat.add_mod_idemp_l by lia; reflexivity |].
  split; [rewrite W3, Nat.add_mod_idemp_l by lia; f_equal; lia |]. split; [reflexivity |].
  split; [rewrite W2 in E; apply (ring_write fzero len 0 _ _ _ _ _ ltac:(lia) W5 E) |].
  split; [exact W6 |]. split; [exact By |]. split; [apply (bounded_same _ _ So W7) |].
  split; [apply Forall_app; split; [exact W9 | constructor; [exact Hx | constructor]] |].
  intros _. unfold y, DelaySpec.back.
  destruct (Nat.ltb_spec (length xs) nf) as [A | A]; destruct (Nat.ltb_spec (length xs + 1) (nf + 1)) as [A' | A']; try lia; [reflexivity |].
  rewrite app_nth1 by lia. f_equal. lia.
Qed.
Lemma whole_run : forall len nf ys s xs, (1 <= nf <= len)%nat -> whole len nf s xs -> Forall bounded ys ->
  exists l, ap_run ap_process s (map ApFrame ys) = Some l /\ length l = length ys /\
    forall n o, nth_error l n = Some o -> (0 < length xs + n)%nat -> same o (back (xs ++ ys) (length xs + n) (nf + 1)).
Proof.
  intros len nf. induction ys as [| y ys IH]; intros s xs Hn W Hy.
  - exists []. split; [reflexivity |]. split; [reflexivity |]. intros [| n] o H; discriminate H.
  - inversion Hy as [| ? ? Hy1 Hy2]; subst. destruct (whole_step len nf s xs y Hn W Hy1) as (s' & o & E & W' & So).
    destruct (IH s' (xs ++ [y]) Hn W' Hy2) as (l & E2 & L2 & P). exists (o :: l). cbn [map ap_run]. rewrite E. cbn [bind fst snd]. rewrite E2. cbn [bind].
    split; [reflexivity |]. split; [cbn [length]; lia |]. intros n q Hq Hp. destruct n as [| n]; cbn [nth_error] in Hq.
    + injection Hq as <-. rewrite Nat.add_0_r in *. destruct W as (_ & _ & _ & _ & _ & _ & _ & _ & _ & W10). rewrite (W10 Hp) in So.
      replace (back (xs ++ y :: ys) (length xs) (nf + 1)) with (back xs (length xs) (nf + 1)); [exact So |].
      unfold DelaySpec.back. destruct (length xs <? nf + 1)%nat eqn:L; [reflexivity |]. apply Nat.ltb_ge in L. rewrite app_nth1 by lia. reflexivity.
    + specialize (P n q Hq). rewrite app_length in P. cbn [length] in P. rewrite <- app_assoc in P. cbn [app] in P.
      replace (length xs + S n)%nat with (length xs + 1 + n)%nat by lia. apply P. lia.
Qed.
(** A whole delay gives the coefficient 0. *)
Lemma set_whole : forall len N, (2 <= N <= len + 1)%nat -> (Z.of_nat N <= 2 ^ 24)%Z ->
  exists s, ap_set (fz (Z.of_nat N)) (ap_init len) = Some s /\ whole len (N - 1) s [] /\ a_pin s = fone.
Proof.
  intros len N HN HB. pose proof (ieee_emax (prec := prec) (emax := emax)).
  destruct (fz_small (prec := prec) (emax := emax) (Z.of_nat N)) as [V F]; [lia |].
  assert (P : 2 <= IZR (Z.of_nat N)) by (apply IZR_le; lia).
  destruct (trunc_le (fz (Z.of_nat N) : fl)) as (T1 & T2 & T3); [lra |].
  assert (T : Btrunc (fz (Z.of_nat N) : fl) = Z.of_nat N).
  { apply eq_IZR. rewrite T1, V. rewrite Ztrunc_IZR. reflexivity. }
  unfold ap_set, floor_usize. unfold fin in F. rewrite F. change (is_finite (fz (Z.of_nat N) : fl) = true) with (fin (fz (Z.of_nat N) : fl)) in F.
  assert (L0 : fleb fzero (fz (Z.of_nat N) : fl) = true) by (rewrite fleb_ok by (assumption || reflexivity); apply Rle_bool_true; rewrite V, val_fzero; lra).
  rewrite L0. cbn [bind]. rewrite T, Nat2Z.id.
  assert (D : silent (fsub (fz (Z.of_nat N)) (fz (Z.of_nat N)) : fl)).
  { destruct (fsub_ok (fz (Z.of_nat N) : fl) (fz (Z.of_nat N)) F F) as [A B]; [rewrite Rminus_diag_eq, rnd_0, Rabs_R0 by reflexivity; apply top_pos |].
    split; [exact B |]. rewrite A, Rminus_diag_eq by reflexivity. apply rnd_0. }
  destruct half_ok as [Hf Hv].
  assert (C1 : fltb (fze 1 (-1)) (fz (Z.of_nat N) : fl) = true) by (rewrite fltb_ok by assumption; apply Rlt_bool_true; rewrite Hv, V; lra).
  assert (C2 : fltb (fsub (fz (Z.of_nat N)) (fz (Z.of_nat N)) : fl) (fze 1 (-1)) = true).
  { rewrite fltb_ok by (apply D || assumption). apply Rlt_bool_true. rewrite Hv, (proj2 D). lra. }
  rewrite C1, C2. cbn [andb]. replace (N =? 0)%nat with false by (symmetry; apply Nat.eqb_neq; lia). cbn [bind fst snd].
  cbn [ap_init a_w a_buf]. rewrite repeat_length.
  replace (N - 1 <=? 0)%nat with false by (symmetry; apply Nat.leb_gt; lia). replace (N - 1 <=? len)%nat with true by (symmetry; apply Nat.leb_le; lia).
  cbn [bind]. eexists. split; [reflexivity |]. split; [| reflexivity].
  unfold whole. cbn [a_buf a_w a_r a_nf a_clear a_coeff a_pin a_pout ap_init length Nat.add].
  split; [apply repeat_length |]. split; [rewrite Nat.mod_0_l by lia; reflexivity |]. split; [rewrite Nat.add_0_r, Nat.mod_small by lia; reflexivity |].
  split; [reflexivity |].
  split.
  { destruct (ring_init fzero len 0 (repeat (fzero : fl) len) ltac:(lia)) as [A B]; [rewrite repeat_length; lia |]. split; [exact A |].
    intros j Hj. rewrite (B j Hj). cbn [length]. destruct (0 <? j)%nat; [rewrite nth_repeat_zero |]; reflexivity. }
  split; [| split; [apply bounded_one | split; [apply bounded_one | split; [constructor | intros C; cbn in C; lia]]]].
  (* the coefficient *)
  destruct (add_zero_l _ fone D fin_fone) as [E1 E2]. rewrite val_fone in E2. unfold coeff_of. set (d := fadd _ fone) in *.
  destruct (fsub_ok fone d fin_fone E1) as [G1 G2]; [rewrite val_fone, E2, Rminus_diag_eq, rnd_0, Rabs_R0 by reflexivity; apply top_pos |].
  rewrite val_fone, E2, Rminus_diag_eq, rnd_0 in G1 by reflexivity.
  destruct (fadd_ok fone d fin_fone E1) as [K1 K2].
  { rewrite val_fone, E2. apply fits with 1%Z; [lia |]. change (bpow radix2 1) with 2. rewrite Rabs_pos_eq; lra. }
  rewrite val_fone, E2 in K1. replace (1 + 1) with (bpow radix2 1) in K1 by (cbn; lra). rewrite rnd_bpow in K1 by lia. change (bpow radix2 1) with 2 in K1.
  destruct (fdiv_ok (fsub fone d) (fadd fone d) G2) as [M1 M2]; [apply Rgt_not_eq; lra | rewrite G1; unfold Rdiv; rewrite Rmult_0_l, rnd_0, Rabs_R0; apply top_pos |].
  split; [exact M2 |]. rewrite M1, G1. unfold Rdiv. rewrite Rmult_0_l. apply rnd_0.
Qed.
End Proofs.
