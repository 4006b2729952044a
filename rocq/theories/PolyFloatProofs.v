(** Proofs for C89: the band-limited waveforms in rounded arithmetic. *)
From Coq Require Import Reals Lra Lia ZArith.
From Flocq Require Import Core BinarySingleNaN.
From Verif Require Import Base FloatBase PolyModel PolySpec PolyProofs PolyFloatSpec.
Local Open Scope R_scope.

Section Range.
Context {prec emax : Z} {I : ieee prec emax}.
Notation fl := (binary_float prec emax).
Notation rnd := (@rnd prec emax).

(** Quarters are not rounded. *)
Lemma rnd_quarter : forall z, (Z.abs z <= 64)%Z -> rnd (IZR z / 4) = IZR z / 4.
Proof.
  intros z Hz. apply rnd_format. replace (SpecFloat.fexp prec emax) with (FLT_exp (SpecFloat.emin prec emax) prec) by reflexivity.
  apply generic_format_FLT. exists (Float radix2 z (-2)).
  - unfold F2R. cbn. lra.
  - cbn. destruct I. apply Z.lt_le_trans with (2 ^ 24)%Z; [lia |]. apply Z.pow_le_mono_r; lia.
  - cbn. unfold SpecFloat.emin. destruct I. lia.
Qed.
Lemma rnd_neg : forall x, x <= 0 -> rnd x <= 0.
Proof. intros x H. apply Rle_trans with (rnd 0); [apply rnd_le; exact H | rewrite rnd_0; apply Rle_refl]. Qed.
Lemma rnd_pos : forall x, 0 <= x -> 0 <= rnd x.
Proof. intros x H. apply Rle_trans with (rnd 0); [rewrite rnd_0; apply Rle_refl | apply rnd_le; exact H]. Qed.
(** [x] lies between the quarters [a] and [b] *)
Definition within (a b : Z) (x : fl) : Prop := fin x /\ IZR a / 4 <= val x <= IZR b / 4.
Lemma small_fits : forall a b x, (-64 <= a)%Z -> (b <= 64)%Z -> IZR a / 4 <= x <= IZR b / 4 -> Rabs (rnd x) < top (emax := emax).
Proof.
  intros a b x A B H. apply fits with 4%Z; [destruct I; lia |]. apply IZR_le in A. apply IZR_le in B.
  cbn [bpow]. replace (IZR (Z.pow_pos radix2 4)) with 16 by reflexivity. apply Rabs_le. lra.
Qed.
Lemma quarters : forall a b x, (-64 <= a)%Z -> (b <= 64)%Z -> (a <= b)%Z -> IZR a / 4 <= x <= IZR b / 4 -> IZR a / 4 <= rnd x <= IZR b / 4.
Proof. intros a b x A B C H. apply rnd_between; [apply rnd_quarter; lia | apply rnd_quarter; lia | exact H]. Qed.
Ltac four L := intros x y a b A B FX FY H; assert (C : (a <= b)%Z) by (apply le_IZR; lra);
  destruct (L x y FX FY (small_fits a b _ A B H)) as [V F]; split; [split; [exact F | rewrite V; apply quarters; assumption] | exact V].
Lemma add_in : forall (x y : fl) a b, (-64 <= a)%Z -> (b <= 64)%Z -> fin x -> fin y -> IZR a / 4 <= val x + val y <= IZR b / 4 ->
  within a b (fadd x y) /\ val (fadd x y) = rnd (val x + val y).
Proof. four (@fadd_ok prec emax I). Qed.
Lemma sub_in : forall (x y : fl) a b, (-64 <= a)%Z -> (b <= 64)%Z -> fin x -> fin y -> IZR a / 4 <= val x - val y <= IZR b / 4 ->
  within a b (fsub x y) /\ val (fsub x y) = rnd (val x - val y).
Proof. four (@fsub_ok prec emax I). Qed.
Lemma mul_in : forall (x y : fl) a b, (-64 <= a)%Z -> (b <= 64)%Z -> fin x -> fin y -> IZR a / 4 <= val x * val y <= IZR b / 4 ->
  within a b (fmul x y) /\ val (fmul x y) = rnd (val x * val y).
Proof. four (@fmul_ok prec emax I). Qed.
Lemma div_in : forall (x y : fl) a b, (-64 <= a)%Z -> (b <= 64)%Z -> fin x -> val y <> 0 -> IZR a / 4 <= val x / val y <= IZR b / 4 ->
  within a b (fdiv x y) /\ val (fdiv x y) = rnd (val x / val y).
Proof. four (@fdiv_ok prec emax I). Qed.

Variables (fpi ftau : fl) (fsin fcos : fl -> fl).
Notation O := (Fops fpi ftau fsin fcos).
Lemma lit_int : forall z, (Z.abs z <= 4)%Z -> fin (q_frac O z 1) /\ val (q_frac O z 1) = IZR z.
Proof.
  intros z Hz. cbn [Fops q_frac]. destruct (fz_small (prec := prec) (emax := emax) z) as [A B]; [cbn; lia |].
  destruct (fz_small (prec := prec) (emax := emax) 1) as [A1 B1]; [cbn; lia |].
  destruct (fdiv_ok (fz z : fl) (fz 1) B) as [V F].
  - rewrite A1. lra.
  - rewrite A, A1. apply (small_fits (4 * z) (4 * z)); try lia. rewrite mult_IZR. lra.
  - split; [exact F |]. rewrite V, A, A1. replace (IZR z / 1) with (IZR (4 * z) / 4) by (rewrite mult_IZR; lra). rewrite rnd_quarter by lia. rewrite mult_IZR. lra.
Qed.
Lemma lit_frac : forall p q z, (Z.abs p <= 4)%Z -> (Z.abs q <= 4)%Z -> (Z.abs z <= 4)%Z -> IZR q <> 0 -> IZR p / IZR q = IZR z / 4 ->
  fin (q_frac O p q) /\ val (q_frac O p q) = IZR z / 4.
Proof.
  intros p q z Hp Hq Hz Q E. cbn [Fops q_frac]. destruct (fz_small (prec := prec) (emax := emax) p) as [A B]; [cbn; lia |].
  destruct (fz_small (prec := prec) (emax := emax) q) as [A1 B1]; [cbn; lia |].
  destruct (fdiv_ok (fz p : fl) (fz q) B) as [V F].
  - rewrite A1. exact Q.
  - rewrite A, A1, E. apply (small_fits z z); try lia. lra.
  - split; [exact F |]. rewrite V, A, A1, E. apply rnd_quarter. lia.
Qed.
Lemma lit_half : fin (q_frac O 1 2) /\ val (q_frac O 1 2) = 1 / 2.
Proof. destruct (lit_frac 1 2 2) as [A B]; try (cbn; lia); try lra. split; [exact A | rewrite B; lra]. Qed.
Lemma lit_14 : fin (q_frac O 1 4) /\ val (q_frac O 1 4) = 1 / 4.
Proof. destruct (lit_frac 1 4 1) as [A B]; try (cbn; lia); try lra. split; [exact A | rewrite B; lra]. Qed.
Lemma lit_34 : fin (q_frac O 3 4) /\ val (q_frac O 3 4) = 3 / 4.
Proof. destruct (lit_frac 3 4 3) as [A B]; try (cbn; lia); try lra. split; [exact A | rewrite B; lra]. Qed.

(** The step is below a quarter. *)
Definition slow_step (dt : fl) : Prop := fin dt /\ 0 <= val dt < 1 / 4.

Lemma low_arg : forall t dt : fl, phase_ok t -> slow_step dt -> val t < val dt -> within (-4) 0 (fsub (fdiv t dt) (q_frac O 1 1)).
Proof.
  intros t dt [T1 T2] [D1 D2] L. destruct (lit_int 1) as [F1 V1]; [lia |].
  assert (0 <= val t / val dt <= 1).
  { split; [apply Rmult_le_pos; [lra | apply Rlt_le; apply Rinv_0_lt_compat; lra] |]. apply Rmult_le_reg_r with (val dt); [lra |]. field_simplify; lra. }
  destruct (div_in t dt 0 4) as [[W1 W2] _]; try lia; try assumption; try lra.
  destruct (sub_in (fdiv t dt) (q_frac O 1 1) (-4) 0) as [W _]; try lia; try assumption; rewrite ?V1; lra.
Qed.
Lemma high_arg : forall t dt : fl, phase_ok t -> slow_step dt -> 1 - val dt < val t ->
  within 0 4 (fadd (fdiv (fsub t (q_frac O 1 1)) dt) (q_frac O 1 1)).
Proof.
  intros t dt [T1 T2] [D1 D2] L. destruct (lit_int 1) as [F1 V1]; [lia |].
  destruct (sub_in t (q_frac O 1 1) (-4) 0) as [[W1 W2] W3]; try lia; try assumption; [rewrite V1; lra |]. rewrite V1 in W3.
  assert (L2 : - val dt <= val (fsub t (q_frac O 1 1))).
  { rewrite W3. rewrite <- (rnd_val dt), <- rnd_opp. apply rnd_le. lra. }
  set (u := fsub t (q_frac O 1 1)) in *. clearbody u.
  assert (-1 <= val u / val dt <= 0).
  { split.
    - apply Rmult_le_reg_r with (val dt); [lra |]. unfold Rdiv. rewrite Rmult_assoc, Rinv_l by lra. lra.
    - apply Rmult_le_reg_r with (val dt); [lra |]. unfold Rdiv. rewrite Rmult_assoc, Rinv_l by lra. lra. }
  destruct (div_in u dt (-4) 0) as [[W4 W5] _]; try lia; try assumption; try lra.
  destruct (add_in (fdiv u dt) (q_frac O 1 1) 0 4) as [W _]; try lia; try assumption; rewrite ?V1; lra.
Qed.
Lemma square_in : forall x : fl, fin x -> -1 <= val x <= 1 -> within 0 4 (fmul x x).
Proof. intros x F H. apply mul_in; try lia; try assumption. split; nra. Qed.

(** [1 - dt <? t] in rounded arithmetic *)
Lemma high_test : forall t dt : fl, phase_ok t -> slow_step dt ->
  fin (fsub (q_frac O 1 1) dt) /\ (val (fsub (q_frac O 1 1) dt) < val t -> 1 - val dt < val t) /\ 3 / 4 <= val (fsub (q_frac O 1 1) dt).
Proof.
  intros t dt [T1 T2] [D1 D2]. destruct (lit_int 1) as [F1 V1]; [lia |].
  destruct (sub_in (q_frac O 1 1) dt 3 4) as [[W1 W2] W3]; try lia; try assumption; [rewrite V1; lra |].
  split; [exact W1 |]. split; [| lra]. intros L. rewrite W3, V1 in L. destruct (Rlt_le_dec (1 - val dt) (val t)) as [G | G]; [exact G |].
  pose proof (rnd_le (prec := prec) (emax := emax) _ _ G) as G2. rewrite rnd_val in G2. lra.
Qed.
Definition near_zero (t dt : fl) : Prop := val t < val dt.
Definition near_one (t dt : fl) : Prop := 3 / 4 <= val t /\ 1 - val dt < val t.
Lemma blep_in : forall t dt : fl, phase_ok t -> slow_step dt ->
  fin (blep O t dt) /\
  ((near_zero t dt /\ -1 <= val (blep O t dt) <= 0) \/ (near_one t dt /\ 0 <= val (blep O t dt) <= 1) \/ val (blep O t dt) = 0).
Proof.
  intros t dt T D. destruct (lit_int 0) as [F0 V0]; [lia |]. destruct (high_test t dt T D) as (H1 & H2 & H3).
  unfold blep, square_number. cbn [Fops q_ltb q_sub q_div q_mul q_opp q_add].
  destruct (fltb t dt) eqn:L.
  - apply fltb_true in L; [| apply T | apply D]. destruct (low_arg t dt T D L) as [A B].
    destruct (square_in _ A) as [C E]; [lra |].
    split; [apply fin_fneg; exact C |]. left. split; [exact L |]. rewrite val_fneg. lra.
  - destruct (fltb (fsub (q_frac O 1 1) dt) t) eqn:M.
    + apply fltb_true in M; [| exact H1 | apply T]. assert (N := H2 M).
      destruct (high_arg t dt T D N) as [A B]. destruct (square_in _ A) as [C E]; [lra |].
      split; [exact C |]. right. left. split; [unfold near_one; split; lra |]. lra.
    + split; [exact F0 |]. right. right. exact V0.
Qed.
Lemma third_in : within 0 2 (fdiv (q_frac O 1 1) (q_frac O 3 1)) /\ within (-2) 0 (fdiv (fneg (q_frac O 1 1)) (q_frac O 3 1)).
Proof.
  destruct (lit_int 1) as [F1 V1]; [lia |]. destruct (lit_int 3) as [F3 V3]; [lia |].
  split; apply div_in; try lia; try (apply fin_fneg); try assumption; rewrite ?val_fneg, ?V1, ?V3; lra.
Qed.
Lemma blamp_in : forall t dt : fl, phase_ok t -> slow_step dt ->
  fin (blamp O t dt) /\ 0 <= val (blamp O t dt) <= 1 / 2 /\ (near_zero t dt \/ near_one t dt \/ val (blamp O t dt) = 0).
Proof.
  intros t dt T D. destruct (lit_int 0) as [F0 V0]; [lia |]. destruct (high_test t dt T D) as (H1 & H2 & H3).
  destruct third_in as [[P1 P2] [N1 N2]].
  unfold blamp, square_number. cbn [Fops q_ltb q_sub q_div q_mul q_opp q_add].
  destruct (fltb t dt) eqn:L.
  - apply fltb_true in L; [| apply T | apply D]. destruct (low_arg t dt T D L) as [A B].
    destruct (square_in _ A) as [C E]; [lra |].
    set (u := fsub (fdiv t dt) (q_frac O 1 1)) in *. set (c := fdiv (fneg (q_frac O 1 1)) (q_frac O 3 1)) in *. clearbody u c.
    destruct (mul_in c (fmul u u) (-2) 0) as [[G1 G2] _]; try lia; try assumption; [split; nra |].
    destruct (mul_in (fmul c (fmul u u)) u 0 2) as [[G3 G4] _]; try lia; try assumption; [split; nra |].
    split; [exact G3 |]. split; [lra |]. left. exact L.
  - destruct (fltb (fsub (q_frac O 1 1) dt) t) eqn:M.
    + apply fltb_true in M; [| exact H1 | apply T]. assert (N := H2 M).
      destruct (high_arg t dt T D N) as [A B]. destruct (square_in _ A) as [C E]; [lra |].
      set (u := fadd (fdiv (fsub t (q_frac O 1 1)) dt) (q_frac O 1 1)) in *. set (c := fdiv (q_frac O 1 1) (q_frac O 3 1)) in *. clearbody u c.
      destruct (mul_in c (fmul u u) 0 2) as [[G1 G2] _]; try lia; try assumption; [split; nra |].
      destruct (mul_in (fmul c (fmul u u)) u 0 2) as [[G3 G4] _]; try lia; try assumption; [split; nra |].
      split; [exact G3 |]. split; [lra |]. right. left. unfold near_one. split; lra.
    + split; [exact F0 |]. rewrite V0. split; [lra |]. right. right. reflexivity.
Qed.
(** The middle of the phase is not corrected. *)
Lemma blamp_mid : forall t dt : fl, phase_ok t -> slow_step dt -> 1 / 4 <= val t <= 3 / 4 -> val (blamp O t dt) = 0.
Proof.
  intros t dt T D M. destruct (lit_int 0) as [F0 V0]; [lia |]. destruct (high_test t dt T D) as (H1 & H2 & H3).
  unfold blamp. cbn [Fops q_ltb q_sub].
  destruct (fltb t dt) eqn:L; [apply fltb_true in L; [destruct D; lra | apply T | apply D] |].
  destruct (fltb (fsub (q_frac O 1 1) dt) t) eqn:K; [apply fltb_true in K; [lra | exact H1 | apply T] |]. exact V0.
Qed.

Lemma wrap_add : forall (t : fl) z c, phase_ok t -> fin c -> (0 <= z <= 4)%Z -> val c = IZR z / 4 ->
  phase_ok (wrap O (fadd t c)) /\ val (wrap O (fadd t c)) = rnd (val t + val c) - IZR (Zfloor (rnd (val t + val c))).
Proof.
  intros t z c [T1 T2] C Hz E. assert (H : 0 <= IZR z <= 4) by (split; apply IZR_le; lia).
  destruct (add_in t c 0 8) as [[A B] V]; try lia; try assumption; [lra |].
  destruct (wrap_ok fpi ftau fsin fcos (fadd t c) A) as [P Q]; [lra |]. split; [exact P |]. rewrite Q, V. reflexivity.
Qed.
Lemma floor_0 : forall x, 0 <= x < 1 -> Zfloor x = 0%Z.
Proof. intros. apply Zfloor_imp. cbn. lra. Qed.
Lemma floor_1 : forall x, 1 <= x < 2 -> Zfloor x = 1%Z.
Proof. intros. apply Zfloor_imp. cbn. lra. Qed.

Lemma saw_in : forall t dt : fl, phase_ok t -> slow_step dt -> within (-4) 4 (w_saw O t dt).
Proof.
  intros t dt T D. destruct lit_half as [Fh Vh]. destruct (lit_int 1) as [F1 V1]; [lia |]. destruct (lit_int 2) as [F2 V2]; [lia |].
  unfold w_saw. cbn [q_add Fops]. destruct (wrap_add t 2 (q_frac O 1 2) T Fh) as [P _]; [lia | rewrite Vh; lra |]. set (t1 := wrap O (fadd t (q_frac O 1 2))) in *.
  change (wrap _ _) with t1. clearbody t1. cbn [Fops q_sub q_mul].
  destruct (blep_in t1 dt P D) as [B1 B2]. destruct P as [P1 P2]. destruct D as [D1 D2].
  destruct (mul_in (q_frac O 2 1) t1 0 8) as [[A1 A2] A3]; try lia; try assumption; [rewrite V2; lra |]. rewrite V2 in A3.
  assert (E : val (fmul (q_frac O 2 1) t1) <= 1 / 2 \/ 1 / 2 <= val (fmul (q_frac O 2 1) t1)) by lra.
  destruct (sub_in (fmul (q_frac O 2 1) t1) (q_frac O 1 1) (-4) 4) as [[C1 C2] C3]; try lia; try assumption; [rewrite V1; lra |]. rewrite V1 in C3.
  apply sub_in; try lia; try assumption.
  destruct B2 as [[N B2] | [[N B2] | B2]].
  - unfold near_zero in N. assert (rnd (2 * val t1) <= IZR 2 / 4) by (rewrite <- (rnd_quarter 2) by (cbn; lia); apply rnd_le; lra).
    assert (rnd (val (fmul (q_frac O 2 1) t1) - 1) <= IZR 0 / 4) by (rewrite <- (rnd_quarter 0) by (cbn; lia); apply rnd_le; lra). lra.
  - destruct N as [N _]. assert (IZR 6 / 4 <= rnd (2 * val t1)) by (rewrite <- (rnd_quarter 6) by (cbn; lia); apply rnd_le; lra).
    assert (IZR 0 / 4 <= rnd (val (fmul (q_frac O 2 1) t1) - 1)) by (rewrite <- (rnd_quarter 0) by (cbn; lia); apply rnd_le; lra). lra.
  - lra.
Qed.
Lemma ramp_in : forall t dt : fl, phase_ok t -> slow_step dt -> within (-4) 4 (w_ramp O t dt).
Proof.
  intros t dt T D. destruct (lit_int 1) as [F1 V1]; [lia |]. destruct (lit_int 2) as [F2 V2]; [lia |].
  unfold w_ramp. destruct (wrap_ok fpi ftau fsin fcos t (proj1 T)) as [P _]; [destruct T; lra |].
  set (t1 := wrap O t) in *. change (wrap _ _) with t1. clearbody t1. cbn [Fops q_sub q_mul q_add].
  destruct (blep_in t1 dt P D) as [B1 B2]. destruct P as [P1 P2]. destruct D as [D1 D2].
  destruct (mul_in (q_frac O 2 1) t1 0 8) as [[A1 A2] A3]; try lia; try assumption; [rewrite V2; lra |]. rewrite V2 in A3.
  destruct (sub_in (q_frac O 1 1) (fmul (q_frac O 2 1) t1) (-4) 4) as [[C1 C2] C3]; try lia; try assumption; [rewrite V1; lra |]. rewrite V1 in C3.
  apply add_in; try lia; try assumption.
  destruct B2 as [[N B2] | [[N B2] | B2]].
  - unfold near_zero in N. assert (rnd (2 * val t1) <= IZR 2 / 4) by (rewrite <- (rnd_quarter 2) by (cbn; lia); apply rnd_le; lra).
    assert (IZR 0 / 4 <= rnd (1 - val (fmul (q_frac O 2 1) t1))) by (rewrite <- (rnd_quarter 0) by (cbn; lia); apply rnd_le; lra). lra.
  - destruct N as [N _]. assert (IZR 6 / 4 <= rnd (2 * val t1)) by (rewrite <- (rnd_quarter 6) by (cbn; lia); apply rnd_le; lra).
    assert (rnd (1 - val (fmul (q_frac O 2 1) t1)) <= IZR 0 / 4) by (rewrite <- (rnd_quarter 0) by (cbn; lia); apply rnd_le; lra). lra.
  - lra.
Qed.
(** The square goes to exactly 2 where a phase below one half plus one half is rounded to one, and nowhere else beyond 1. *)
Lemma square_wave : forall t dt : fl, phase_ok t -> slow_step dt ->
  fin (w_sqr O t dt) /\ (Rabs (val (w_sqr O t dt)) <= 1 \/ (val t < 1 / 2 /\ rnd (val t + 1 / 2) = 1 /\ 0 < val dt /\ val (w_sqr O t dt) = 2)).
Proof.
  intros t dt T D. destruct lit_half as [Fh Vh]. destruct (lit_int 1) as [F1 V1]; [lia |].
  destruct (wrap_add t 2 (q_frac O 1 2) T Fh) as [P Q]; [lia | rewrite Vh; lra |]. rewrite Vh in Q.
  unfold w_sqr. cbn [q_add Fops q_ltb q_opp q_sub]. set (t2 := wrap O (fadd t (q_frac O 1 2))) in *.
  change (wrap _ _) with t2. 
  destruct (blep_in t dt T D) as [B1 B2]. destruct (blep_in t2 dt P D) as [G1 G2].
  change (blep _ t dt) with (blep O t dt) in *. change (blep _ t2 dt) with (blep O t2 dt) in *.
  assert (Bd : -1 <= val (blep O t dt) <= 1) by (destruct B2 as [[? ?] | [[? ?] | ?]]; lra).
  assert (Gd : -1 <= val (blep O t2 dt) <= 1) by (destruct G2 as [[? ?] | [[? ?] | ?]]; lra).
  destruct (sub_in (blep O t dt) (blep O t2 dt) (-8) 8) as [[S1 S2] S3]; try lia; try assumption; [lra |].
  destruct T as [T1 T2]. destruct D as [D1 D2].
  destruct (fltb t (q_frac O 1 2)) eqn:L.
  - apply fltb_true in L; [| exact T1 | exact Fh]. rewrite Vh in L.
    assert (Rg : IZR 2 / 4 <= rnd (val t + 1 / 2) <= IZR 4 / 4) by (apply quarters; try lia; lra).
    destruct (Rle_lt_or_eq_dec _ _ (proj2 Rg)) as [Lt | Eq].
    + rewrite floor_0 in Q by lra.
      assert (Ge : 0 <= val (blep O t2 dt)) by (destruct G2 as [[N ?] | [[? ?] | ?]]; try (unfold near_zero in N); lra).
      assert (Le : val (blep O t dt) <= 0) by (destruct B2 as [[? ?] | [[N ?] | ?]]; try (destruct N); lra).
      assert (Sl : rnd (val (blep O t dt) - val (blep O t2 dt)) <= IZR 0 / 4) by (rewrite <- (rnd_quarter 0) by (cbn; lia); apply rnd_le; lra).
      destruct (add_in (q_frac O 1 1) (fsub (blep O t dt) (blep O t2 dt)) (-4) 4) as [[A B] _]; try lia; try assumption; [rewrite V1; lra |].
      split; [exact A |]. left. apply Rabs_le. lra.
    + replace (rnd (val t + 1 / 2)) with 1 in Q by lra. rewrite floor_1 in Q by lra.
      assert (Bz : val (blep O t dt) = 0).
      { (* t + 1/2 is rounded to 1, so t is at least a quarter *)
        assert (1 / 4 <= val t).
        { destruct (Rle_lt_dec (1 / 4) (val t)) as [K | K]; [exact K |].
          assert (rnd (val t + 1 / 2) <= IZR 3 / 4) by (rewrite <- (rnd_quarter 3) by (cbn; lia); apply rnd_le; lra). lra. }
        destruct B2 as [[N ?] | [[N ?] | ?]]; [unfold near_zero in N; lra | destruct N; lra | assumption]. }
      assert (Z2 : val t2 = 0) by lra.
      destruct (Rle_lt_or_eq_dec 0 (val dt)) as [Dp | Dz]; [lra | |].
      * assert (Ez : val (blep O t2 dt) = -1).
        { unfold blep, square_number. cbn [Fops q_ltb q_sub q_div q_mul q_opp].
          rewrite fltb_ok by (exact D1 || apply P). rewrite Z2, Rlt_bool_true by exact Dp.
          assert (Z3 : val t2 / val dt = 0) by (rewrite Z2; unfold Rdiv; ring).
          destruct (div_in t2 dt 0 0) as [[X1 X2] _]; try lia; [apply P | lra | lra |].
          destruct (sub_in (fdiv t2 dt) (q_frac O 1 1) (-4) (-4)) as [[Y1 Y2] _]; try lia; try assumption; [rewrite V1; lra |].
          set (u := fsub (fdiv t2 dt) (q_frac O 1 1)) in *. clearbody u.
          destruct (mul_in u u 4 4) as [[W1 W2] _]; try lia; try assumption; [nra |]. rewrite val_fneg. lra. }
        rewrite Bz, Ez in S3. replace (0 - -1) with (IZR 4 / 4) in S3 by lra. rewrite rnd_quarter in S3 by (cbn; lia).
        destruct (add_in (q_frac O 1 1) (fsub (blep O t dt) (blep O t2 dt)) 8 8) as [[A B] _]; try lia; try assumption; [rewrite V1; lra |].
        split; [exact A |]. right. repeat split; lra.
      * assert (Ez : val (blep O t2 dt) = 0).
        { destruct G2 as [[N ?] | [[N ?] | ?]]; [unfold near_zero in N; lra | destruct N; lra | assumption]. }
        rewrite Bz, Ez in S3. replace (0 - 0) with 0 in S3 by lra. rewrite rnd_0 in S3.
        destruct (add_in (q_frac O 1 1) (fsub (blep O t dt) (blep O t2 dt)) 4 4) as [[A B] _]; try lia; try assumption; [rewrite V1; lra |].
        split; [exact A |]. left. apply Rabs_le. lra.
  - apply fltb_false in L; [| exact T1 | exact Fh]. rewrite Vh in L.
    assert (Rg : IZR 4 / 4 <= rnd (val t + 1 / 2) <= IZR 6 / 4) by (apply quarters; try lia; lra).
    rewrite floor_1 in Q by lra.
    assert (Ge : val (blep O t2 dt) <= 0) by (destruct G2 as [[? ?] | [[N ?] | ?]]; try (destruct N); lra).
    assert (Le : 0 <= val (blep O t dt)) by (destruct B2 as [[N ?] | [[? ?] | ?]]; try (unfold near_zero in N); lra).
    assert (Sl : IZR 0 / 4 <= rnd (val (blep O t dt) - val (blep O t2 dt))) by (rewrite <- (rnd_quarter 0) by (cbn; lia); apply rnd_le; lra).
    destruct (add_in (fneg (q_frac O 1 1)) (fsub (blep O t dt) (blep O t2 dt)) (-4) 4) as [[A B] _]; try lia; try assumption; [apply fin_fneg; exact F1 | rewrite val_fneg, V1; lra |].
    split; [exact A |]. left. apply Rabs_le. lra.
Qed.
Lemma tri_in : forall t dt : fl, phase_ok t -> slow_step dt -> within (-4) 4 (w_tri O t dt).
Proof.
  intros t dt T D. destruct lit_14 as [Fq Vq]. destruct lit_34 as [Ft Vt].
  destruct (lit_int 1) as [F1 V1]; [lia |]. destruct (lit_int 2) as [F2 V2]; [lia |]. destruct (lit_int 3) as [F3 V3]; [lia |]. destruct (lit_int 4) as [F4 V4]; [lia |].
  destruct (wrap_add t 1 (q_frac O 1 4) T Fq) as [P1 Q1]; [lia | rewrite Vq; lra |]. rewrite Vq in Q1.
  destruct (wrap_add t 3 (q_frac O 3 4) T Ft) as [P2 Q2]; [lia | rewrite Vt; lra |]. rewrite Vt in Q2.
  unfold w_tri, fold_tri. cbn [q_add Fops q_ltb q_leb q_opp q_sub q_mul].
  
  
  set (t1 := wrap O (fadd t (q_frac O 1 4))) in *. set (t2 := wrap O (fadd t (q_frac O 3 4))) in *.
  change (blamp _ t1 dt) with (blamp O t1 dt). change (blamp _ t2 dt) with (blamp O t2 dt).
  destruct (blamp_in t1 dt P1 D) as (B1 & B2 & _). destruct (blamp_in t2 dt P2 D) as (G1 & G2 & _).
  destruct (mul_in t (q_frac O 4 1) 0 16) as [[Y1 Y2] Y3]; try lia; [apply T | exact F4 | rewrite V4; destruct T; lra |]. rewrite V4 in Y3.
  destruct (mul_in (q_frac O 4 1) dt 0 4) as [[M1 M2] _]; try lia; [exact F4 | apply D | rewrite V4; destruct D; lra |].
  destruct (sub_in (blamp O t1 dt) (blamp O t2 dt) (-2) 2) as [[S1 S2] S3]; try lia; try assumption; [lra |].
  set (c := fmul (q_frac O 4 1) dt) in *. set (d := fsub (blamp O t1 dt) (blamp O t2 dt)) in *.
  destruct (mul_in c d (-4) 4) as [[C1 C2] C3]; try lia; try assumption; [split; nra |].
  set (y4 := fmul t (q_frac O 4 1)) in *.
  set (y := if fleb (q_frac O 3 1) y4 then fsub y4 (q_frac O 4 1) else if fltb (q_frac O 1 1) y4 then fsub (q_frac O 2 1) y4 else y4).
  assert (Yin : fin y /\ -1 <= val y <= 1 /\ (val t <= 1 / 2 -> 0 <= val y) /\ (1 / 2 <= val t -> val y <= 0)).
  { assert (Lo : val t <= 1 / 2 -> val y4 <= IZR 8 / 4) by (intros; rewrite Y3, <- (rnd_quarter 8) by (cbn; lia); apply rnd_le; lra).
    assert (Hi : 1 / 2 <= val t -> IZR 8 / 4 <= val y4) by (intros; rewrite Y3, <- (rnd_quarter 8) by (cbn; lia); apply rnd_le; lra).
    unfold y. destruct (fleb (q_frac O 3 1) y4) eqn:E1.
    - apply fleb_true in E1; [| exact F3 | exact Y1]. rewrite V3 in E1.
      destruct (sub_in y4 (q_frac O 4 1) (-4) 0) as [[A B] _]; try lia; try assumption; [rewrite V4; lra |].
      split; [exact A |]. split; [lra |]. split; [intros K; specialize (Lo K); lra | intros; lra].
    - apply fleb_false in E1; [| exact F3 | exact Y1]. rewrite V3 in E1.
      destruct (fltb (q_frac O 1 1) y4) eqn:E2.
      + apply fltb_true in E2; [| exact F1 | exact Y1]. rewrite V1 in E2.
        destruct (sub_in (q_frac O 2 1) y4 (-4) 4) as [[A B] V]; try lia; try assumption; [rewrite V2; lra |]. rewrite V2 in V.
        split; [exact A |]. split; [lra |]. split; intros K; rewrite V.
        * specialize (Lo K). rewrite <- (@rnd_0 prec emax). apply rnd_le. lra.
        * specialize (Hi K). rewrite <- (@rnd_0 prec emax). apply rnd_le. lra.
      + apply fltb_false in E2; [| exact F1 | exact Y1]. rewrite V1 in E2.
        split; [exact Y1 |]. split; [lra |]. split; [intros; lra | intros K; specialize (Hi K); lra]. }
  destruct Yin as (Y4 & Y5 & Y6 & Y7). apply add_in; try lia; try assumption.
  change (fmul c d) with (fmul c d) in *. destruct T as [T1 T2].
  destruct (Rle_lt_dec (val t) (1 / 2)) as [K | K].
  - (* the first correction is zero *)
    assert (Rg : IZR 1 / 4 <= rnd (val t + 1 / 4) <= IZR 3 / 4) by (apply quarters; try lia; lra).
    rewrite floor_0 in Q1 by lra. assert (Z : val (blamp O t1 dt) = 0) by (apply blamp_mid; try assumption; lra).
    assert (Sn : val d <= 0) by (rewrite S3, Z; apply rnd_neg; lra).
    assert (Cn : val (fmul c d) <= 0) by (rewrite C3; apply rnd_neg; nra).
    specialize (Y6 K). lra.
  - assert (Rg : IZR 5 / 4 <= rnd (val t + 3 / 4) <= IZR 7 / 4) by (apply quarters; try lia; lra).
    rewrite floor_1 in Q2 by lra. assert (Z : val (blamp O t2 dt) = 0) by (apply blamp_mid; try assumption; lra).
    assert (Sn : 0 <= val d) by (rewrite S3, Z; apply rnd_pos; lra).
    assert (Cn : 0 <= val (fmul c d)) by (rewrite C3; apply rnd_pos; nra).
    specialize (Y7 (Rlt_le _ _ K)). lra.
Qed.

(** The test against a quarter of the sample rate: below it the step is below a quarter. *)
Lemma sign_pos : forall x : fl, 0 < val x -> Bsign x = false.
Proof.
  intros x H. destruct x as [s | s | | s m e B]; cbn in *; try lra. destruct s; [| reflexivity]. exfalso.
  unfold val in H. cbn in H. assert (F2R (Float radix2 (Z.neg m) e) < 0) by (apply F2R_lt_0; reflexivity). lra.
Qed.
Lemma test_slow : forall s : poly fl, poly_ok s -> fleb (fdiv (p_sr s) (q_frac O 4 1)) (get_freq_in_hz O s) = false -> slow_step (p_dt s).
Proof.
  intros s (_ & (S1 & S2) & (D1 & D2) & _) H. split; [exact D1 |]. split; [lra |].
  destruct (Rlt_le_dec (val (p_dt s)) (1 / 4)) as [L | L]; [exact L | exfalso].
  destruct (lit_int 4) as [F4 V4]; [lia |].
  assert (Q : fin (fdiv (p_sr s) (q_frac O 4 1)) /\ val (fdiv (p_sr s) (q_frac O 4 1)) = rnd (val (p_sr s) / 4)).
  { destruct (fdiv_ok (p_sr s) (q_frac O 4 1) S1) as [A B]; [rewrite V4; lra | |].
    - rewrite V4. apply Rle_lt_trans with (Rabs (val (p_sr s))); [| apply val_top].
      rewrite !Rabs_pos_eq; [| lra | apply rnd_pos; lra]. rewrite <- (rnd_val (p_sr s)) at 2. apply rnd_le. lra.
    - rewrite V4 in A. split; assumption. }
  destruct Q as [Q1 Q2]. set (q := fdiv (p_sr s) (q_frac O 4 1)) in *. clearbody q. unfold get_freq_in_hz in H. cbn [Fops q_mul] in H.
  destruct (Rlt_le_dec (Rabs (rnd (val (p_dt s) * val (p_sr s)))) (top (emax := emax))) as [K | K].
  - destruct (fmul_ok (p_dt s) (p_sr s) D1 S1 K) as [A B]. apply fleb_false in H; [| exact Q1 | exact B]. rewrite A, Q2 in H.
    assert (rnd (val (p_sr s) / 4) <= rnd (val (p_dt s) * val (p_sr s))) by (apply rnd_le; nra). lra.
  - pose proof (Bmult_correct prec emax _ _ mode_NE (p_dt s) (p_sr s)) as C.
    change (round radix2 (SpecFloat.fexp prec emax) (round_mode mode_NE) (B2R (p_dt s) * B2R (p_sr s))) with (rnd (val (p_dt s) * val (p_sr s))) in C.
    rewrite Rlt_bool_false in C by exact K. rewrite !sign_pos in C by lra.
    unfold fleb, Bleb, fmul in H. rewrite C in H.
    destruct q as [z | z | | z m e Bd]; [| cbn in Q1; discriminate Q1 | cbn in Q1; discriminate Q1 |]; destruct z; discriminate H.
Qed.
Hypotheses (Hs : sane fsin) (Hc : sane fcos) (Ht : sane_tau ftau).
Lemma angle_fin : forall t : fl, phase_ok t -> fin (fmul t ftau).
Proof. intros t [T1 T2]. destruct Ht as [A B]. destruct (mul_in t ftau 0 32) as [[C _] _]; try lia; try assumption. split; nra. Qed.
Lemma within_unit : forall x : fl, within (-4) 4 x -> in_unit x.
Proof. intros x [A B]. split; [exact A |]. apply Rabs_le. lra. Qed.
Lemma plain_in : forall s : poly fl, poly_ok s -> In (p_wave s) plain -> in_unit (next_sample O s).
Proof.
  intros s H W. assert (T : phase_ok (p_t s)) by apply H. unfold next_sample. cbn [Fops q_leb q_div].
  destruct (fleb (fdiv (p_sr s) (q_frac O 4 1)) (get_freq_in_hz O s)) eqn:E.
  - apply (Hs _ (angle_fin _ T)).
  - pose proof (test_slow s H E) as D. cbn [plain In] in W.
    destruct (p_wave s); try (exfalso; repeat (destruct W as [W | W]; [discriminate W |]); exact W).
    + apply within_unit. apply saw_in; assumption.
    + apply (Hs _ (angle_fin _ T)).
    + apply (Hc _ (angle_fin _ T)).
    + apply within_unit. apply tri_in; assumption.
    + apply within_unit. apply ramp_in; assumption.
Qed.
Lemma square_out : forall s : poly fl, poly_ok s -> p_wave s = Square ->
  in_unit (next_sample O s) \/
  (val (p_t s) < 1 / 2 /\ rnd (val (p_t s) + 1 / 2) = 1 /\ fin (next_sample O s) /\ val (next_sample O s) = 2).
Proof.
  intros s H W. assert (T : phase_ok (p_t s)) by apply H. unfold next_sample. cbn [Fops q_leb q_div].
  destruct (fleb (fdiv (p_sr s) (q_frac O 4 1)) (get_freq_in_hz O s)) eqn:E.
  - left. apply (Hs _ (angle_fin _ T)).
  - pose proof (test_slow s H E) as D. rewrite W. destruct (square_wave (p_t s) (p_dt s) T D) as [A [B | (B1 & B2 & _ & B3)]].
    + left. split; assumption.
    + right. repeat split; assumption.
Qed.
End Range.
