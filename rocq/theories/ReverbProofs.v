From Coq Require Import Reals Lra Lia.
From Flocq Require Import Core.
From Verif Require Import Base DelayModel RngModel ReverbModel ReverbSpec.
Local Open Scope R_scope.

Lemma bind_some : forall {A B} (m : option A) (f : A -> option B) y, (x <- m;; f x) = Some y -> exists x, m = Some x /\ f x = Some y.
Proof. intros A B [x |] f y H; [| discriminate]. exists x. split; [reflexivity | exact H]. Qed.
Lemma pairs_length : forall {A B} (P : A -> B -> Prop) l m, Forall2 P l m -> length l = length m.
Proof. intros A B P l m H. induction H; cbn; congruence. Qed.
Lemma total_app : forall a b, total (a ++ b) = total a + total b.
Proof. induction a as [| x a IH]; intros b; cbn [total app]; [ring |]. rewrite IH. ring. Qed.
Lemma squares_pos : forall l, 0 <= squares l.
Proof. unfold squares. induction l as [| x l IH]; cbn [total map]; [lra |]. pose proof (Rle_0_sqr x). unfold Rsqr in H. lra. Qed.
Lemma squares_nth : forall l i, nth i l 0 * nth i l 0 <= squares l.
Proof.
  induction l as [| x l IH]; intros i.
  - destruct i; cbn; lra.
  - unfold squares. cbn [total map]. fold (squares l). destruct i as [| i]; cbn [nth].
    + pose proof (squares_pos l). lra.
    + pose proof (IH i). pose proof (Rle_0_sqr x). unfold Rsqr in H0. lra.
Qed.
Lemma squares_set : forall l i x l', set_nth l i x = Some l' -> squares l' = squares l - nth i l 0 * nth i l 0 + x * x.
Proof.
  unfold squares. induction l as [| h t IH]; intros i x l' H; [destruct i; discriminate H |]. destruct i as [| i]; cbn [set_nth] in H.
  - injection H as <-. cbn. ring.
  - destruct (set_nth t i x) as [t' |] eqn:E; [| discriminate]. injection H as <-. cbn [total map nth]. rewrite (IH _ _ _ E). ring.
Qed.
(** * Mixing *)
Lemma four : forall {A} (l : list A), length l = 4%nat -> exists a b c d, l = [a; b; c; d].
Proof. intros A [| a [| b [| c [| d [| e l]]]]] H; try discriminate H. exists a, b, c, d. reflexivity. Qed.
Lemma mixed_length : forall v, length (mixed v) = 4%nat. Proof. reflexivity. Qed.
Lemma mixed_energy : forall v, length v = 4%nat -> squares (mixed v) = 4 * squares v.
Proof. intros v H. destruct (four v H) as (a & b & c & d & ->). unfold squares, mixed, mix. cbn [map]. simpl. ring. Qed.

(** * Energy *)
Lemma held_pos : forall l, 0 <= held l.
Proof. intros l. unfold held. pose proof (squares_nth (ss_buf l) (ss_pos l)). lra. Qed.
Lemma held_step : forall x l l' y, ssd_write x l = Some l' -> ssd_read l' = Some y -> held l' = held l + x * x - y * y.
Proof.
  intros x l l' y H R. unfold ssd_write in H. apply bind_some in H as (buf & E & H). apply bind_some in H as (p & _ & H). injection H as <-.
  unfold ssd_read in R. cbn in R. unfold held. cbn [ss_buf ss_pos]. rewrite (nth_error_nth _ _ 0 R), (squares_set _ _ _ _ E). ring.
Qed.
Lemma stage_held : forall xs ls ls' ys, length xs = length ls -> write_all xs ls = Some ls' -> each ssd_read ls' = Some ys ->
  total (map held ls') = total (map held ls) + squares xs - squares ys /\ length ys = length ls.
Proof.
  unfold squares. induction xs as [| x xs IH]; intros ls ls' ys L W R; destruct ls as [| l ls]; try discriminate L.
  - injection W as <-. injection R as <-. cbn. split; [ring | reflexivity].
  - cbn [write_all] in W. apply bind_some in W as (l' & W1 & W). apply bind_some in W as (r & W2 & W). injection W as <-.
    cbn [each] in R. apply bind_some in R as (y & R1 & R). apply bind_some in R as (s & R2 & R). injection R as <-.
    destruct (IH _ _ _ (eq_add_S _ _ L) W2 R2) as [E1 E2]. cbn [map total length]. rewrite E1, E2, (held_step _ _ _ _ W1 R1). split; [ring | reflexivity].
Qed.
Lemma write_length : forall xs ls ls', length xs = length ls -> write_all xs ls = Some ls' -> length ls' = length ls.
Proof.
  induction xs as [| x xs IH]; intros ls ls' L W; destruct ls as [| l ls]; try discriminate L; [injection W as <-; reflexivity |].
  cbn [write_all] in W. apply bind_some in W as (l' & W1 & W). apply bind_some in W as (r & W2 & W). injection W as <-. cbn. rewrite (IH _ _ (eq_add_S _ _ L) W2). reflexivity.
Qed.
Lemma side_held : forall ins s s' z, fours s -> length ins = 4%nat -> side_frame ins s = Some (s', z) ->
  side_energy s' = side_energy s + squares ins - squares z / 16 /\ fours s' /\ length z = 4%nat.
Proof.
  intros ins s s' z (L0 & L1 & L2) LI H. unfold side_frame in H.
  apply bind_some in H as (a & A & H). apply bind_some in H as (x & X & H). apply bind_some in H as (b & B & H). apply bind_some in H as (y & Y & H).
  apply bind_some in H as (c & C & H). apply bind_some in H as (z' & Z & H). injection H as <- <-.
  destruct (stage_held _ _ _ _ (eq_trans LI (eq_sym L0)) A X) as [E1 N1]. rewrite L0 in N1.
  destruct (stage_held (mixed x) _ _ _ (eq_sym L1) B Y) as [E2 N2]. rewrite L1 in N2. rewrite (mixed_energy _ N1) in E2.
  destruct (stage_held (mixed y) _ _ _ (eq_sym L2) C Z) as [E3 N3]. rewrite L2 in N3. rewrite (mixed_energy _ N2) in E3.
  unfold side_energy, fours. cbn [stage0 stage1 stage2]. rewrite E1, E2, E3. split; [field |]. split; [| exact N3].
  rewrite (write_length _ _ _ (eq_trans LI (eq_sym L0)) A), (write_length (mixed x) _ _ (eq_sym L1) B), (write_length (mixed y) _ _ (eq_sym L2) C).
  repeat split; assumption.
Qed.
Lemma squares_scaled : forall g l, squares (map (fun f => f * g + 0) l) = g * g * squares l.
Proof. intros g l. unfold squares. induction l as [| x l IH]; cbn [map total]; [ring |]. rewrite IH. ring. Qed.
Lemma sum_squares : forall z, length z = 4%nat -> fold_left Rplus z 0 * / 8 * (fold_left Rplus z 0 * / 8) <= squares z / 16.
Proof.
  intros z H. destruct (four z H) as (a & b & c & d & ->). unfold squares. cbn [fold_left map total].
  pose proof (Rle_0_sqr (a - b)). pose proof (Rle_0_sqr (a - c)). pose proof (Rle_0_sqr (a - d)). pose proof (Rle_0_sqr (b - c)). pose proof (Rle_0_sqr (b - d)). pose proof (Rle_0_sqr (c - d)).
  unfold Rsqr in *. nra.
Qed.
Lemma tank_held : forall g t t' o, tank_fours t -> 0 <= g <= / 8 -> tank_frame g 0 0 t = Some (t', o) ->
  tank_fours t' /\ energy t' <= energy t /\ fst o * fst o + snd o * snd o <= energy t'.
Proof.
  intros g t t' o (FL & FR & L0 & L1) Hg H. unfold tank_frame in H. apply bind_some in H as ([l zl] & A & H). apply bind_some in H as ([r zr] & B & H). injection H as <- <-.
  destruct (side_held _ _ _ _ FL ltac:(rewrite map_length; exact L1) A) as (E1 & F1 & N1). destruct (side_held _ _ _ _ FR ltac:(rewrite map_length; exact L0) B) as (E2 & F2 & N2).
  rewrite squares_scaled in E1, E2. cbn [fst snd]. split; [split; [exact F1 |]; split; [exact F2 |]; split; reflexivity |].
  unfold energy. cbn [t_left t_right t_fb0 t_fb1]. rewrite (mixed_energy _ N1), (mixed_energy _ N2), E1, E2.
  pose proof (squares_pos (t_fb0 t)). pose proof (squares_pos (t_fb1 t)). assert (G : g * g <= / 64) by nra.
  assert (G0 : g * g * squares (t_fb0 t) <= / 64 * squares (t_fb0 t)) by (apply Rmult_le_compat_r; assumption).
  assert (G1 : g * g * squares (t_fb1 t) <= / 64 * squares (t_fb1 t)) by (apply Rmult_le_compat_r; assumption).
  split; [lra |]. pose proof (sum_squares _ N1) as S1. pose proof (sum_squares _ N2) as S2.
  assert (P1 : 0 <= side_energy l /\ 0 <= side_energy r).
  { assert (Q : forall ls, 0 <= total (map held ls)) by (induction ls as [| h q IH]; cbn [map total]; [lra | pose proof (held_pos h); lra]).
    unfold side_energy. split; match goal with |- 0 <= total (map held ?a) + total (map held ?b) / 4 + total (map held ?c) / 16 => pose proof (Q a); pose proof (Q b); pose proof (Q c) end; lra. }
  rewrite E1, E2 in P1. lra.
Qed.

(** * Lines with a fixed length *)
Fixpoint sumn (n : nat) (f : nat -> R) : R := match n with O => 0 | S m => sumn m f + f m end.
Lemma sumn_ext : forall n f g, (forall k, (k < n)%nat -> f k = g k) -> sumn n f = sumn n g.
Proof. induction n as [| n IH]; intros f g H; cbn [sumn]; [reflexivity |]. rewrite (IH f g), (H n) by (intros; try apply H; lia). reflexivity. Qed.
Lemma sumn_shift : forall n f, sumn (S n) f = f O + sumn n (fun k => f (S k)).
Proof. induction n as [| n IH]; intros f; [cbn; ring |]. change (sumn (S (S n)) f) with (sumn (S n) f + f (S n)). rewrite IH. cbn [sumn]. ring. Qed.
Lemma sumn_scale : forall n a f, a * sumn n f = sumn n (fun k => a * f k).
Proof. induction n as [| n IH]; intros a f; cbn [sumn]; [ring |]. rewrite <- IH. ring. Qed.
Lemma sumn_pos : forall n f, (forall k, 0 <= f k) -> 0 <= sumn n f.
Proof. induction n as [| n IH]; intros f H; cbn [sumn]; [lra |]. pose proof (IH f H). pose proof (H n). lra. Qed.

Section Decay.
Variable rho : R.
Hypothesis Hr : 1 < rho.
(** the [k]-th sample to come out *)
Definition cell (l : ssd R) (k : nat) : R := nth ((ss_pos l + k) mod ss_len l) (ss_buf l) 0.
Definition wsum (l : ssd R) : R := sumn (ss_len l - 1) (fun k => rho ^ k * (cell l (S k) * cell l (S k))).
(** younger samples count more *)
Definition en (l : ssd R) : R := wsum l / rho ^ (ss_len l - 1).
Lemma pow_pos : forall n, 0 < rho ^ n. Proof using Hr. intros. apply pow_lt. lra. Qed.
Lemma en_pos : forall l, 0 <= en l.
Proof using Hr.
  intros l. unfold en, wsum. apply Rmult_le_pos; [| left; apply Rinv_0_lt_compat, pow_pos]. apply sumn_pos. intros k. apply Rmult_le_pos; [left; apply pow_pos |].
  pose proof (Rle_0_sqr (cell l (S k))). exact H.
Qed.
Lemma line_step : forall x l, line_ok l -> exists l' y, ssd_write x l = Some l' /\ ssd_read l' = Some y /\ line_ok l' /\
  ss_len l' = ss_len l /\ length (ss_buf l') = length (ss_buf l) /\ rho * en l' = en l - y * y / rho ^ (ss_len l - 1) + x * x.
Proof using Hr.
  intros x l [[H0 H1] H2]. destruct (set_nth_some (ss_buf l) (ss_pos l) x ltac:(lia)) as [buf E]. pose proof (set_nth_length _ _ _ _ E) as LB.
  set (L := ss_len l) in *. set (p := ss_pos l) in *. assert (p' : ((p + 1) mod L < L)%nat) by (apply Nat.mod_upper_bound; lia).
  destruct (nth_error buf ((p + 1) mod L)) as [y |] eqn:Y; [| apply nth_error_None in Y; lia].
  exists (mk_ssd buf ((p + 1) mod L) L), y.
  assert (W : ssd_write x l = Some (mk_ssd buf ((p + 1) mod L) L)).
  { unfold ssd_write. fold p. rewrite E. unfold DelayModel.rem. fold L. destruct (Nat.eqb_spec L 0) as [Z | _]; [lia |]. reflexivity. }
  split; [exact W |]. split; [exact Y |]. split; [split; cbn; lia |]. split; [reflexivity |]. split; [exact LB |].
  set (l' := mk_ssd buf ((p + 1) mod L) L).
  assert (C : forall k, (k < L)%nat -> cell l' k = if (S k =? L)%nat then x else cell l (S k)).
  { intros k Hk. unfold cell. cbn [ss_pos ss_len ss_buf l']. fold L p. rewrite Nat.add_mod_idemp_l by lia. replace (p + 1 + k)%nat with (p + S k)%nat by lia.
    destruct (Nat.eqb_spec (S k) L) as [-> | N].
    - replace ((p + L) mod L)%nat with p; [apply nth_error_nth; eapply set_nth_same; exact E |].
      rewrite <- (Nat.mul_1_l L) at 1. rewrite Nat.mod_add by lia. symmetry. apply Nat.mod_small. exact H2.
    - assert (D : ((p + S k) mod L)%nat <> p).
      { destruct (Nat.lt_ge_cases (p + S k) L) as [Q | Q]; [rewrite Nat.mod_small by exact Q; lia |].
        replace (p + S k)%nat with ((p + S k - L) + 1 * L)%nat by lia. rewrite Nat.mod_add by lia. rewrite Nat.mod_small by lia. lia. }
      assert (O : nth_error buf ((p + S k) mod L) = nth_error (ss_buf l) ((p + S k) mod L)) by (eapply set_nth_other; [exact E | congruence]).
      destruct (nth_error buf ((p + S k) mod L)) as [v |] eqn:Q.
      + rewrite (nth_error_nth _ _ 0 Q), (nth_error_nth _ _ 0 (eq_sym O)). reflexivity.
      + assert ((p + S k) mod L < L)%nat by (apply Nat.mod_upper_bound; lia). apply nth_error_None in Q. lia. }
  assert (Y0 : y = cell l' 0).
  { unfold cell. cbn [ss_pos ss_len ss_buf l']. rewrite Nat.add_0_r, Nat.mod_mod by lia. symmetry. apply nth_error_nth. exact Y. }
  pose proof (pow_pos (L - 1)) as Pm. unfold en. change (ss_len l') with L. fold L.
  assert (G : rho * wsum l' = wsum l - y * y + rho ^ (L - 1) * (x * x)); [| replace (rho * (wsum l' / rho ^ (L - 1))) with (rho * wsum l' / rho ^ (L - 1)) by (field; lra); rewrite G; field; lra].
  unfold wsum. change (ss_len l') with L. fold L. rewrite sumn_scale.
  pose proof (sumn_shift (L - 1) (fun k => rho ^ k * (cell l' k * cell l' k))) as S. cbn [sumn] in S. rewrite <- Y0 in S. rewrite pow_O, Rmult_1_l in S.
  rewrite (C (L - 1)%nat) in S by lia. replace (Datatypes.S (L - 1) =? L)%nat with true in S by (symmetry; apply Nat.eqb_eq; lia).
  assert (S1 : sumn (L - 1) (fun k => rho ^ k * (cell l' k * cell l' k)) = sumn (L - 1) (fun k => rho ^ k * (cell l (Datatypes.S k) * cell l (Datatypes.S k)))).
  { apply sumn_ext. intros k Hk. rewrite C by lia. replace (Datatypes.S k =? L)%nat with false by (symmetry; apply Nat.eqb_neq; lia). reflexivity. }
  rewrite S1 in S. rewrite (sumn_ext (L - 1) (fun k => rho * _) (fun k => rho ^ Datatypes.S k * (cell l' (Datatypes.S k) * cell l' (Datatypes.S k)))) by (intros; cbn [pow]; ring). lra.
Qed.
Variable M : nat.
Definition short (l : ssd R) : Prop := line_ok l /\ (ss_len l <= M + 1)%nat.
Definition kappa : R := / rho ^ M.
Lemma kappa_pos : 0 < kappa. Proof using Hr. apply Rinv_0_lt_compat, pow_pos. Qed.
Lemma kappa_le : kappa <= 1.
Proof using Hr. unfold kappa. rewrite <- Rinv_1. apply Rinv_le; [lra |]. apply pow_R1_Rle. lra. Qed.
Definition kept (l l' : ssd R) : Prop := ss_len l' = ss_len l /\ length (ss_buf l') = length (ss_buf l).
Lemma stage_step : forall xs ls, length xs = length ls -> Forall short ls -> exists ls' ys, write_all xs ls = Some ls' /\ each ssd_read ls' = Some ys /\
  Forall short ls' /\ Forall2 kept ls ls' /\ length ys = length ls /\ rho * total (map en ls') <= total (map en ls) - kappa * squares ys + squares xs.
Proof using Hr.
  unfold squares. induction xs as [| x xs IH]; intros ls L F; destruct ls as [| l ls]; try discriminate L.
  - exists [], []. split; [reflexivity |]. split; [reflexivity |]. split; [constructor |]. split; [constructor |]. split; [reflexivity |]. cbn. lra.
  - inversion F as [| ? ? [F1 F1'] F2]; subst. destruct (line_step x l F1) as (l' & y & W & R & O & E1 & E2 & E3).
    destruct (IH ls (eq_add_S _ _ L) F2) as (ls' & ys & W' & R' & O' & K' & N' & E'). exists (l' :: ls'), (y :: ys).
    cbn [write_all each]. rewrite W, W'. cbn. rewrite R. cbn. rewrite R'. split; [reflexivity |]. split; [reflexivity |].
    split; [constructor; [split; [exact O | rewrite E1; exact F1'] | exact O'] |]. split; [constructor; [split; assumption | exact K'] |]. split; [congruence |].
    cbn [map total]. assert (K : kappa * (y * y) <= y * y / rho ^ (ss_len l - 1)).
    { rewrite Rmult_comm. apply Rmult_le_compat_l; [pose proof (Rle_0_sqr y); exact H |]. unfold kappa. apply Rinv_le; [apply pow_pos |]. apply Rle_pow; [lra | lia]. }
    lra.
Qed.
Definition side_short (s : side) : Prop := fours s /\ Forall short (stage0 s) /\ Forall short (stage1 s) /\ Forall short (stage2 s).
Definition side_kept (s s' : side) : Prop := Forall2 kept (stage0 s) (stage0 s') /\ Forall2 kept (stage1 s) (stage1 s') /\ Forall2 kept (stage2 s) (stage2 s').
Definition side_en (s : side) : R := total (map en (stage0 s)) + kappa / 4 * total (map en (stage1 s)) + kappa * kappa / 16 * total (map en (stage2 s)).
Lemma side_step : forall ins s, side_short s -> length ins = 4%nat -> exists s' z, side_frame ins s = Some (s', z) /\ side_short s' /\ side_kept s s' /\ length z = 4%nat /\
  rho * side_en s' <= side_en s + squares ins - kappa * kappa * kappa / 16 * squares z.
Proof using Hr.
  intros ins s ((L0 & L1 & L2) & F0 & F1 & F2) LI.
  destruct (stage_step ins (stage0 s) (eq_trans LI (eq_sym L0)) F0) as (a & x & A1 & A2 & A3 & A4 & A5 & A6). rewrite L0 in A5.
  destruct (stage_step (mixed x) (stage1 s) (eq_sym L1) F1) as (b & y & B1 & B2 & B3 & B4 & B5 & B6). rewrite L1 in B5. rewrite (mixed_energy _ A5) in B6.
  destruct (stage_step (mixed y) (stage2 s) (eq_sym L2) F2) as (c & z & C1 & C2 & C3 & C4 & C5 & C6). rewrite L2 in C5. rewrite (mixed_energy _ B5) in C6.
  exists (mk_side a b c), z. unfold side_frame. rewrite A1. cbn [bind]. rewrite A2. cbn [bind]. rewrite B1. cbn [bind]. rewrite B2. cbn [bind]. rewrite C1. cbn [bind]. rewrite C2. split; [reflexivity |].
  split; [| split; [| split; [exact C5 |]]].
  - split; [| repeat split; assumption]. unfold fours. cbn [stage0 stage1 stage2].
    rewrite <- (pairs_length _ _ _ A4), <- (pairs_length _ _ _ B4), <- (pairs_length _ _ _ C4). repeat split; assumption.
  - split; [exact A4 |]. split; [exact B4 | exact C4].
  - unfold side_en. cbn [stage0 stage1 stage2]. pose proof kappa_pos as K0.
    assert (B7 : kappa / 4 * (rho * total (map en b)) <= kappa / 4 * (total (map en (stage1 s)) - kappa * squares y + 4 * squares x)) by (apply Rmult_le_compat_l; lra).
    assert (C7 : kappa * kappa / 16 * (rho * total (map en c)) <= kappa * kappa / 16 * (total (map en (stage2 s)) - kappa * squares z + 4 * squares y)).
    { apply Rmult_le_compat_l; [| exact C6]. assert (0 <= kappa * kappa) by (apply Rmult_le_pos; lra). lra. }
    lra.
Qed.
Definition tank_short (t : tank) : Prop := side_short (t_left t) /\ side_short (t_right t) /\ length (t_fb0 t) = 4%nat /\ length (t_fb1 t) = 4%nat.
Definition level (t : tank) : R := rho * (side_en (t_left t) + side_en (t_right t)) + kappa * kappa * kappa / 64 * (squares (t_fb0 t) + squares (t_fb1 t)).
Lemma side_en_pos : forall s, 0 <= side_en s.
Proof using Hr.
  intros s. assert (Q : forall ls, 0 <= total (map en ls)) by (induction ls as [| h q IH]; cbn [map total]; [lra | pose proof (en_pos h); lra]).
  pose proof kappa_pos as K0. unfold side_en. pose proof (Q (stage0 s)). assert (0 <= kappa / 4 * total (map en (stage1 s))) by (apply Rmult_le_pos; [lra | apply Q]).
  assert (0 <= kappa * kappa / 16 * total (map en (stage2 s))) by (apply Rmult_le_pos; [assert (0 <= kappa * kappa) by (apply Rmult_le_pos; lra); lra | apply Q]). lra.
Qed.
Lemma squares_fed : forall g u l, length l = 4%nat -> squares (map (fun f => f * g + u) l) <= rho * (g * g) * squares l + 4 * (rho / (rho - 1)) * (u * u).
Proof using Hr.
  intros g u l H. assert (P : forall f, (f * g + u) * (f * g + u) <= rho * (g * g) * (f * f) + rho / (rho - 1) * (u * u)).
  { intros f. set (a := f * g). replace (rho * (g * g) * (f * f)) with (rho * (a * a)) by (unfold a; ring).
    assert (Q : rho * (a * a) + rho / (rho - 1) * (u * u) - (a + u) * (a + u) = (/ (rho - 1)) * (((rho - 1) * a - u) * ((rho - 1) * a - u))) by (field; lra).
    assert (0 <= (/ (rho - 1)) * (((rho - 1) * a - u) * ((rho - 1) * a - u))) by (apply Rmult_le_pos; [left; apply Rinv_0_lt_compat; lra | apply Rle_0_sqr]). lra. }
  destruct (four l H) as (a & b & c & d & ->). unfold squares. cbn [map total]. pose proof (P a). pose proof (P b). pose proof (P c). pose proof (P d). lra.
Qed.
Lemma tank_step : forall g ul ur t, tank_short t -> 64 * (g * g) * rho ^ (3 * M + 2) <= 1 -> exists t' o, tank_frame g ul ur t = Some (t', o) /\ tank_short t' /\
  side_kept (t_left t) (t_left t') /\ side_kept (t_right t) (t_right t') /\
  level t' <= level t / rho + 4 * (rho / (rho - 1)) * (ul * ul + ur * ur) /\ kappa * kappa * kappa * (fst o * fst o + snd o * snd o) <= level t'.
Proof using Hr.
  intros g ul ur t (SL & SR & L0 & L1) HG.
  destruct (side_step (map (fun f => f * g + ul) (t_fb1 t)) (t_left t) SL ltac:(rewrite map_length; exact L1)) as (l & zl & A1 & A2 & A3 & A4 & A5).
  destruct (side_step (map (fun f => f * g + ur) (t_fb0 t)) (t_right t) SR ltac:(rewrite map_length; exact L0)) as (r & zr & B1 & B2 & B3 & B4 & B5).
  exists (mk_tank l r (mixed zl) (mixed zr)), (fold_left Rplus zl 0 * / 8, fold_left Rplus zr 0 * / 8).
  unfold tank_frame. rewrite A1. cbn [bind]. rewrite B1. split; [reflexivity |]. split; [split; [exact A2 |]; split; [exact B2 |]; split; reflexivity |]. split; [exact A3 |]. split; [exact B3 |].
  unfold level. cbn [t_left t_right t_fb0 t_fb1 fst snd]. rewrite (mixed_energy _ A4), (mixed_energy _ B4).
  pose proof (squares_fed g ul _ L1) as P1. pose proof (squares_fed g ur _ L0) as P0. pose proof kappa_pos as K0. pose proof (squares_pos (t_fb0 t)) as Q0. pose proof (squares_pos (t_fb1 t)) as Q1.
  set (k3 := kappa * kappa * kappa) in *. assert (K3 : 0 < k3) by (unfold k3; repeat apply Rmult_lt_0_compat; assumption).
  assert (G : rho * (g * g) <= k3 / 64 / rho).
  { assert (E : k3 = / rho ^ (3 * M)).
    { unfold k3, kappa. replace (3 * M)%nat with (M + M + M)%nat by lia. rewrite !pow_add. field. apply Rgt_not_eq, pow_pos. }
    rewrite pow_add in HG. pose proof (pow_pos (3 * M)) as PM. rewrite E. apply Rmult_le_reg_r with (64 * rho * rho ^ (3 * M)); [repeat apply Rmult_lt_0_compat; lra |].
    replace (/ rho ^ (3 * M) / 64 / rho * (64 * rho * rho ^ (3 * M))) with 1 by (field; lra).
    replace (rho * (g * g) * (64 * rho * rho ^ (3 * M))) with (64 * (g * g) * (rho ^ (3 * M) * rho ^ 2)) by ring. exact HG. }
  assert (G0 : rho * (g * g) * squares (t_fb0 t) <= k3 / 64 / rho * squares (t_fb0 t)) by (apply Rmult_le_compat_r; assumption).
  assert (G1 : rho * (g * g) * squares (t_fb1 t) <= k3 / 64 / rho * squares (t_fb1 t)) by (apply Rmult_le_compat_r; assumption).
  split.
  - replace ((rho * (side_en (t_left t) + side_en (t_right t)) + k3 / 64 * (squares (t_fb0 t) + squares (t_fb1 t))) / rho)
      with (side_en (t_left t) + side_en (t_right t) + (k3 / 64 / rho * squares (t_fb0 t) + k3 / 64 / rho * squares (t_fb1 t))) by (field; lra).
    lra.
  - pose proof (side_en_pos l). pose proof (side_en_pos r). pose proof (sum_squares _ A4) as S1. pose proof (sum_squares _ B4) as S2.
    assert (0 <= rho * (side_en l + side_en r)) by (apply Rmult_le_pos; lra).
    assert (T1 : k3 * (fold_left Rplus zl 0 * / 8 * (fold_left Rplus zl 0 * / 8)) <= k3 * (squares zl / 16)) by (apply Rmult_le_compat_l; lra).
    assert (T2 : k3 * (fold_left Rplus zr 0 * / 8 * (fold_left Rplus zr 0 * / 8)) <= k3 * (squares zr / 16)) by (apply Rmult_le_compat_l; lra). lra.
Qed.
End Decay.
