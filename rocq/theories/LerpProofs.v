From Coq Require Import Reals Lra.
From Flocq Require Import Core BinarySingleNaN.
From Verif Require Import Base FloatBase FloatMore NoiseShapeProofs OscModel WaveModel WaveSpec WaveFloat LerpModel LerpSpec.
Local Open Scope R_scope.

(** * The phase *)
Lemma whole_is : forall p, N.to_nat (integer_component p) = whole p.
Proof.
  intros p. unfold integer_component, whole, high_mask. change 16383%N with (N.ones 14). rewrite N.land_ones, N.shiftr_div_pow2. reflexivity.
Qed.
Lemma fraction_is : forall p, fractional_component p = (p mod 65536)%N.
Proof. intros p. unfold fractional_component. change 65535%N with (N.ones 16). rewrite N.land_ones. reflexivity. Qed.
Lemma whole_lt : forall p, (whole p < period)%nat.
Proof. intros p. unfold whole, period. pose proof (N.mod_upper_bound (p / 65536) 16384 ltac:(lia)). lia. Qed.
Lemma next_lt : forall p, ((whole p + 1) mod period < period)%nat.
Proof. intros p. apply Nat.mod_upper_bound. unfold period. lia. Qed.
Lemma part_range : forall p, 0 <= part p <= 65535 / 65536.
Proof.
  intros p. unfold part. pose proof (N.mod_upper_bound p 65536 ltac:(lia)) as U.
  assert (0 <= IZR (Z.of_N (p mod 65536))) by (apply IZR_le; lia). assert (IZR (Z.of_N (p mod 65536)) <= 65535) by (apply IZR_le; lia). lra.
Qed.
Lemma pow_m25 : bpow radix2 (-25) = / 33554432. Proof. reflexivity. Qed.
Lemma fraction_ok : forall p, fin (fraction_f32 p) /\ val (fraction_f32 p) = @rnd 24 128 (part p * 65536 / 65535) /\
  0 <= val (fraction_f32 p) <= 1 /\ Rabs (val (fraction_f32 p) - part p * 65536 / 65535) <= / 33554432.
Proof.
  intros p. unfold fraction_f32. rewrite fraction_is. pose proof (N.mod_upper_bound p 65536 ltac:(lia)) as U. pose proof (part_range p) as P.
  destruct (fz_small (prec := 24) (emax := 128) (Z.of_N (p mod 65536)) ltac:(lia)) as [A FA].
  destruct (fz_small (prec := 24) (emax := 128) 65535 ltac:(lia)) as [B FB].
  assert (E : val (fz (Z.of_N (p mod 65536)) : f32) / val (fz 65535 : f32) = part p * 65536 / 65535) by (rewrite A, B; unfold part; field).
  assert (Q : 0 <= part p * 65536 / 65535 <= 1) by lra.
  destruct (fdiv_ok (fz (Z.of_N (p mod 65536)) : f32) (fz 65535) FA) as [V F].
  - rewrite B. lra.
  - rewrite E. apply fits with 0%Z; [lia |]. change (bpow radix2 0) with 1. rewrite Rabs_pos_eq; lra.
  - rewrite E in V. split; [exact F |]. split; [exact V |]. rewrite V. split.
    + apply rnd_between; [apply rnd_0 | apply rnd_1 | exact Q].
    + rewrite <- pow_m25. apply (pow_error (prec := 24) (emax := 128) 0); [lia |]. change (bpow radix2 0) with 1. rewrite Rabs_pos_eq; lra.
Qed.

Section Lerp.
Context {prec emax : Z} {I : ieee prec emax}.
Local Notation fl := (binary_float prec emax).
Local Notation rnd := (@FloatBase.rnd prec emax).

(** * Rounding next to 1 *)
Lemma tie_at_one : rnd (1 + bpow radix2 (- prec)) = 1.
Proof.
  unfold FloatBase.rnd, round, scaled_mantissa, cexp. pose proof (ieee_prec (prec := prec) (emax := emax)) as Hp. pose proof (ieee_emax (prec := prec) (emax := emax)) as He.
  assert (P : 0 < bpow radix2 (- prec)) by apply bpow_gt_0.
  assert (P1 : bpow radix2 (- prec) < 1) by (change 1 with (bpow radix2 0); apply bpow_lt; lia).
  assert (M : (mag radix2 (1 + bpow radix2 (- prec)) = 1 :> Z)%Z) by (apply mag_unique_pos; change (bpow radix2 (1 - 1)) with 1; change (bpow radix2 1) with 2; lra).
  rewrite M. assert (K : (SpecFloat.fexp prec emax 1 = 1 - prec)%Z) by (unfold SpecFloat.fexp, SpecFloat.emin; lia). rewrite K.
  assert (S : (1 + bpow radix2 (- prec)) * bpow radix2 (- (1 - prec)) = IZR (2 ^ (prec - 1)) + / 2).
  { rewrite Rmult_plus_distr_r, <- bpow_plus, Rmult_1_l. replace (- prec + - (1 - prec))%Z with (-1)%Z by lia. change (bpow radix2 (-1)) with (/ 2).
    f_equal. change 2%Z with (radix_val radix2). rewrite IZR_Zpower by lia. f_equal. lia. }
  rewrite S.
  assert (F : Zfloor (IZR (2 ^ (prec - 1)) + / 2) = (2 ^ (prec - 1))%Z) by (apply Zfloor_imp; rewrite plus_IZR; lra).
  assert (N : ZnearestE (IZR (2 ^ (prec - 1)) + / 2) = (2 ^ (prec - 1))%Z).
  { unfold Znearest. rewrite F. replace (IZR (2 ^ (prec - 1)) + / 2 - IZR (2 ^ (prec - 1))) with (/ 2) by ring. rewrite Rcompare_Eq by reflexivity.
    rewrite Z.even_pow by lia. reflexivity. }
  rewrite N. unfold F2R. cbn [Fnum Fexp]. change 2%Z with (radix_val radix2). rewrite IZR_Zpower by lia. rewrite <- bpow_plus.
  replace (prec - 1 + (1 - prec))%Z with 0%Z by lia. reflexivity.
Qed.
Lemma rnd_le_one : forall x, x <= 1 + bpow radix2 (- prec) -> rnd x <= 1.
Proof. intros x H. rewrite <- tie_at_one. apply rnd_le. exact H. Qed.

(** * One value, from the two samples around it *)
Definition lerp (a b m : fl) : fl := fadd a (fmul (fsub b a) m).
Lemma lerp_upper : forall a b m, -1 <= a <= 1 -> -1 <= b <= 1 -> 0 <= m <= 1 -> rnd a = a -> rnd (a + rnd (rnd (b - a) * m)) <= 1.
Proof.
  intros a b m A B M Fa. apply rnd_le_one. set (d := rnd (b - a)).
  destruct (Rle_dec d 0) as [N | N].
  - assert (rnd (d * m) <= 0) by (rewrite <- (rnd_0 (prec := prec) (emax := emax)); apply rnd_le; nra). pose proof (bpow_gt_0 radix2 (- prec)). lra.
  - assert (U : rnd (d * m) <= d).
    { replace d with (rnd d) at 2; [apply rnd_le; nra |]. unfold d, FloatBase.rnd. apply round_generic; [typeclasses eauto |]. apply generic_format_round; typeclasses eauto. }
    assert (W : d <= rnd (1 - a)) by (apply rnd_le; lra).
    assert (E : Rabs (rnd (1 - a) - (1 - a)) <= bpow radix2 (1 - prec - 1)) by (apply (pow_error 1); [lia |]; change (bpow radix2 1) with 2; rewrite Rabs_pos_eq; lra).
    replace (1 - prec - 1)%Z with (- prec)%Z in E by lia. apply Rabs_le_inv in E. lra.
Qed.
Lemma pow_le : forall e, (24 <= prec)%Z -> bpow radix2 (e - prec - 1) <= bpow radix2 (e - 25).
Proof. intros e H. apply bpow_le. lia. Qed.
Lemma lerp_ok : forall a b m : fl, fin a -> fin b -> fin m -> Rabs (val a) <= 1 -> Rabs (val b) <= 1 -> 0 <= val m <= 1 ->
  fin (lerp a b m) /\ val (lerp a b m) = rnd (val a + rnd (rnd (val b - val a) * val m)) /\ Rabs (val (lerp a b m)) <= 1 /\
  Rabs (val (lerp a b m) - (val a + (val b - val a) * val m)) <= 3 / 16777216.
Proof.
  intros a b m Fa Fb Fm A B M. pose proof (ieee_prec (prec := prec) (emax := emax)) as Hp. pose proof (ieee_emax (prec := prec) (emax := emax)) as He.
  apply Rabs_le_inv in A. apply Rabs_le_inv in B.
  assert (B1 : bpow radix2 1 = 2) by reflexivity. assert (B2 : bpow radix2 2 = 4) by reflexivity.
  assert (D : Rabs (val b - val a) <= bpow radix2 1) by (rewrite B1; apply Rabs_le; lra).
  destruct (fsub_ok b a Fb Fa) as [Vd Fd]; [apply fits with 1%Z; [lia | exact D] |].
  assert (D' : Rabs (rnd (val b - val a)) <= 2) by (rewrite <- B1; apply rnd_bound; [lia | exact D]).
  assert (P : Rabs (rnd (val b - val a) * val m) <= bpow radix2 1).
  { rewrite B1, Rabs_mult, (Rabs_pos_eq (val m)) by lra. pose proof (Rabs_pos (rnd (val b - val a))). nra. }
  destruct (fmul_ok (fsub b a) m Fd Fm) as [Vp Fp]; [rewrite Vd; apply fits with 1%Z; [lia | exact P] |]. rewrite Vd in Vp.
  assert (P' : Rabs (rnd (rnd (val b - val a) * val m)) <= 2) by (rewrite <- B1; apply rnd_bound; [lia | exact P]).
  set (q := rnd (rnd (val b - val a) * val m)) in *.
  assert (T : Rabs (val a + q) <= bpow radix2 2) by (rewrite B2; apply Rabs_le_inv in P'; apply Rabs_le; lra).
  destruct (fadd_ok a (fmul (fsub b a) m) Fa Fp) as [Vy Fy]; [rewrite Vp; apply fits with 2%Z; [lia | exact T] |]. rewrite Vp in Vy.
  change (fadd a (fmul (fsub b a) m)) with (lerp a b m) in Vy, Fy.
  split; [exact Fy |]. split; [exact Vy |].
  assert (Y : Rabs (val (lerp a b m)) <= 1).
  { rewrite Vy. apply Rabs_le. split.
    - pose proof (lerp_upper (- val a) (- val b) (val m)) as L. rewrite rnd_opp, rnd_val in L.
      replace (- val b - - val a) with (- (val b - val a)) in L by ring. rewrite rnd_opp in L.
      replace (- rnd (val b - val a) * val m) with (- (rnd (val b - val a) * val m)) in L by ring. rewrite rnd_opp in L. fold q in L.
      replace (- val a + - q) with (- (val a + q)) in L by ring. rewrite rnd_opp in L.
      assert (- rnd (val a + q) <= 1) by (apply L; [lra | lra | exact M | reflexivity]). lra.
    - apply lerp_upper; [lra | lra | exact M | apply rnd_val]. }
  split; [exact Y |]. rewrite Vy.
  assert (E1 : Rabs (rnd (val b - val a) - (val b - val a)) <= / 16777216).
  { change (/ 16777216) with (bpow radix2 (1 - 25)). eapply Rle_trans; [apply (pow_error 1); [lia | exact D] | apply (pow_le 1); exact Hp]. }
  assert (E2 : Rabs (q - rnd (val b - val a) * val m) <= / 16777216).
  { change (/ 16777216) with (bpow radix2 (1 - 25)). eapply Rle_trans; [apply (pow_error 1); [lia | exact P] | apply (pow_le 1); exact Hp]. }
  assert (E1m : Rabs (rnd (val b - val a) * val m - (val b - val a) * val m) <= / 16777216).
  { rewrite <- Rmult_minus_distr_r, Rabs_mult, (Rabs_pos_eq (val m)) by lra. pose proof (Rabs_pos (rnd (val b - val a) - (val b - val a))). nra. }
  (* the sum is at most 1 + 2^-23, so its error is at most 2^-24 *)
  assert (L0 : Rabs (val a + (val b - val a) * val m) <= 1) by (replace (val a + (val b - val a) * val m) with ((1 - val m) * val a + val m * val b) by ring; apply Rabs_le; split; nra).
  assert (S : Rabs (val a + q) <= bpow radix2 1).
  { apply Rabs_le_inv in E2. apply Rabs_le_inv in E1m. apply Rabs_le_inv in L0. rewrite B1. apply Rabs_le. lra. }
  assert (E3 : Rabs (rnd (val a + q) - (val a + q)) <= / 16777216).
  { change (/ 16777216) with (bpow radix2 (1 - 25)). eapply Rle_trans; [apply (pow_error 1); [lia | exact S] | apply (pow_le 1); exact Hp]. }
  apply Rabs_le_inv in E2. apply Rabs_le_inv in E1m. apply Rabs_le_inv in E3. apply Rabs_le. lra.
Qed.

(** * A table *)
Lemma playable_bounded : forall t : list fl, playable t -> bounded I t.
Proof. intros t [_ H]. exact H. Qed.
Lemma sample_ok : forall (t : list fl) k, playable t -> (k < period)%nat -> nth_error t k = Some (nth k t fzero) /\ fin (nth k t fzero) /\ Rabs (val (nth k t fzero)) <= 1.
Proof.
  intros t k [L F] K. rewrite <- L in K. split; [apply nth_error_nth'; exact K |].
  rewrite Forall_forall in F. apply F. apply nth_In. exact K.
Qed.
Lemma each_nth : forall A B (f : nat -> A -> B) l k x, nth_error l k = Some x -> nth_error (each f l) k = Some (f k x).
Proof.
  intros A B f l k x H. unfold each. rewrite nth_error_map.
  assert (G : forall (l : list A) s k x, nth_error l k = Some x -> nth_error (combine (seq s (length l)) l) k = Some ((s + k)%nat, x)).
  { clear. induction l as [| y l IH]; intros s k x H; [destruct k; discriminate H |]. destruct k as [| k]; cbn [length seq combine nth_error] in *.
    - injection H as ->. rewrite Nat.add_0_r. reflexivity.
    - rewrite (IH (S s) k x H). f_equal. f_equal. lia. }
  rewrite (G l 0%nat k x H). reflexivity.
Qed.
Lemma diffs_each : forall t d : list fl, diffs t = Some d -> d = each (fun i x => fsub (nth ((i + 1) mod length t) t fzero) x) t.
Proof.
  intros t d H. unfold diffs in H. cbv zeta in H. set (D := each _ t) in *.
  destruct (nth_error t 0); [cbn [bind] in H | discriminate H]. destruct (nth_error t 1); [cbn [bind] in H | discriminate H].
  destruct (nth_error t (length t - 1)); [cbn [bind] in H | discriminate H]. destruct (nth_error D 0); [cbn [bind] in H | discriminate H].
  destruct (nth_error D (length t - 1)); [cbn [bind] in H | discriminate H]. destruct (_ && _); [injection H as ->; reflexivity | discriminate H].
Qed.
Lemma read_lerp : forall (t : list fl) p, playable t ->
  table_read t p = Some (lerp (nth (whole p) t fzero) (nth ((whole p + 1) mod period) t fzero) (wide (fraction_f32 p))).
Proof.
  intros t p H. unfold table_read. assert (L2 : (2 <= length t)%nat) by (rewrite (proj1 H); unfold period; lia).
  destruct (diffs_ok t (playable_bounded t H) L2) as [d D]. rewrite D. cbn [bind].
  unfold table_lerp. rewrite whole_is. destruct (sample_ok t (whole p) H (whole_lt p)) as (N & _ & _). rewrite N. cbn [bind].
  rewrite (diffs_each t d D). rewrite (each_nth _ _ _ _ _ _ N). cbn [bind]. rewrite (proj1 H). reflexivity.
Qed.
Lemma read_ok : forall (t : list fl) p, playable t -> exists y, table_read t p = Some y /\ fin y /\ Rabs (val y) <= 1 /\
  val y = rnd (before t p + rnd (rnd (after t p - before t p) * val (fraction_f32 p))) /\
  Rabs (val y - (before t p + (after t p - before t p) * val (fraction_f32 p))) <= 3 / 16777216.
Proof.
  intros t p H. rewrite (read_lerp t p H). eexists. split; [reflexivity |].
  destruct (sample_ok t (whole p) H (whole_lt p)) as (_ & Fa & A). destruct (sample_ok t _ H (next_lt p)) as (_ & Fb & B).
  destruct (fraction_ok p) as (Ff & _ & R & _). destruct (wide_ok (prec := prec) (emax := emax) _ Ff) as [W FW].
  rewrite <- W in R. destruct (lerp_ok _ _ _ Fa Fb FW A B R) as (F & V & Y & E). rewrite W in V, E.
  split; [exact F |]. split; [exact Y |]. split; [exact V | exact E].
Qed.
Lemma before_le : forall (t : list fl) p, playable t -> Rabs (before t p) <= 1 /\ Rabs (after t p) <= 1.
Proof. intros t p H. split; [apply (sample_ok t (whole p) H (whole_lt p)) | apply (sample_ok t _ H (next_lt p))]. Qed.
Lemma read_line : forall (t : list fl) p, playable t -> exists y, table_read t p = Some y /\ fin y /\ Rabs (val y) <= 1 /\
  Rabs (val y - on_line t p) <= Rabs (after t p - before t p) / 65536 + / 4194304.
Proof.
  intros t p H. destruct (read_ok t p H) as (y & E & F & Y & _ & D). exists y. split; [exact E |]. split; [exact F |]. split; [exact Y |].
  destruct (fraction_ok p) as (_ & _ & _ & Q). destruct (before_le t p H) as [A B]. pose proof (part_range p) as P. unfold on_line.
  set (a := before t p) in *. set (b := after t p) in *. set (m := val (fraction_f32 p)) in *. set (x := part p) in *.
  assert (S : Rabs ((b - a) * (m - x * 65536 / 65535)) <= / 16777216).
  { rewrite Rabs_mult. assert (Rabs (b - a) <= 2) by (apply Rabs_le_inv in A; apply Rabs_le_inv in B; apply Rabs_le; lra).
    pose proof (Rabs_pos (b - a)). pose proof (Rabs_pos (m - x * 65536 / 65535)). nra. }
  assert (T : Rabs ((b - a) * (x / 65535)) <= Rabs (b - a) / 65536).
  { rewrite Rabs_mult, (Rabs_pos_eq (x / 65535)) by lra. pose proof (Rabs_pos (b - a)). nra. }
  replace (val y - ((1 - x) * a + x * b)) with ((val y - (a + (b - a) * m)) + (b - a) * (m - x * 65536 / 65535) + (b - a) * (x / 65535)) by field.
  eapply Rle_trans; [apply Rabs_triang |]. eapply Rle_trans; [apply Rplus_le_compat_r; apply Rabs_triang |]. lra.
Qed.
(** At a sample, and between equal samples, nothing is rounded *)
Lemma read_start : forall (t : list fl) p y, playable t -> (p mod 65536 = 0)%N \/ before t p = after t p -> table_read t p = Some y -> val y = before t p.
Proof.
  intros t p y H C E. destruct (read_ok t p H) as (y' & E' & _ & _ & V & _). rewrite E in E'. injection E' as <-. rewrite V.
  assert (Z : rnd (rnd (after t p - before t p) * val (fraction_f32 p)) = 0).
  { destruct C as [C | C].
    - destruct (fraction_ok p) as (_ & Q & _). unfold part in Q. rewrite C in Q. change (IZR (Z.of_N 0)) with 0 in Q.
      replace (0 / 65536 * 65536 / 65535) with 0 in Q by field. rewrite rnd_0 in Q. rewrite Q, Rmult_0_r. apply rnd_0.
    - rewrite C. replace (after t p - after t p) with 0 by ring. rewrite rnd_0, Rmult_0_l. apply rnd_0. }
  rewrite Z, Rplus_0_r. unfold before. apply rnd_val.
Qed.
(** One step before the next sample, the next sample is already reached *)
Lemma read_last : forall (t : list fl) p y, playable t -> (p mod 65536 = 65535)%N -> before t p = 0 -> table_read t p = Some y -> val y = after t p.
Proof.
  intros t p y H C Z E. destruct (read_ok t p H) as (y' & E' & _ & _ & V & _). rewrite E in E'. injection E' as <-. rewrite V, Z.
  destruct (fraction_ok p) as (_ & Q & _). unfold part in Q. rewrite C in Q. change (IZR (Z.of_N 65535)) with 65535 in Q.
  replace (65535 / 65536 * 65536 / 65535) with 1 in Q by field. rewrite rnd_1 in Q.
  rewrite Q, Rminus_0_r, Rmult_1_r, Rplus_0_l. unfold after. rewrite !rnd_val. reflexivity.
Qed.
(** * The next phase *)
Lemma next_phase : forall p, ((p + 1) mod 65536 = p mod 65536 + 1 /\ whole (p + 1) = whole p)%N \/
  (p mod 65536 = 65535 /\ (p + 1) mod 65536 = 0)%N /\ whole (p + 1) = ((whole p + 1) mod period)%nat.
Proof.
  intros p. pose proof (N.div_mod p 65536 ltac:(lia)) as D. pose proof (N.mod_upper_bound p 65536 ltac:(lia)) as U.
  set (q := (p / 65536)%N) in *. set (r := (p mod 65536)%N) in *.
  destruct (N.eq_dec r 65535) as [E | Ne].
  - right. assert (P1 : (p + 1 = (q + 1) * 65536)%N) by lia. rewrite P1. split; [split; [exact E | apply N.mod_mul; lia] |].
    unfold whole. rewrite N.div_mul by lia. fold q. unfold period.
    rewrite <- N.add_mod_idemp_l by lia. rewrite N2Nat.inj_mod, N2Nat.inj_add. reflexivity.
  - left. assert (P1 : (p + 1 = (r + 1) + q * 65536)%N) by lia. rewrite P1. split.
    + rewrite N.mod_add by lia. apply N.mod_small. lia.
    + unfold whole. rewrite N.div_add by lia. rewrite (N.div_small (r + 1)) by lia. fold q. f_equal.
Qed.
Lemma part_next : forall p, (p mod 65536 <> 65535)%N -> part (p + 1) = part p + / 65536.
Proof.
  intros p H. destruct (next_phase p) as [[E _] | [[E _] _]]; [| contradiction]. unfold part. rewrite E. rewrite N2Z.inj_add, plus_IZR. change (IZR (Z.of_N 1)) with 1. field.
Qed.
Lemma no_jump : forall (t : list fl) p y y', playable t -> table_read t p = Some y -> table_read t (p + 1) = Some y' ->
  Rabs (val y' - val y) <= 3 * Rabs (after t p - before t p) / 65536 + / 2097152.
Proof.
  intros t p y y' H E E'. destruct (read_line t p H) as (z & Ez & _ & _ & Dz). rewrite E in Ez. injection Ez as <-.
  pose proof (Rabs_pos (after t p - before t p)) as P0.
  destruct (next_phase p) as [[Em Ew] | [[Em E0] Ew]].
  - destruct (read_line t (p + 1) H) as (z & Ez & _ & _ & Dz'). rewrite E' in Ez. injection Ez as <-.
    assert (B : before t (p + 1) = before t p /\ after t (p + 1) = after t p) by (unfold before, after; rewrite Ew; split; reflexivity). destruct B as [B A].
    assert (Pn : part (p + 1) = part p + / 65536) by (apply part_next; intros K; pose proof (N.mod_upper_bound (p + 1) 65536 ltac:(lia)); lia).
    unfold on_line in *. rewrite B, A, Pn in Dz'. set (a := before t p) in *. set (b := after t p) in *. set (x := part p) in *.
    replace (val y' - val y) with ((val y' - ((1 - (x + / 65536)) * a + (x + / 65536) * b)) - (val y - ((1 - x) * a + x * b)) + (b - a) / 65536) by field.
    assert (T : Rabs ((b - a) / 65536) = Rabs (b - a) / 65536) by (unfold Rdiv; rewrite Rabs_mult, (Rabs_pos_eq (/ 65536)) by lra; reflexivity).
    eapply Rle_trans; [apply Rabs_triang |]. eapply Rle_trans; [apply Rplus_le_compat_r; apply Rabs_triang |]. rewrite Rabs_Ropp, T. lra.
  - assert (Y : val y' = after t p).
    { rewrite (read_start t (p + 1) y' H (or_introl E0) E'). unfold before, after. rewrite Ew. reflexivity. }
    rewrite Y. unfold on_line in Dz. set (a := before t p) in *. set (b := after t p) in *.
    assert (X : part p = 65535 / 65536) by (unfold part; rewrite Em; reflexivity). rewrite X in Dz.
    replace (b - val y) with (- (val y - ((1 - 65535 / 65536) * a + 65535 / 65536 * b)) + (b - a) / 65536) by field.
    assert (T : Rabs ((b - a) / 65536) = Rabs (b - a) / 65536) by (unfold Rdiv; rewrite Rabs_mult, (Rabs_pos_eq (/ 65536)) by lra; reflexivity).
    eapply Rle_trans; [apply Rabs_triang |]. rewrite Rabs_Ropp, T. lra.
Qed.
Lemma wraps : forall (t : list fl) p, table_read t (wadd p 1) = table_read t (p + 1).
Proof.
  intros t p. unfold table_read, table_lerp. destruct (diffs t) as [d |]; [cbn [bind] | reflexivity].
  assert (W : integer_component (wadd p 1) = integer_component (p + 1) /\ fraction_f32 (wadd p 1) = fraction_f32 (p + 1)).
  { split.
    - unfold integer_component, high_mask, wadd, M32. change 16383%N with (N.ones 14). rewrite !N.land_ones, !N.shiftr_div_pow2. change 4294967296%N with (2 ^ 16 * 2 ^ 16)%N.
      rewrite N.mod_mul_r by lia. rewrite (N.mul_comm (2 ^ 16)), N.div_add by lia. rewrite (N.div_small ((p + 1) mod 2 ^ 16)) by (apply N.mod_upper_bound; lia). rewrite N.add_0_l.
      change (2 ^ 16)%N with (2 ^ 14 * 4)%N at 2. rewrite N.mod_mul_r by lia. rewrite N.mul_comm, N.mod_add by lia. apply N.mod_mod. lia.
    - unfold fraction_f32. rewrite !fraction_is. unfold wadd, M32. do 3 f_equal. change 4294967296%N with (65536 * 65536)%N. rewrite N.mod_mul_r by lia. rewrite N.mul_comm, N.mod_add by lia. apply N.mod_mod. lia. }
  destruct W as [-> ->]. reflexivity.
Qed.
End Lerp.
