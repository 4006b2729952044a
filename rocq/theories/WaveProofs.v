From Coq Require Import Reals Lra Lia.
From Flocq Require Import Core BinarySingleNaN.
From Verif Require Import Base FloatBase OscModel WaveModel WaveSpec.
Local Open Scope R_scope.

(** ** Sums of sines *)
Lemma rsum_ext : forall f g n, (forall k, (k < n)%nat -> f k = g k) -> rsum f n = rsum g n.
Proof. intros f g n. induction n as [| n IH]; intros H; cbn [rsum]; [reflexivity |]. rewrite IH by (intros k Hk; apply H; lia). rewrite H by lia. reflexivity. Qed.
Lemma rsum_plus : forall f g n, rsum (fun k => f k + g k) n = rsum f n + rsum g n.
Proof. intros f g n. induction n as [| n IH]; cbn [rsum]; [lra |]. rewrite IH. lra. Qed.
Lemma rsum_scal : forall c f n, rsum (fun k => c * f k) n = c * rsum f n.
Proof. intros c f n. induction n as [| n IH]; cbn [rsum]; [lra |]. rewrite IH. lra. Qed.
Lemma rsum_const : forall c n, rsum (fun _ => c) n = INR n * c.
Proof. intros c n. induction n as [| n IH]; [cbn; lra |]. cbn [rsum]. rewrite IH, S_INR. lra. Qed.

Lemma sum_sin : forall a b n, 2 * sin (a / 2) * rsum (fun k => sin (a * INR k + b)) n = cos (b - a / 2) - cos (b + a * INR n - a / 2).
Proof.
  intros a b n. induction n as [| n IH]; cbn [rsum].
  - replace (b + a * INR 0 - a / 2) with (b - a / 2) by (cbn; lra). lra.
  - rewrite Rmult_plus_distr_l, IH, S_INR. replace (b + a * (INR n + 1) - a / 2) with (a * INR n + b + a / 2) by lra. replace (b + a * INR n - a / 2) with (a * INR n + b - a / 2) by lra.
    rewrite (cos_plus (a * INR n + b)), (cos_minus (a * INR n + b)). lra.
Qed.
Lemma cos_turns : forall x m, cos (x + 2 * PI * IZR m) = cos x.
Proof.
  intros x m. destruct (Z_le_gt_dec 0 m) as [H | H].
  - rewrite <- (Z2Nat.id m H), <- INR_IZR_INZ. replace (2 * PI * INR (Z.to_nat m)) with (2 * INR (Z.to_nat m) * PI) by lra. apply cos_period.
  - replace m with (- (Z.of_nat (Z.to_nat (- m))))%Z by lia. rewrite opp_IZR, <- INR_IZR_INZ. set (k := Z.to_nat (- m)).
    rewrite <- (cos_period (x + 2 * PI * - INR k) k). f_equal. lra.
Qed.
Lemma sum_zero : forall n m b, (0 < n)%nat -> (0 < Z.abs m < Z.of_nat n)%Z -> rsum (fun k => sin (2 * PI * IZR m * INR k / INR n + b)) n = 0.
Proof.
  intros n m b Hn Hm. assert (Hp : 0 < INR n) by (apply lt_0_INR; exact Hn). pose proof PI_RGT_0 as P.
  assert (E : 2 * sin (2 * PI * IZR m / INR n / 2) * rsum (fun k => sin (2 * PI * IZR m / INR n * INR k + b)) n = 0).
  { rewrite sum_sin. replace (b + 2 * PI * IZR m / INR n * INR n - 2 * PI * IZR m / INR n / 2) with (b - 2 * PI * IZR m / INR n / 2 + 2 * PI * IZR m) by (field; lra). rewrite cos_turns. lra. }
  replace (2 * PI * IZR m / INR n / 2) with (PI * (IZR m / INR n)) in E by (field; lra).
  assert (S : sin (PI * (IZR m / INR n)) <> 0).
  { assert (A : forall q, (0 < q < Z.of_nat n)%Z -> 0 < sin (PI * (IZR q / INR n))).
    { intros q Hq. assert (0 < IZR q / INR n < 1). { rewrite INR_IZR_INZ. split; [apply Rdiv_lt_0_compat; apply IZR_lt; lia |]. apply Rmult_lt_reg_r with (IZR (Z.of_nat n)); [apply IZR_lt; lia |].
        unfold Rdiv. rewrite Rmult_assoc, Rinv_l, Rmult_1_l, Rmult_1_r by (apply IZR_neq; lia). apply IZR_lt. lia. }
      apply sin_gt_0; nra. }
    destruct (Z_le_gt_dec 0 m) as [H | H]; [specialize (A m ltac:(lia)); lra |]. specialize (A (- m)%Z ltac:(lia)). rewrite opp_IZR in A.
    replace (PI * (- IZR m / INR n)) with (- (PI * (IZR m / INR n))) in A by (field; lra). rewrite sin_neg in A. lra. }
  rewrite <- (rsum_ext (fun k => sin (2 * PI * IZR m / INR n * INR k + b))) by (intros k _; f_equal; field; lra). nra.
Qed.
Lemma sum_zero_cos : forall n m b, (0 < n)%nat -> (0 < Z.abs m < Z.of_nat n)%Z -> rsum (fun k => cos (2 * PI * IZR m * INR k / INR n + b)) n = 0.
Proof.
  intros n m b Hn Hm. rewrite <- (sum_zero n m (b + PI / 2) Hn Hm). apply rsum_ext. intros k _. rewrite <- Rplus_assoc, sin_plus, sin_PI2, cos_PI2. lra.
Qed.

(** ** The parts of a wave *)
Lemma wave_parts : forall n j h phi, (0 < h)%nat -> (2 * h < n)%nat -> (2 * j < n)%nat ->
  rsum (fun k => sin (2 * PI * INR j * INR k / INR n + phi) * sin (2 * PI * INR h * INR k / INR n)) n = (if (j =? h)%nat then INR n / 2 * cos phi else 0) /\
  rsum (fun k => sin (2 * PI * INR j * INR k / INR n + phi) * cos (2 * PI * INR h * INR k / INR n)) n = (if (j =? h)%nat then INR n / 2 * sin phi else 0).
Proof.
  intros n j h phi H0 H1 H2. assert (Hn : (0 < n)%nat) by lia. assert (Hp : 0 < INR n) by (apply lt_0_INR; exact Hn).
  set (d := (Z.of_nat j - Z.of_nat h)%Z). set (s := (Z.of_nat j + Z.of_nat h)%Z).
  assert (Ed : forall k, 2 * PI * IZR d * INR k / INR n + phi = (2 * PI * INR j * INR k / INR n + phi) - 2 * PI * INR h * INR k / INR n) by (intros k; unfold d; rewrite minus_IZR, <- !INR_IZR_INZ; field; lra).
  assert (Es : forall k, 2 * PI * IZR s * INR k / INR n + phi = (2 * PI * INR j * INR k / INR n + phi) + 2 * PI * INR h * INR k / INR n) by (intros k; unfold s; rewrite plus_IZR, <- !INR_IZR_INZ; field; lra).
  assert (Z1 : rsum (fun k => cos (2 * PI * IZR s * INR k / INR n + phi)) n = 0) by (apply sum_zero_cos; [exact Hn | unfold s; lia]).
  assert (Z2 : rsum (fun k => sin (2 * PI * IZR s * INR k / INR n + phi)) n = 0) by (apply sum_zero; [exact Hn | unfold s; lia]).
  assert (Z3 : rsum (fun k => cos (2 * PI * IZR d * INR k / INR n + phi)) n = if (j =? h)%nat then INR n * cos phi else 0).
  { destruct (Nat.eqb_spec j h) as [E | E]; [| apply sum_zero_cos; [exact Hn | unfold d; lia]]. rewrite <- rsum_const. apply rsum_ext. intros k _. f_equal. unfold d. subst h. rewrite Z.sub_diag. field. lra. }
  assert (Z4 : rsum (fun k => sin (2 * PI * IZR d * INR k / INR n + phi)) n = if (j =? h)%nat then INR n * sin phi else 0).
  { destruct (Nat.eqb_spec j h) as [E | E]; [| apply sum_zero; [exact Hn | unfold d; lia]]. rewrite <- rsum_const. apply rsum_ext. intros k _. f_equal. unfold d. subst h. rewrite Z.sub_diag. field. lra. }
  split.
  - rewrite (rsum_ext _ (fun k => / 2 * cos (2 * PI * IZR d * INR k / INR n + phi) + (- / 2) * cos (2 * PI * IZR s * INR k / INR n + phi))).
    + rewrite rsum_plus, !rsum_scal, Z1, Z3. destruct (j =? h)%nat; lra.
    + intros k _. rewrite Ed, Es, cos_plus, cos_minus. lra.
  - rewrite (rsum_ext _ (fun k => / 2 * sin (2 * PI * IZR d * INR k / INR n + phi) + / 2 * sin (2 * PI * IZR s * INR k / INR n + phi))).
    + rewrite rsum_plus, !rsum_scal, Z2, Z4. destruct (j =? h)%nat; lra.
    + intros k _. rewrite Ed, Es, (sin_plus _ (2 * PI * INR h * INR k / INR n)), sin_minus. lra.
Qed.
Lemma add_wave : forall t t' j a phi h, length t' = length t -> (2 * j < length t)%nat -> harmonic t h ->
  (forall k, (k < length t)%nat -> nth k t' 0 = nth k t 0 + a * sin (2 * PI * INR j * INR k / INR (length t) + phi)) ->
  sine_part t' h = sine_part t h + (if (j =? h)%nat then a * cos phi else 0) /\ cosine_part t' h = cosine_part t h + (if (j =? h)%nat then a * sin phi else 0).
Proof.
  intros t t' j a phi h L Hj [H0 H1] H. destruct (wave_parts (length t) j h phi H0 H1 Hj) as [W1 W2]. assert (Hp : 0 < INR (length t)) by (apply lt_0_INR; lia).
  unfold sine_part, cosine_part. rewrite L. split.
  - rewrite (rsum_ext _ (fun k => nth k t 0 * sin (2 * PI * INR h * INR k / INR (length t)) + a * (sin (2 * PI * INR j * INR k / INR (length t) + phi) * sin (2 * PI * INR h * INR k / INR (length t)))))
      by (intros k Hk; rewrite H by exact Hk; lra).
    rewrite rsum_plus, rsum_scal, W1. destruct (j =? h)%nat; [field; lra | lra].
  - rewrite (rsum_ext _ (fun k => nth k t 0 * cos (2 * PI * INR h * INR k / INR (length t)) + a * (sin (2 * PI * INR j * INR k / INR (length t) + phi) * cos (2 * PI * INR h * INR k / INR (length t)))))
      by (intros k Hk; rewrite H by exact Hk; lra).
    rewrite rsum_plus, rsum_scal, W2. destruct (j =? h)%nat; [field; lra | lra].
Qed.

(** ** The loops *)
Lemma len_points : INR points = len.
Proof. unfold points, len. rewrite INR_IZR_INZ, N_nat_Z. reflexivity. Qed.
Lemma len_pos : 0 < len.
Proof. unfold len. apply IZR_lt. reflexivity. Qed.
Lemma points_Z : Z.of_nat points = 16384%Z.
Proof. unfold points. rewrite N_nat_Z. reflexivity. Qed.
Global Opaque points.
Lemma each_length : forall A B (f : nat -> A -> B) l, length (each f l) = length l.
Proof. intros. unfold each. rewrite map_length, combine_length, seq_length. lia. Qed.
Lemma each_nth_error : forall A B (f : nat -> A -> B) l k x, nth_error l k = Some x -> nth_error (each f l) k = Some (f k x).
Proof.
  intros A B f l k x H. unfold each. rewrite nth_error_map. assert (G : forall l s k, nth_error l k = Some x -> nth_error (combine (seq s (length l)) l) k = Some ((s + k)%nat, x)).
  { clear. induction l as [| y l IH]; intros s [| k] H; try discriminate; cbn in *; [injection H as ->; f_equal; f_equal; lia |]. rewrite (IH (S s) k H). f_equal. f_equal. lia. }
  rewrite (G l 0%nat k H). reflexivity.
Qed.
Lemma each_nth : forall A (f : nat -> A -> A) l k d, (k < length l)%nat -> nth k (each f l) d = f k (nth k l d).
Proof. intros A f l k d H. apply nth_error_nth. apply each_nth_error. apply nth_error_nth'. exact H. Qed.
Lemma sine_loop_length : forall s a p t, length (sine_loop s a p t) = length t.
Proof. intros s a p t. revert p. induction t as [| x t IH]; intros p; cbn; [reflexivity | f_equal; apply IH]. Qed.
Lemma sine_loop_nth : forall s a t p k, (k < length t)%nat -> nth k (sine_loop s a p t) 0 = nth k t 0 + sin (p + INR k * s) * a.
Proof.
  intros s a t. induction t as [| x t IH]; intros p k H; [cbn in H; lia |]. destruct k as [| k]; cbn [sine_loop nth]; [replace (p + INR 0 * s) with p by (cbn; lra); reflexivity |].
  rewrite IH by (cbn in H; lia). rewrite S_INR. do 3 f_equal. lra.
Qed.
Lemma add_sine_parts : forall j a phi t h, length t = points -> (2 * j < points)%nat -> harmonic t h ->
  sine_part (add_sine (INR j) a phi t) h = sine_part t h + (if (j =? h)%nat then a * cos phi else 0) /\
  cosine_part (add_sine (INR j) a phi t) h = cosine_part t h + (if (j =? h)%nat then a * sin phi else 0).
Proof.
  intros j a phi t h L Hj Hh. apply (add_wave t _ j a phi h); [apply sine_loop_length | lia | exact Hh |].
  intros k Hk. unfold add_sine. rewrite sine_loop_nth by exact Hk. rewrite L, len_points, (Rmult_comm a). do 3 f_equal. pose proof len_pos. field. lra.
Qed.

(** Several waves, one after the other *)
Lemma fold_length : forall (f : nat -> nat -> R -> R) is t, length (fold_left (fun t i => each (f i) t) is t) = length t.
Proof. intros f is. induction is as [| i is IH]; intros t; cbn [fold_left]; [reflexivity |]. rewrite IH. apply each_length. Qed.
Definition lsum (l : list R) : R := fold_right Rplus 0 l.
Lemma fold_parts : forall (f : nat -> nat -> R -> R) hf af pf is t h, length t = points -> harmonic t h ->
  (forall i k x, In i is -> f i k x = x + af i * sin (2 * PI * INR (hf i) * INR k / len + pf i)) -> (forall i, In i is -> (2 * hf i < points)%nat) ->
  sine_part (fold_left (fun t i => each (f i) t) is t) h = sine_part t h + lsum (map (fun i => if (hf i =? h)%nat then af i * cos (pf i) else 0) is) /\
  cosine_part (fold_left (fun t i => each (f i) t) is t) h = cosine_part t h + lsum (map (fun i => if (hf i =? h)%nat then af i * sin (pf i) else 0) is).
Proof.
  intros f hf af pf is. induction is as [| i is IH]; intros t h L Hh Hf Hb; cbn [fold_left map lsum fold_right]; [lra |].
  assert (L1 : length (each (f i) t) = points) by (rewrite each_length; exact L).
  destruct (IH (each (f i) t) h L1) as [A B]; [unfold harmonic in *; rewrite L1, <- L; exact Hh | intros; apply Hf; right; assumption | intros; apply Hb; right; assumption |].
  destruct (add_wave t (each (f i) t) (hf i) (af i) (pf i) h) as [C D]; [apply each_length | rewrite L; apply Hb; left; reflexivity | exact Hh | |].
  - intros k Hk. rewrite each_nth by exact Hk. rewrite Hf by (left; reflexivity). rewrite L, len_points. reflexivity.
  - rewrite A, B, C, D. unfold lsum. lra.
Qed.
Lemma lsum_none : forall (g : nat -> R) hf h is, (forall i, In i is -> hf i <> h) -> lsum (map (fun i => if (hf i =? h)%nat then g i else 0) is) = 0.
Proof.
  intros g hf h is. induction is as [| i is IH]; intros H; cbn [map lsum fold_right]; [reflexivity |]. destruct (Nat.eqb_spec (hf i) h) as [E | _]; [exfalso; exact (H i (or_introl eq_refl) E) |].
  fold (lsum (map (fun i => if (hf i =? h)%nat then g i else 0) is)). rewrite IH by (intros; apply H; right; assumption). lra.
Qed.
Lemma lsum_one : forall (g : nat -> R) hf h is i, NoDup is -> (forall a b, hf a = hf b -> a = b) -> In i is -> hf i = h -> lsum (map (fun i => if (hf i =? h)%nat then g i else 0) is) = g i.
Proof.
  intros g hf h is i Hd Hi. induction is as [| j is IH]; intros Hin E; [destruct Hin |]. inversion Hd as [| ? ? Hn Hd2]; subst. cbn [map lsum fold_right].
  fold (lsum (map (fun i0 => if (hf i0 =? hf i)%nat then g i0 else 0) is)). destruct (Nat.eqb_spec (hf j) (hf i)) as [E | E].
  - apply Hi in E. subst j. rewrite lsum_none; [lra |]. intros a Ha F. apply Hi in F. subst a. contradiction.
  - destruct Hin as [-> | Hin]; [contradiction |]. rewrite IH by (assumption || reflexivity). lra.
Qed.

(** ** Contents *)
Lemma saw_length : forall a b amp t, length (add_saw a b amp t) = length t.
Proof. intros. unfold add_saw. apply (fold_length (fun i k x => x + sin (INR k / len * PI * 2 * INR (i + 1) + 0) * (1 / (INR (i + 1) * PI)) * amp)). Qed.
Lemma saw_parts : forall first last amp t h, length t = points -> (2 * (last + 1) < points)%nat -> harmonic t h ->
  sine_part (add_saw first last amp t) h = sine_part t h + (if ((first <? h) && (h <=? last + 1))%nat then amp / (INR h * PI) else 0) /\
  cosine_part (add_saw first last amp t) h = cosine_part t h.
Proof.
  intros first last amp t h L Hb Hh. pose proof PI_RGT_0 as P. pose proof len_pos as Lp.
  destruct (fold_parts (fun i k x => x + sin (INR k / len * PI * 2 * INR (i + 1) + 0) * (1 / (INR (i + 1) * PI)) * amp) (fun i => (i + 1)%nat) (fun i => 1 / (INR (i + 1) * PI) * amp) (fun _ => 0)
    (seq first (last + 1 - first)) t h L Hh) as [A B].
  - intros i k x _. replace (INR k / len * PI * 2 * INR (i + 1) + 0) with (2 * PI * INR (i + 1) * INR k / len + 0) by (field; lra). lra.
  - intros i Hi. apply in_seq in Hi. lia.
  - unfold add_saw. rewrite A, B. clear A B. destruct Hh as [H0 _]. assert (Hp : 0 < INR h) by (apply lt_0_INR; exact H0).
    destruct (Nat.ltb_spec first h), (Nat.leb_spec h (last + 1)); cbn [andb].
    + rewrite (lsum_one (fun i => 1 / (INR (i + 1) * PI) * amp * cos 0) (fun i => (i + 1)%nat) h _ (h - 1)%nat (seq_NoDup _ _)); [| lia | apply in_seq; lia | lia].
      rewrite (lsum_one (fun i => 1 / (INR (i + 1) * PI) * amp * sin 0) (fun i => (i + 1)%nat) h _ (h - 1)%nat (seq_NoDup _ _)); [| lia | apply in_seq; lia | lia].
      replace (h - 1 + 1)%nat with h by lia. rewrite cos_0, sin_0. split; [field; lra | lra].
    + rewrite !lsum_none; [lra | |]; intros i Hi; apply in_seq in Hi; lia.
    + rewrite !lsum_none; [lra | |]; intros i Hi; apply in_seq in Hi; lia.
    + rewrite !lsum_none; [lra | |]; intros i Hi; apply in_seq in Hi; lia.
Qed.
Lemma odd_length : forall n a t, length (add_odd n a t) = length t.
Proof. intros. unfold add_odd. apply (fold_length (fun i k x => x + sin (INR k / len * PI * 2 * (INR (i * 2) + 1) + odd_phase i) * odd_amp a i)). Qed.
Lemma odd_parts : forall num falloff t i, length t = points -> (2 * (2 * num) < points)%nat -> (2 * (2 * i + 1) < points)%nat ->
  let h := (2 * i + 1)%nat in
  sine_part (add_odd num falloff t) h = sine_part t h + (if (i <? num)%nat then odd_amp falloff i * cos (odd_phase i) else 0) /\
  cosine_part (add_odd num falloff t) h = cosine_part t h + (if (i <? num)%nat then odd_amp falloff i * sin (odd_phase i) else 0).
Proof.
  intros num falloff t i L Hb Hi h. pose proof len_pos as Lp. assert (Hh : harmonic t h) by (unfold harmonic, h; lia).
  destruct (fold_parts (fun i k x => x + sin (INR k / len * PI * 2 * (INR (i * 2) + 1) + odd_phase i) * odd_amp falloff i) (fun i => (2 * i + 1)%nat) (odd_amp falloff) odd_phase (seq 0 num) t h L Hh) as [A B].
  - intros j k x _. replace (INR (2 * j + 1)) with (INR (j * 2) + 1) by (rewrite plus_INR, !mult_INR; cbn; lra).
    replace (INR k / len * PI * 2 * (INR (j * 2) + 1) + odd_phase j) with (2 * PI * (INR (j * 2) + 1) * INR k / len + odd_phase j) by (field; lra). lra.
  - intros j Hj. apply in_seq in Hj. lia.
  - unfold add_odd. rewrite A, B. clear A B. destruct (Nat.ltb_spec i num).
    + rewrite (lsum_one (fun i => odd_amp falloff i * cos (odd_phase i)) (fun i => (2 * i + 1)%nat) h _ i (seq_NoDup _ _)); [| lia | apply in_seq; lia | reflexivity].
      rewrite (lsum_one (fun i => odd_amp falloff i * sin (odd_phase i)) (fun i => (2 * i + 1)%nat) h _ i (seq_NoDup _ _)); [| lia | apply in_seq; lia | reflexivity]. lra.
    + unfold h. rewrite !lsum_none; [lra | |]; intros j Hj; apply in_seq in Hj; lia.
Qed.
Lemma odd_even : forall num falloff t h, length t = points -> (2 * (2 * num) < points)%nat -> harmonic t h -> Nat.Even h ->
  sine_part (add_odd num falloff t) h = sine_part t h /\ cosine_part (add_odd num falloff t) h = cosine_part t h.
Proof.
  intros num falloff t h L Hb Hh He. pose proof len_pos as Lp.
  destruct (fold_parts (fun i k x => x + sin (INR k / len * PI * 2 * (INR (i * 2) + 1) + odd_phase i) * odd_amp falloff i) (fun i => (2 * i + 1)%nat) (odd_amp falloff) odd_phase (seq 0 num) t h L Hh) as [A B].
  - intros j k x _. replace (INR (2 * j + 1)) with (INR (j * 2) + 1) by (rewrite plus_INR, !mult_INR; cbn; lra).
    replace (INR k / len * PI * 2 * (INR (j * 2) + 1) + odd_phase j) with (2 * PI * (INR (j * 2) + 1) * INR k / len + odd_phase j) by (field; lra). lra.
  - intros j Hj. apply in_seq in Hj. lia.
  - unfold add_odd. rewrite A, B. rewrite !lsum_none; [lra | |]; intros j _ E; destruct He as [q Hq]; lia.
Qed.
Lemma fill_length : forall n f t, length (fill_sine n f t) = length t.
Proof. intros. unfold fill_sine. apply (fold_length (fun m i x => x + sin (INR i / len * PI * 2 * (f * INR (m + 1)) + 0) * fill_amp n m)). Qed.
Lemma fill_parts : forall num j t h, length t = points -> (0 < j)%nat -> (2 * (j * num) < points)%nat -> harmonic t h ->
  sine_part (fill_sine num (INR j) t) h = sine_part t h + (if ((h mod j =? 0) && (h / j <=? num))%nat then fill_amp num (h / j - 1) else 0) /\
  cosine_part (fill_sine num (INR j) t) h = cosine_part t h.
Proof.
  intros num j t h L Hj Hb Hh. pose proof len_pos as Lp.
  destruct (fold_parts (fun m i x => x + sin (INR i / len * PI * 2 * (INR j * INR (m + 1)) + 0) * fill_amp num m) (fun m => (j * (m + 1))%nat) (fill_amp num) (fun _ => 0) (seq 0 num) t h L Hh) as [A B].
  - intros m k x _. rewrite mult_INR. replace (INR k / len * PI * 2 * (INR j * INR (m + 1)) + 0) with (2 * PI * (INR j * INR (m + 1)) * INR k / len + 0) by (field; lra). lra.
  - intros m Hm. apply in_seq in Hm. assert (j * (m + 1) <= j * num)%nat by (apply Nat.mul_le_mono_l; lia). lia.
  - unfold fill_sine. rewrite A, B. clear A B. destruct Hh as [H0 _]. pose proof (Nat.div_mod h j ltac:(lia)) as D.
    destruct (Nat.eqb_spec (h mod j) 0) as [M | M]; cbn [andb].
    + assert (Eh : (h = j * (h / j))%nat) by lia. assert (0 < h / j)%nat by (destruct (h / j)%nat; [lia | lia]).
      destruct (Nat.leb_spec (h / j) num).
      * rewrite (lsum_one (fun m => fill_amp num m * cos 0) (fun m => (j * (m + 1))%nat) h _ (h / j - 1)%nat (seq_NoDup _ _)); [| intros a b E; apply Nat.mul_cancel_l in E; lia | apply in_seq; lia | replace (h / j - 1 + 1)%nat with (h / j)%nat by lia; lia].
        rewrite (lsum_one (fun m => fill_amp num m * sin 0) (fun m => (j * (m + 1))%nat) h _ (h / j - 1)%nat (seq_NoDup _ _)); [| intros a b E; apply Nat.mul_cancel_l in E; lia | apply in_seq; lia | replace (h / j - 1 + 1)%nat with (h / j)%nat by lia; lia].
        rewrite cos_0, sin_0. lra.
      * rewrite !lsum_none; [lra | |]; intros m Hm E; apply in_seq in Hm; assert (j * (m + 1) <= j * num)%nat by (apply Nat.mul_le_mono_l; lia); assert (j * num < j * (h / j))%nat by (apply Nat.mul_lt_mono_pos_l; lia); lia.
    + rewrite !lsum_none; [lra | |]; intros m Hm E; apply M; rewrite <- E, Nat.mul_comm; apply Nat.mod_mul; lia.
Qed.
Lemma new_length : length new_table = points. Proof. apply repeat_length. Qed.
Lemma new_silent : forall h, silent_at new_table h.
Proof.
  intros h. assert (Z : forall k, nth k new_table 0 = 0) by (intros k; unfold new_table; apply nth_repeat).
  unfold silent_at, sine_part, cosine_part. rewrite (rsum_ext _ (fun _ => 0)), (rsum_ext (fun k => nth k new_table 0 * cos _) (fun _ => 0)); [| intros k _; rewrite Z; lra | intros k _; rewrite Z; lra].
  rewrite rsum_const. lra.
Qed.

(** ** The limits *)
Lemma harmonics : map max_harmonic (seq 0 17) = [625; 416; 277; 185; 123; 82; 54; 36; 24; 16; 10; 7; 4; 3; 2; 1; 0]%nat.
Proof. vm_compute. reflexivity. Qed.
Lemma tables_17 : num_tables = 17%nat.
Proof. vm_compute. reflexivity. Qed.
Lemma max_harmonic_nth : forall i, (i < 17)%nat -> max_harmonic i = nth i [625; 416; 277; 185; 123; 82; 54; 36; 24; 16; 10; 7; 4; 3; 2; 1; 0]%nat 0%nat.
Proof. intros i Hi. rewrite <- harmonics. symmetry. apply nth_error_nth. rewrite nth_error_map. rewrite (nth_error_nth' _ 0%nat) by (rewrite seq_length; exact Hi). rewrite seq_nth by exact Hi. reflexivity. Qed.
Lemma top_steps : forall i m, (i < 17)%nat -> m = nth i [625; 416; 277; 185; 123; 82; 54; 36; 24; 16; 10; 7; 4; 3; 2; 1; 0]%Z 0%Z -> IZR m * top_freq i <= 20000 < (IZR m + 1) * top_freq i /\ 0 < top_freq i.
Proof. intros i m Hi ->. unfold top_freq. do 17 (destruct i as [| i]; [cbn [nth pow]; lra |]). lia. Qed.
Lemma limit_iff : forall i h, (i < 17)%nat -> (h <= max_harmonic i)%nat <-> INR h * top_freq i <= hearing.
Proof.
  intros i h Hi. rewrite (max_harmonic_nth i Hi). set (m := nth i [625; 416; 277; 185; 123; 82; 54; 36; 24; 16; 10; 7; 4; 3; 2; 1; 0]%Z 0%Z).
  assert (E : nth i [625; 416; 277; 185; 123; 82; 54; 36; 24; 16; 10; 7; 4; 3; 2; 1; 0]%nat 0%nat = Z.to_nat m) by (unfold m; do 17 (destruct i as [| i]; [reflexivity |]); lia).
  assert (P : (0 <= m)%Z) by (unfold m; do 17 (destruct i as [| i]; [discriminate |]); lia).
  destruct (top_steps i m Hi eq_refl) as [[A B] C]. rewrite E. unfold hearing. rewrite INR_IZR_INZ. split; intros H.
  - assert (IZR (Z.of_nat h) <= IZR m) by (apply IZR_le; lia). nra.
  - assert (IZR (Z.of_nat h) < IZR (m + 1)) by (rewrite plus_IZR; nra). apply lt_IZR in H0. lia.
Qed.
Lemma max_harmonic_625 : forall i, (i < 17)%nat -> (max_harmonic i <= 625)%nat.
Proof. intros i Hi. rewrite (max_harmonic_nth i Hi). do 17 (destruct i as [| i]; [cbn; lia |]). lia. Qed.

Lemma limits_val : forall i, (i < 16)%nat -> val (nth i limits fzero) = top_freq i /\ fin (nth i limits fzero).
Proof.
  assert (G : forall (x : f32) m e, B2SF x = SpecFloat.S754_finite false m e -> val x = IZR (Zpos m) * bpow radix2 e /\ fin x).
  { intros x m e H. split; [unfold val; rewrite <- SF2R_B2SF, H; reflexivity |]. unfold fin. rewrite <- is_finite_SF_B2SF, H. reflexivity. }
  intros i Hi. unfold top_freq.
  do 16 (destruct i as [| i]; [lazymatch goal with |- val ?x = _ /\ _ => let b := eval vm_compute in (B2SF x) in lazymatch b with SpecFloat.S754_finite false ?m ?e => destruct (G x m e) as [A B]; [vm_compute; reflexivity |] end end; split; [rewrite A; cbn [pow]; unfold bpow, Z.pow_pos, Pos.iter, radix_val, radix2; cbn [Z.mul Pos.mul]; lra | exact B] |]). lia.
Qed.
Lemma index_in : forall ls (f : f32), Forall (fun l => fin l) ls -> fin f ->
  (forall i, (i < table_index_in ls f)%nat -> val (nth i ls fzero) < val f) /\ ((table_index_in ls f < length ls)%nat -> val f <= val (nth (table_index_in ls f) ls fzero)).
Proof.
  intros ls f H Hf. induction H as [| l ls Hl _ [IH1 IH2]]; cbn [table_index_in length]; [split; [lia | lia] |].
  destruct (fleb f l) eqn:E.
  - apply fleb_true in E; [| exact Hf | exact Hl]. split; [lia |]. intros _. exact E.
  - apply fleb_false in E; [| exact Hf | exact Hl]. split; [| intros Hk; cbn [nth]; apply IH2; lia]. intros [| i] Hi; cbn [nth]; [exact E | apply IH1; lia].
Qed.
Lemma limits_length : length limits = 16%nat. Proof. reflexivity. Qed.
Lemma index_le : forall ls (f : f32), (table_index_in ls f <= length ls)%nat.
Proof. intros ls f. induction ls as [| l ls IH]; cbn [table_index_in length]; [lia |]. destruct (fleb f l); lia. Qed.
Lemma table_choice : forall f : f32, fin f -> let i := freq_to_table_index f in (i < 17)%nat /\ (val f <= top_freq 16 -> val f <= top_freq i) /\ forall j, (j < i)%nat -> top_freq j < val f.
Proof.
  intros f Hf i. pose proof (index_le limits f) as L. rewrite limits_length in L. change (table_index_in limits f) with i in L.
  assert (Hfin : Forall (fun l => fin l) limits).
  { apply Forall_forall. intros l Hl. destruct (In_nth _ _ fzero Hl) as (j & Hj & <-). rewrite limits_length in Hj. apply limits_val. exact Hj. }
  destruct (index_in limits f Hfin Hf) as [A B]. change (table_index_in limits f) with i in A, B. split; [lia |]. split.
  - intros H. destruct (Nat.eq_dec i 16) as [-> | N]; [exact H |]. rewrite <- (proj1 (limits_val i ltac:(lia))). apply B. rewrite limits_length. lia.
  - intros j Hj. rewrite <- (proj1 (limits_val j ltac:(lia))). apply A. exact Hj.
Qed.

(** ** Sets of tables *)
Lemma full_at : forall ts i t, full ts -> nth_error ts i = Some t -> (i < 17)%nat /\ length t = points.
Proof.
  intros ts i t [L H] E. split; [rewrite <- tables_17, <- L; apply nth_error_Some; congruence |]. rewrite Forall_forall in H. apply H. exact (nth_error_In _ _ E).
Qed.
Lemma each_inv : forall A B (f : nat -> A -> B) l k y, nth_error (each f l) k = Some y -> exists x, nth_error l k = Some x /\ y = f k x.
Proof.
  intros A B f l k y H. destruct (nth_error l k) as [x |] eqn:E.
  - exists x. rewrite (each_nth_error _ _ f l k x E) in H. injection H as <-. auto.
  - apply nth_error_None in E. rewrite <- (each_length _ _ f l) in E. apply nth_error_None in E. congruence.
Qed.
Lemma new_full : full new_tables.
Proof. split; [apply repeat_length |]. apply Forall_forall. intros t Ht. apply repeat_spec in Ht. subst t. apply new_length. Qed.
Lemma new_limited : all_limited new_tables.
Proof. intros i t E h _ _. apply nth_error_In, repeat_spec in E. subst t. apply new_silent. Qed.
Lemma each_full : forall f ts, full ts -> (forall i t, length t = points -> length (f i t : table) = points) -> full (each f ts).
Proof.
  intros f ts [L H] Hf. split; [rewrite each_length; exact L |]. apply Forall_forall. intros t Ht. apply In_nth_error in Ht as [k Hk].
  destruct (each_inv _ _ f ts k t Hk) as (x & E & ->). apply Hf. rewrite Forall_forall in H. apply H. exact (nth_error_In _ _ E).
Qed.
(** A harmonic above the limit is above the number of harmonics *)
Lemma above : forall i h, (i < 17)%nat -> hearing < INR h * top_freq i -> (max_harmonic i < h)%nat.
Proof. intros i h Hi H. destruct (Nat.lt_ge_cases (max_harmonic i) h) as [K | K]; [exact K |]. apply (limit_iff i h Hi) in K. lra. Qed.
Lemma room : (2 * 4096 < points)%nat.
Proof. pose proof points_Z. lia. Qed.
Lemma Zceil_INR : forall j, Z.to_nat (Zceil (INR j)) = j.
Proof. intros j. rewrite INR_IZR_INZ, Zceil_IZR, Nat2Z.id. reflexivity. Qed.
Lemma sine_limited : forall j amp phi ts, full ts -> all_limited ts -> full (tables_sine (INR j) amp phi ts) /\ all_limited (tables_sine (INR j) amp phi ts).
Proof.
  intros j amp phi ts F A. split.
  - apply each_full; [exact F |]. intros i t L. destruct (_ <=? _)%nat; [| exact L]. unfold add_sine. rewrite sine_loop_length. exact L.
  - intros i t E. destruct (each_inv _ _ _ _ _ _ E) as (t0 & E0 & ->). destruct (full_at ts i t0 F E0) as [Hi L]. rewrite Zceil_INR. destruct (Nat.leb_spec j (max_harmonic i)) as [Hj | Hj]; [| exact (A i t0 E0)].
    intros h Hh Hf. assert (Hh0 : harmonic t0 h) by (unfold harmonic in *; unfold add_sine in Hh; rewrite sine_loop_length in Hh; exact Hh).
    pose proof (max_harmonic_625 i Hi). pose proof room. pose proof (above i h Hi Hf).
    destruct (add_sine_parts j amp phi t0 h L ltac:(lia) Hh0) as [P Q]. destruct (A i t0 E0 h Hh0 Hf) as [S C].
    destruct (Nat.eqb_spec j h); [lia |]. unfold silent_at. rewrite P, Q, S, C. lra.
Qed.
Lemma saw_at : forall first last amp ts i t, full ts -> nth_error ts i = Some t -> exists t', nth_error (tables_saw first last amp ts) i = Some t' /\ length t' = points /\
  forall h, harmonic t h -> cosine_part t' h = cosine_part t h /\
    sine_part t' h = sine_part t h + (let last := Nat.min last (max_harmonic i) in if ((first <? last) && (first <? h) && (h <=? last + 1))%nat then amp / (INR h * PI) else 0).
Proof.
  intros first last amp ts i t F E. destruct (full_at ts i t F E) as [Hi L]. eexists. split; [unfold tables_saw; apply each_nth_error; exact E |]. cbn zeta.
  pose proof (max_harmonic_625 i Hi). pose proof room. destruct (Nat.ltb_spec first (Nat.min last (max_harmonic i))) as [Hl | Hl]; cbn [andb].
  - split; [rewrite saw_length; exact L |]. intros h Hh. destruct (saw_parts first (Nat.min last (max_harmonic i)) amp t h L ltac:(lia) Hh) as [-> ->]. split; reflexivity.
  - split; [exact L |]. intros h Hh. split; [reflexivity | lra].
Qed.
Lemma odd_at : forall num falloff ts i t, full ts -> nth_error ts i = Some t -> exists t', nth_error (tables_odd num falloff ts) i = Some t' /\ length t' = points /\
  forall n, (2 * (2 * n + 1) < points)%nat -> let h := (2 * n + 1)%nat in let on := (n <? Nat.min num (max_harmonic i))%nat in
    sine_part t' h = sine_part t h + (if on then odd_amp falloff n * cos (odd_phase n) else 0) /\
    cosine_part t' h = cosine_part t h + (if on then odd_amp falloff n * sin (odd_phase n) else 0).
Proof.
  intros num falloff ts i t F E. destruct (full_at ts i t F E) as [Hi L]. eexists. split; [unfold tables_odd; apply each_nth_error; exact E |].
  pose proof (max_harmonic_625 i Hi). pose proof room. split; [rewrite odd_length; exact L |]. intros n Hn. apply odd_parts; [exact L | lia | exact Hn].
Qed.
Lemma fill_limited : forall num ts, full ts -> all_limited ts -> full (tables_fill num 1 ts) /\ all_limited (tables_fill num 1 ts).
Proof.
  intros num ts F A. split.
  - apply each_full; [exact F |]. intros i t L. rewrite fill_length. exact L.
  - intros i t E. destruct (each_inv _ _ _ _ _ _ E) as (t0 & E0 & ->). destruct (full_at ts i t0 F E0) as [Hi L]. rewrite Rmult_1_r, INR_IZR_INZ, Ztrunc_IZR, Nat2Z.id.
    intros h Hh Hf. assert (Hh0 : harmonic t0 h) by (unfold harmonic in *; rewrite fill_length in Hh; exact Hh).
    pose proof (max_harmonic_625 i Hi). pose proof room. pose proof (above i h Hi Hf). change 1 with (INR 1).
    destruct (fill_parts (Nat.min num (max_harmonic i)) 1 t0 h L ltac:(lia) ltac:(lia) Hh0) as [P Q]. destruct (A i t0 E0 h Hh0 Hf) as [S C].
    rewrite Nat.div_1_r in P. unfold silent_at. rewrite P, Q, S, C. destruct (Nat.leb_spec h (Nat.min num (max_harmonic i))); [lia |]. rewrite andb_false_r. lra.
Qed.

(** ** Windows *)
Lemma window_at : forall f a p b k, (k < points)%nat -> nth k (add_sine f a p (fill b new_table)) 0 = b + a * sin (p + 2 * PI * f * INR k / len).
Proof.
  intros f a p b k Hk. unfold add_sine. rewrite sine_loop_nth by (unfold fill; rewrite map_length, new_length; exact Hk).
  assert (E : nth k (fill b new_table) 0 = b).
  { unfold fill. rewrite (nth_indep _ 0 b) by (rewrite map_length, new_length; exact Hk). exact (map_nth (fun _ : R => b) new_table 0 k). }
  rewrite E. pose proof len_pos. replace (INR k * (f * PI * 2 / len)) with (2 * PI * f * INR k / len) by (field; lra). lra.
Qed.
Lemma sin_back : forall x, sin (- (1 / 2) * PI + x) = - cos x.
Proof. intros x. rewrite sin_plus. replace (- (1 / 2) * PI) with (- (PI / 2)) by lra. rewrite sin_neg, cos_neg, sin_PI2, cos_PI2. lra. Qed.
Lemma windows : forall k, (k < points)%nat ->
  nth k hann_window 0 = sin (PI * INR k / len) * sin (PI * INR k / len) /\
  nth k hamming_window 0 = 53836 / 100000 - 46164 / 100000 * cos (2 * PI * INR k / len) /\
  nth k sine_window 0 = sin (PI * INR k / len).
Proof.
  intros k Hk. pose proof len_pos as Lp. split; [| split].
  - unfold hann_window. rewrite window_at by exact Hk. rewrite sin_back. replace (2 * PI * 1 * INR k / len) with (2 * (PI * INR k / len)) by (field; lra). rewrite cos_2a_sin. lra.
  - unfold hamming_window. rewrite window_at by exact Hk. rewrite sin_back. replace (2 * PI * 1 * INR k / len) with (2 * PI * INR k / len) by (field; lra). lra.
  - unfold sine_window, add_sine. rewrite sine_loop_nth by (rewrite new_length; exact Hk). unfold new_table at 1. rewrite nth_repeat.
    replace (0 + INR k * (1 / 2 * PI * 2 / len)) with (PI * INR k / len) by (field; lra). lra.
Qed.

(** ** What is heard *)
Lemma heard : forall ts (f : f32) t h, all_limited ts -> fin f -> nth_error ts (freq_to_table_index f) = Some t -> harmonic t h -> hearing < INR h * val f -> silent_at t h.
Proof.
  intros ts f t h A Hf E Hh Hl. destruct (table_choice f Hf) as (Hi & Hc & _). apply (A _ t E h Hh). pose proof (pos_INR h) as P.
  destruct (Rle_or_lt (val f) (top_freq 16)) as [H | H].
  - eapply Rlt_le_trans; [exact Hl |]. apply Rmult_le_compat_l; [exact P | apply Hc; exact H].
  - assert (Ei : freq_to_table_index f = 16%nat).
    { destruct (Nat.eq_dec (freq_to_table_index f) 16) as [D | D]; [exact D |]. exfalso.
      assert (Hj : (freq_to_table_index f < 16)%nat) by lia. pose proof (index_in limits f) as K. destruct K as [_ K].
      - apply Forall_forall. intros l Hlm. destruct (In_nth _ _ fzero Hlm) as (j & Hj2 & <-). rewrite limits_length in Hj2. apply limits_val. exact Hj2.
      - exact Hf.
      - rewrite limits_length in K. specialize (K Hj). change (table_index_in limits f) with (freq_to_table_index f) in K. rewrite (proj1 (limits_val _ Hj)) in K.
        assert (M : top_freq (freq_to_table_index f) <= top_freq 16). { unfold top_freq. apply Rmult_le_compat_l; [lra |]. apply Rle_pow; [lra | lia]. } lra. }
    rewrite Ei. assert (T : hearing < top_freq 16) by (unfold hearing, top_freq; lra). assert (H1 : 1 <= INR h) by (change 1 with (INR 1); apply le_INR; destruct Hh; lia).
    eapply Rlt_le_trans; [exact T |]. rewrite <- (Rmult_1_l (top_freq 16)) at 1. apply Rmult_le_compat_r; [unfold top_freq; lra | exact H1].
Qed.
Lemma sine_at : forall j amp phi ts i t, full ts -> nth_error ts i = Some t -> exists t', nth_error (tables_sine (INR j) amp phi ts) i = Some t' /\ length t' = points /\
  forall h, harmonic t h -> (h <> j -> sine_part t' h = sine_part t h /\ cosine_part t' h = cosine_part t h) /\
    (h = j -> INR j * top_freq i <= hearing -> sine_part t' h = sine_part t h + amp * cos phi /\ cosine_part t' h = cosine_part t h + amp * sin phi).
Proof.
  intros j amp phi ts i t F E. destruct (full_at ts i t F E) as [Hi L]. eexists. split; [unfold tables_sine; apply each_nth_error; exact E |]. rewrite Zceil_INR. pose proof room as Rm. pose proof (max_harmonic_625 i Hi) as M.
  destruct (Nat.leb_spec j (max_harmonic i)) as [Hj | Hj].
  - split; [unfold add_sine; rewrite sine_loop_length; exact L |]. intros h Hh. destruct (add_sine_parts j amp phi t h L ltac:(lia) Hh) as [A B]. split.
    + intros D. assert (Q : (j =? h)%nat = false) by (apply Nat.eqb_neq; congruence). rewrite Q in A, B. split; lra.
    + intros -> _. rewrite Nat.eqb_refl in A, B. split; assumption.
  - split; [exact L |]. intros h Hh. split; [split; reflexivity |]. intros -> D. apply (limit_iff i j Hi) in D. lia.
Qed.
Lemma negative_sine : forall f a t, add_sine (- f) a 0 t = add_sine f (- a) 0 t.
Proof.
  intros f a t. apply (nth_ext _ _ 0 0); [unfold add_sine; rewrite !sine_loop_length; reflexivity |]. intros k Hk. unfold add_sine in *. rewrite sine_loop_length in Hk. rewrite !sine_loop_nth by exact Hk.
  replace (0 + INR k * (- f * PI * 2 / len)) with (- (0 + INR k * (f * PI * 2 / len))) by (unfold Rdiv; ring). rewrite sin_neg. lra.
Qed.
