(** C72: what is in the wavetables *)
From Coq Require Import Reals Lra Lia.
From Flocq Require Import Core BinarySingleNaN.
From Verif Require Import Base FloatBase OscModel RngModel WaveModel WaveSpec WaveProofs WaveFloat.
Local Open Scope R_scope.

(** The table that is played at a frequency has no harmonic that would sound above 20 kHz, and the number of harmonics of a table,
    computed in f32, is exactly the number of those that stay below *)
Theorem C72_choice : forall ts (f : f32) t h, all_limited ts -> fin f -> nth_error ts (freq_to_table_index f) = Some t -> harmonic t h -> hearing < INR h * val f -> silent_at t h.
Proof. exact heard. Qed.
Print Assumptions C72_choice.
Theorem C72_limit : forall i h, (i < num_tables)%nat -> (h <= max_harmonic i)%nat <-> INR h * top_freq i <= hearing.
Proof. rewrite tables_17. exact limit_iff. Qed.
Print Assumptions C72_limit.

(** Sines of whole frequencies: tables stay limited; a harmonic is added to exactly the tables in which it stays below the limit *)
Theorem C72_new : full new_tables /\ all_limited new_tables.
Proof. exact (conj new_full new_limited). Qed.
Print Assumptions C72_new.
Theorem C72_sine : forall j amp phi ts, full ts -> all_limited ts -> full (tables_sine (INR j) amp phi ts) /\ all_limited (tables_sine (INR j) amp phi ts).
Proof. exact sine_limited. Qed.
Print Assumptions C72_sine.
Theorem C72_sine_content : forall j amp phi ts i t, full ts -> nth_error ts i = Some t -> exists t', nth_error (tables_sine (INR j) amp phi ts) i = Some t' /\ length t' = points /\
  forall h, harmonic t h -> (h <> j -> sine_part t' h = sine_part t h /\ cosine_part t' h = cosine_part t h) /\
    (h = j -> INR j * top_freq i <= hearing -> sine_part t' h = sine_part t h + amp * cos phi /\ cosine_part t' h = cosine_part t h + amp * sin phi).
Proof. exact sine_at. Qed.
Print Assumptions C72_sine_content.
Theorem C72_fill : forall num ts, full ts -> all_limited ts -> full (tables_fill num 1 ts) /\ all_limited (tables_fill num 1 ts).
Proof. exact fill_limited. Qed.
Print Assumptions C72_fill.

(** Multiplying (and so normalising, up to rounding): every harmonic is scaled, and tables stay limited *)
Theorem C72_multiply : forall m ts, full ts -> full (map (multiply m) ts) /\ (all_limited ts -> all_limited (map (multiply m) ts)) /\
  forall i t, nth_error ts i = Some t -> exists t', nth_error (map (multiply m) ts) i = Some t' /\ length t' = points /\
    forall h, sine_part t' h = m * sine_part t h /\ cosine_part t' h = m * cosine_part t h.
Proof.
  intros m ts [F1 F2].
  assert (P : forall t h, sine_part (multiply m t) h = m * sine_part t h /\ cosine_part (multiply m t) h = m * cosine_part t h).
  { intros t h. assert (L : length (multiply m t) = length t) by apply map_length. assert (N : forall k, nth k (multiply m t) 0 = m * nth k t 0).
    { intros k. unfold multiply. replace 0 with (0 * m) at 1 by ring. rewrite (map_nth (fun x => x * m)). ring. }
    unfold sine_part, cosine_part. rewrite L. split.
    - rewrite (rsum_ext _ (fun k => m * (nth k t 0 * sin (2 * PI * INR h * INR k / INR (length t))))) by (intros k _; rewrite N; ring). rewrite rsum_scal. ring.
    - rewrite (rsum_ext _ (fun k => m * (nth k t 0 * cos (2 * PI * INR h * INR k / INR (length t))))) by (intros k _; rewrite N; ring). rewrite rsum_scal. ring. }
  split; [split; [rewrite map_length; exact F1 | apply Forall_map; refine (Forall_impl _ _ F2); intros t Ht; unfold multiply; rewrite map_length; exact Ht] |]. split.
  - intros A i t E. rewrite nth_error_map in E. destruct (nth_error ts i) as [t0 |] eqn:E0; [| discriminate E]. injection E as <-. intros h Hh Hl.
    assert (Hh0 : harmonic t0 h) by (unfold harmonic, multiply in *; rewrite map_length in Hh; exact Hh). destruct (A i t0 E0 h Hh0 Hl) as [S C]. destruct (P t0 h) as [S' C'].
    split; [rewrite S', S | rewrite C', C]; ring.
  - intros i t E. exists (multiply m t). rewrite nth_error_map, E. split; [reflexivity |]. split; [unfold multiply; rewrite map_length; apply (proj1 (Forall_forall _ _) F2); apply (nth_error_In _ _ E) | apply P].
Qed.
Print Assumptions C72_multiply.

(** Two sines, played at 3000 Hz: nothing at the tenth harmonic, 30 kHz *)
Definition two : tables := tables_sine (INR 10) (1 / 4) 0 (tables_sine (INR 1) 1 0 new_tables).
Lemma points_big : forall h, (0 < h < 1000)%nat -> harmonic new_table h.
Proof. intros h H. unfold harmonic. rewrite new_length. pose proof room. lia. Qed.
Lemma new_at : forall i, (i < 17)%nat -> nth_error new_tables i = Some new_table.
Proof. intros i H. unfold new_tables. rewrite tables_17. apply nth_error_repeat. exact H. Qed.
Example C72_two_limited : all_limited two.
Proof. destruct (C72_sine 1 1 0 new_tables new_full new_limited) as [F A]. apply (C72_sine 10 (1 / 4) 0 _ F A). Qed.
Example C72_two_played : exists t, nth_error two (freq_to_table_index (fz 3000)) = Some t /\ silent_at t 10.
Proof.
  destruct (C72_sine 1 1 0 new_tables new_full new_limited) as [F A]. assert (Ei : freq_to_table_index (fz 3000) = 12%nat) by (vm_compute; reflexivity).
  destruct (C72_sine_content 1 1 0 new_tables 12 new_table new_full (new_at 12 ltac:(lia))) as (t1 & E1 & L1 & _).
  destruct (C72_sine_content 10 (1 / 4) 0 _ 12 t1 F E1) as (t2 & E2 & L2 & _). exists t2. rewrite Ei. split; [exact E2 |].
  apply (C72_choice two (fz 3000)); [exact C72_two_limited | apply (fz_small (prec := 24) (emax := 128) 3000); lia | rewrite Ei; exact E2 | |].
  - unfold harmonic. rewrite L2. pose proof room. lia.
  - rewrite (proj1 (fz_small (prec := 24) (emax := 128) 3000 ltac:(lia))). unfold hearing. cbn [INR]. lra.
Qed.
Example C72_two_kept : exists t, nth_error two 7 = Some t /\ sine_part t 10 = 1 / 4 /\ sine_part t 1 = 1.
Proof.
  destruct (C72_sine 1 1 0 new_tables new_full new_limited) as [F A].
  destruct (C72_sine_content 1 1 0 new_tables 7 new_table new_full (new_at 7 ltac:(lia))) as (t1 & E1 & L1 & H1).
  destruct (C72_sine_content 10 (1 / 4) 0 _ 7 t1 F E1) as (t2 & E2 & L2 & H2). exists t2. split; [exact E2 |].
  assert (Z : forall h, sine_part new_table h = 0) by apply new_silent.
  assert (Q : forall h, (0 < h < 1000)%nat -> harmonic t1 h) by (intros h H; unfold harmonic; rewrite L1; pose proof room; lia). rewrite sin_0 in *. rewrite cos_0 in *.
  assert (T10 : INR 10 * top_freq 7 <= hearing) by (unfold top_freq, hearing; cbn [INR]; lra). assert (T1 : INR 1 * top_freq 7 <= hearing) by (unfold top_freq, hearing; cbn [INR]; lra).
  split.
  - rewrite (proj1 (proj2 (H2 10%nat (Q 10%nat ltac:(lia))) eq_refl T10)). rewrite (proj1 (proj1 (H1 10%nat (points_big 10 ltac:(lia))) ltac:(lia))). rewrite Z. lra.
  - rewrite (proj1 (proj1 (H2 1%nat (Q 1%nat ltac:(lia))) ltac:(lia))). rewrite (proj1 (proj2 (H1 1%nat (points_big 1 ltac:(lia))) eq_refl T1)). rewrite Z. lra.
Qed.

(** A negative frequency, the same sound, is added to every table *)
Theorem C72_negative_refuted : ~ all_limited (tables_sine (- INR 3) 1 0 new_tables).
Proof.
  intros A. assert (E : nth_error (tables_sine (- INR 3) 1 0 new_tables) 16 = Some (add_sine (INR 3) (- (1)) 0 new_table)).
  { unfold tables_sine. rewrite (each_nth_error _ _ _ new_tables 16 new_table (new_at 16 ltac:(lia))). rewrite <- negative_sine.
    replace (Z.to_nat (Zceil (- INR 3))) with 0%nat; [reflexivity |]. replace (- INR 3) with (IZR (-3)) by (cbn [INR]; lra). rewrite Zceil_IZR. reflexivity. }
  pose proof (points_big 3 ltac:(lia)) as H3. assert (L : length (add_sine (INR 3) (- (1)) 0 new_table) = length new_table) by (unfold add_sine; apply sine_loop_length).
  destruct (A 16%nat _ E 3%nat) as [S _]; [unfold harmonic in *; rewrite L; exact H3 | unfold hearing, top_freq; cbn [INR]; lra |].
  destruct (add_sine_parts 3 (- (1)) 0 new_table 3 (new_length) ltac:(pose proof room; lia) H3) as [B _]. rewrite B in S. cbn [Nat.eqb] in S. rewrite cos_0, (proj1 (new_silent 3)) in S. lra.
Qed.
Print Assumptions C72_negative_refuted.
(** [fill_sine] at a frequency of 2: the limit is multiplied by the frequency, not divided *)
Theorem C72_fill_refuted : ~ all_limited (tables_fill 8 (INR 2) new_tables).
Proof.
  intros A. assert (E : nth_error (tables_fill 8 (INR 2) new_tables) 15 = Some (fill_sine 2 (INR 2) new_table)).
  { unfold tables_fill. rewrite (each_nth_error _ _ _ new_tables 15 new_table (new_at 15 ltac:(lia))). f_equal. f_equal. rewrite (max_harmonic_nth 15) by lia. cbn [nth]. rewrite <- mult_INR, INR_IZR_INZ, Ztrunc_IZR, Nat2Z.id. reflexivity. }
  pose proof (points_big 4 ltac:(lia)) as H4.
  destruct (A 15%nat _ E 4%nat) as [S _]; [unfold harmonic in *; rewrite fill_length; exact H4 | unfold hearing, top_freq; cbn [INR]; lra |].
  destruct (fill_parts 2 2 new_table 4 new_length ltac:(lia) ltac:(pose proof room; lia) H4) as [B _]. rewrite B in S. rewrite (proj1 (new_silent 4)) in S. cbn in S. lra.
Qed.
Print Assumptions C72_fill_refuted.

(** Sawtooths: exactly the harmonics first+1 .. last+1, where the limit is applied to [last]: one too many *)
Theorem C72_saw_partial : forall first last amp ts i t, full ts -> nth_error ts i = Some t -> exists t', nth_error (tables_saw first last amp ts) i = Some t' /\ length t' = points /\
  forall h, harmonic t h -> cosine_part t' h = cosine_part t h /\
    sine_part t' h = sine_part t h + (let last := Nat.min last (max_harmonic i) in if ((first <? last) && (first <? h) && (h <=? last + 1))%nat then amp / (INR h * PI) else 0).
Proof. exact saw_at. Qed.
Print Assumptions C72_saw_partial.
Theorem C72_saw_refuted : ~ all_limited (tables_saw 0 5 1 new_tables) /\ ~ all_limited (tables_aliasing_saw 5 1 new_tables).
Proof.
  pose proof (points_big 2 ltac:(lia)) as H2. pose proof PI_RGT_0 as P. assert (Q : 1 / (INR 2 * PI) <> 0) by (apply Rgt_not_eq, Rdiv_lt_0_compat; [lra |]; cbn [INR]; lra).
  assert (T : hearing < INR 2 * top_freq 15) by (unfold hearing, top_freq; cbn [INR]; lra). split; intros A.
  - destruct (saw_at 0 5 1 new_tables 15 new_table new_full (new_at 15 ltac:(lia))) as (t & E & L & C). destruct (A 15%nat t E 2%nat) as [S _]; [unfold harmonic in *; rewrite L, <- new_length; exact H2 | exact T |].
    destruct (C 2%nat H2) as [_ B]. rewrite B, (proj1 (new_silent 2)) in S. rewrite (max_harmonic_nth 15) in S by lia. cbn [nth Nat.min Nat.ltb Nat.leb andb Nat.add] in S. apply Q. lra.
  - assert (E : nth_error (tables_aliasing_saw 5 1 new_tables) 15 = Some (add_saw 0 1 1 new_table)).
    { unfold tables_aliasing_saw. rewrite (each_nth_error _ _ _ new_tables 15 new_table (new_at 15 ltac:(lia))). rewrite (max_harmonic_nth 15) by lia. reflexivity. }
    destruct (A 15%nat _ E 2%nat) as [S _]; [unfold harmonic in *; rewrite saw_length; exact H2 | exact T |].
    destruct (saw_parts 0 1 1 new_table 2 new_length ltac:(pose proof room; lia) H2) as [B _]. rewrite B, (proj1 (new_silent 2)) in S. cbn [Nat.min Nat.ltb Nat.leb andb Nat.add] in S. apply Q. lra.
Qed.
Print Assumptions C72_saw_refuted.

(** Odd harmonics: the n-th is at 2n+1 periods but counted as the n-th; its phase is 1 or -1 radian instead of a sign *)
Theorem C72_odd_partial : forall num falloff ts i t, full ts -> nth_error ts i = Some t -> exists t', nth_error (tables_odd num falloff ts) i = Some t' /\ length t' = points /\
  forall n, (2 * (2 * n + 1) < points)%nat -> let h := (2 * n + 1)%nat in let on := (n <? Nat.min num (max_harmonic i))%nat in
    sine_part t' h = sine_part t h + (if on then odd_amp falloff n * cos (odd_phase n) else 0) /\
    cosine_part t' h = cosine_part t h + (if on then odd_amp falloff n * sin (odd_phase n) else 0).
Proof. exact odd_at. Qed.
Print Assumptions C72_odd_partial.
Lemma odd_amp_pos : forall a n, 0 < odd_amp a n.
Proof. intros a n. unfold odd_amp. apply Rdiv_lt_0_compat; [lra |]. unfold Rpower. apply exp_pos. Qed.
Lemma one_below : 0 < 1 < PI / 2.
Proof. pose proof PI2_1. lra. Qed.
Theorem C72_odd_refuted : ~ all_limited (tables_odd 16 2 new_tables).
Proof.
  intros A. pose proof (points_big 31 ltac:(lia)) as H. pose proof one_below as P.
  destruct (odd_at 16 2 new_tables 9 new_table new_full (new_at 9 ltac:(lia))) as (t & E & L & C). destruct (A 9%nat t E 31%nat) as [S _]; [unfold harmonic in *; rewrite L, <- new_length; exact H | unfold hearing, top_freq; rewrite INR_IZR_INZ; cbn [Z.of_nat Pos.of_succ_nat Pos.succ]; lra |].
  destruct (C 15%nat ltac:(pose proof room; lia)) as [B _]. cbn zeta in B. replace (2 * 15 + 1)%nat with 31%nat in B by reflexivity. rewrite B, (proj1 (new_silent 31)) in S. rewrite (max_harmonic_nth 9) in S by lia. cbn [nth Nat.min Nat.ltb Nat.leb] in S.
  assert (Q : 0 < cos (odd_phase 15)) by (replace (odd_phase 15) with (- (1)) by (cbn; lra); rewrite cos_neg; apply cos_gt_0; lra). pose proof (Rmult_lt_0_compat _ _ (odd_amp_pos 2 15) Q). lra.
Qed.
Print Assumptions C72_odd_refuted.
(** All harmonics of a triangle are sines, with alternating signs *)
Theorem C72_triangle_refuted : forall num i, (2 <= num)%nat -> (i < 15)%nat -> exists t, nth_error (tables_odd num 2 new_tables) i = Some t /\ cosine_part t 3 <> 0 /\ 0 < sine_part t 3.
Proof.
  intros num i Hn Hi. pose proof one_below as P. destruct (odd_at num 2 new_tables i new_table new_full (new_at i ltac:(lia))) as (t & E & L & C). exists t. split; [exact E |].
  destruct (C 1%nat ltac:(pose proof room; lia)) as [A B]. cbn zeta in A, B. replace (2 * 1 + 1)%nat with 3%nat in * by reflexivity.
  assert (M : (2 <= max_harmonic i)%nat) by (rewrite max_harmonic_nth by lia; do 15 (destruct i as [| i]; [cbn; lia |]); lia).
  assert (On : (1 <? Nat.min num (max_harmonic i))%nat = true) by (apply Nat.ltb_lt; lia). rewrite On in A, B. rewrite A, B, (proj1 (new_silent 3)), (proj2 (new_silent 3)).
  replace (odd_phase 1) with (- (1)) by (cbn; lra). rewrite cos_neg, sin_neg. pose proof (odd_amp_pos 2 1) as O. assert (Q1 : 0 < cos 1) by (apply cos_gt_0; lra). assert (Q2 : 0 < sin 1) by (apply sin_gt_0; lra).
  pose proof (Rmult_lt_0_compat _ _ O Q1). pose proof (Rmult_lt_0_compat _ _ O Q2). split; lra.
Qed.
Print Assumptions C72_triangle_refuted.

(** Windows *)
Theorem C72_windows : forall k, (k < points)%nat ->
  nth k hann_window 0 = sin (PI * INR k / len) * sin (PI * INR k / len) /\
  nth k hamming_window 0 = 53836 / 100000 - 46164 / 100000 * cos (2 * PI * INR k / len) /\
  nth k sine_window 0 = sin (PI * INR k / len).
Proof. exact windows. Qed.
Print Assumptions C72_windows.

(** Noise keeps a table within -1..1 *)
Theorem C72_noise_f32 : forall p seed t, (seed < 2 ^ 32)%N -> bounded ieee_f32 t -> bounded ieee_f32 (add_noise p seed t).
Proof. intros p seed t H. apply noise_bounded. unfold rng_new. destruct (N.eqb_spec seed 0); lia. Qed.
Print Assumptions C72_noise_f32.
Theorem C72_noise_f64 : forall p seed t, (seed < 2 ^ 32)%N -> bounded ieee_f64 t -> bounded ieee_f64 (add_noise p seed t).
Proof. intros p seed t H. apply noise_bounded. unfold rng_new. destruct (N.eqb_spec seed 0); lia. Qed.
Print Assumptions C72_noise_f64.
Example C72_noise_case : map B2SF (add_noise (I := ieee_f32) (fze 1 (-1)) 3 [fone; fzero; fneg fone; fone; fone]) <> map B2SF [fone; fzero; fneg fone; fone; fone : f32].
Proof. vm_compute. discriminate. Qed.

(** Normalising brings the peak of the first table to 1, up to one unit in the last place, and no other above *)
Theorem C72_normalize_f32 : forall t0 (ts : list (list f32)) p, bpow radix2 (-126) <= p <= bpow radix2 126 ->
  (forall t x, In t (t0 :: ts) -> In x t -> fin x /\ Rabs (val x) <= p) -> (exists x, In x t0 /\ Rabs (val x) = p) -> (forall t, In t (t0 :: ts) -> (2 <= length t)%nat) ->
  exists r, normalize (t0 :: ts) = Some r /\ Forall (fun td => bounded ieee_f32 (fst td)) r /\
    exists td r' x, r = td :: r' /\ In x (fst td) /\ 1 - bpow radix2 (-24) <= Rabs (val x) <= 1.
Proof. exact normalize_ok. Qed.
Print Assumptions C72_normalize_f32.
Theorem C72_normalize_f64 : forall t0 (ts : list (list f64)) p, bpow radix2 (-126) <= p <= bpow radix2 126 ->
  (forall t x, In t (t0 :: ts) -> In x t -> fin x /\ Rabs (val x) <= p) -> (exists x, In x t0 /\ Rabs (val x) = p) -> (forall t, In t (t0 :: ts) -> (2 <= length t)%nat) ->
  exists r, normalize (t0 :: ts) = Some r /\ Forall (fun td => bounded ieee_f64 (fst td)) r /\
    exists td r' x, r = td :: r' /\ In x (fst td) /\ 1 - bpow radix2 (-53) <= Rabs (val x) <= 1.
Proof. exact normalize_ok. Qed.
Print Assumptions C72_normalize_f64.
Example C72_normalize_case : match normalize [[fz 3; fneg (fz 10)]; [fz 1; fz 4 : f32]] with Some r => map (fun td => map B2SF (fst td)) r | None => [] end
  = map (map B2SF) [[fmul (fz 3) (fdiv fone (fz 10)); fneg fone]; [fdiv fone (fz 10); fmul (fz 4) (fdiv fone (fz 10)) : f32]].
Proof. vm_compute. reflexivity. Qed.
(** A silent table cannot be normalised: 0/0 everywhere, and the assertion that compares NaN with itself panics. A later table
    that is louder than the first ends up above 1. *)
Theorem C72_normalize_silent_refuted : normalize (repeat (repeat (fzero : f32) points) num_tables) = None.
Proof. rewrite tables_17. apply (silent_panics (prec := 24) (emax := 128)). pose proof room. lia. Qed.
Print Assumptions C72_normalize_silent_refuted.
Theorem C72_normalize_loud_refuted : exists t0 t1 : list f32, bounded ieee_f32 t0 /\ bounded ieee_f32 t1 /\
  match normalize [t0; t1] with Some [_; (t, _)] => existsb (fltb fone) t | _ => false end = true.
Proof.
  exists [fzero; fze 1 (-1)], [fzero; fone]. assert (H : val (fze 1 (-1) : f32) = 1 / 2 /\ fin (fze 1 (-1) : f32)).
  { assert (B : B2SF (fze 1 (-1) : f32) = SpecFloat.S754_finite false 8388608 (-24)) by (vm_compute; reflexivity). split; [unfold val; rewrite <- SF2R_B2SF, B; change (IZR 8388608 * / IZR 16777216 = 1 / 2); lra | unfold fin; rewrite <- is_finite_SF_B2SF, B; reflexivity]. }
  destruct H as [V F]. split; [| split].
  - constructor; [split; [reflexivity | cbn; rewrite Rabs_R0; lra] |]. constructor; [| constructor]. split; [exact F |]. rewrite V. apply Rabs_le. lra.
  - constructor; [split; [reflexivity | cbn; rewrite Rabs_R0; lra] |]. constructor; [| constructor]. split; [apply fin_fone |]. rewrite val_fone. apply Rabs_le. lra.
  - vm_compute. reflexivity.
Qed.
Print Assumptions C72_normalize_loud_refuted.
