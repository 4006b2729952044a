From Coq Require Import Reals Lra.
From Flocq Require Import Core BinarySingleNaN.
From Verif Require Import Base FloatBase SmoothModel SmoothSpec.
Local Open Scope N_scope.

(** * The values that reach the UGen *)
Lemma value_after_app : forall j l1 l2 now, value_after j now (l1 ++ l2) = value_after j (value_after j now l1) l2.
Proof.
  induction l1 as [| [i v] l1 IH]; intros l2 now; [reflexivity |]. cbn [app value_after]. destruct v; apply IH.
Qed.
Lemma value_after_block_other : forall w k j b now, (j < k)%nat -> value_after j now (snd (smooth_block k w b)) = now.
Proof.
  induction w as [| s w IH]; intros k j b now H; [reflexivity |]. cbn [smooth_block snd]. rewrite value_after_app.
  destruct (fst (next_value s b 0)); cbn [value_after].
  - destruct (Nat.eqb_spec k j); [lia |]. apply IH. lia.
  - apply IH. lia.
Qed.
Lemma smooth_block_proj : forall w k i b s now, nth_error w i = Some s ->
  nth_error (fst (smooth_block k w b)) i = Some (snd (next_value s b 0)) /\
  value_after (k + i) now (snd (smooth_block k w b)) = match fst (next_value s b 0) with Some x => Some x | None => now end.
Proof.
  induction w as [| s0 w IH]; intros k i b s now H; [destruct i; discriminate |].
  destruct i as [| i]; cbn [nth_error] in H.
  - injection H as ->. cbn [smooth_block fst snd nth_error]. split; [reflexivity |].
    rewrite value_after_app. rewrite value_after_block_other by lia.
    destruct (fst (next_value s b 0)); cbn [value_after]; [| reflexivity].
    replace (k + 0)%nat with k by lia. rewrite Nat.eqb_refl. reflexivity.
  - cbn [smooth_block fst snd nth_error].
    rewrite value_after_app.
    destruct (IH (S k) i b s (value_after (k + S i) now match fst (next_value s0 b 0) with Some x => [(k, PFloat x)] | None => [] end) H) as [A B].
    split; [exact A |]. replace (k + S i)%nat with (S k + i)%nat by lia.
    replace (k + S i)%nat with (S k + i)%nat in B by lia. rewrite B.
    destruct (fst (next_value s0 b 0)); cbn [value_after]; [| reflexivity].
    destruct (Nat.eqb_spec k (S k + i)); [lia | reflexivity].
Qed.
Lemma smooth_apply_other : forall w i v j now, i <> j ->
  nth_error (fst (smooth_apply w i v)) j = nth_error w j /\ value_after j now (snd (smooth_apply w i v)) = now.
Proof.
  intros w i v j now H. unfold smooth_apply. destruct (nth_error w i) as [s |]; [| split; reflexivity].
  assert (P : forall s', nth_error match set_nth w i s' with Some w' => w' | None => w end j = nth_error w j).
  { intros s'. destruct (set_nth w i s') as [w' |] eqn:E; [| reflexivity]. apply (set_nth_other _ _ _ _ _ E H). }
  assert (V : forall x, value_after j now [(i, x)] = now).
  { intros x. cbn [value_after]. destruct x; try reflexivity. destruct (Nat.eqb_spec i j); [contradiction | reflexivity]. }
  destruct v.
  - destruct s; cbn [fst snd]; split; try reflexivity; try apply V. apply P.
  - split; [reflexivity | apply V].
  - cbn [fst snd]. split; [apply P | reflexivity].
Qed.

Definition on_ramp (s0 v : f64) (d t el : N) (dn : bool) (now : option f64) : Prop :=
  (dn = false /\ el = N.min t d) \/ (dn = true /\ el = d /\ d <= t /\ now = Some (lerp s0 v d d)).
Lemma ramp_block : forall s0 v d t el dn now b, on_ramp s0 v d t el dn now ->
  exists el' dn', snd (next_value (SLinear s0 v d el BlockRate dn) b 0) = SLinear s0 v d el' BlockRate dn' /\
    match fst (next_value (SLinear s0 v d el BlockRate dn) b 0) with Some x => Some x | None => now end = Some (lerp s0 v (N.min t d) d) /\
    on_ramp s0 v d (t + b) el' dn' (Some (lerp s0 v (N.min t d) d)).
Proof.
  intros s0 v d t el dn now b H. unfold next_value. cbn [N.eqb negb andb].
  destruct H as [[-> ->] | (-> & -> & H & ->)].
  - destruct (N.eqb_spec (N.min t d) d) as [E | E]; cbn [fst snd].
    + exists (N.min t d), true. split; [reflexivity |]. split; [reflexivity |]. right.
      split; [reflexivity |]. split; [exact E |]. split; [lia |]. rewrite E. reflexivity.
    + exists (N.min (N.min t d + b) d), false. split; [reflexivity |]. split; [reflexivity |]. left. split; [reflexivity | lia].
  - exists d, true. cbn [fst snd]. split; [reflexivity |]. replace (N.min t d) with d by lia.
    split; [reflexivity |]. right. repeat split; lia.
Qed.
Lemma run_ramp : forall ops w j s0 v d t el dn now,
  nth_error w j = Some (SLinear s0 v d el BlockRate dn) -> on_ramp s0 v d t el dn now -> leaves_alone j ops ->
  exists el' dn', nth_error (fst (smooth_run w ops)) j = Some (SLinear s0 v d el' BlockRate dn') /\
    on_ramp s0 v d (t + frames_in ops) el' dn' (value_after j now (snd (smooth_run w ops))).
Proof.
  induction ops as [| o ops IH]; intros w j s0 v d t el dn now Hw Hr Hl.
  - exists el, dn. cbn. rewrite N.add_0_r. split; assumption.
  - assert (Hl' : leaves_alone j ops) by (intros i x H; apply (Hl i x); right; exact H).
    cbn [smooth_run fst snd]. rewrite value_after_app.
    destruct o as [i x | b]; cbn [smooth_step frames_in].
    + assert (Hij : i <> j) by (apply (Hl i x); left; reflexivity).
      destruct (smooth_apply_other w i x j now Hij) as [A B]. rewrite B.
      apply (IH _ j s0 v d t el dn now); [rewrite A; exact Hw | exact Hr | exact Hl'].
    + destruct (smooth_block_proj w 0 j b _ now Hw) as [A B]. cbn [Nat.add] in B. rewrite B.
      destruct (ramp_block s0 v d t el dn now b Hr) as (el' & dn' & E1 & E2 & E3). rewrite E1 in A. rewrite E2.
      rewrite N.add_assoc.
      apply (IH _ j s0 v d (t + b) el' dn'); assumption.
Qed.
Lemma smooth_run_app : forall o1 o2 w, smooth_run w (o1 ++ o2) =
  (fst (smooth_run (fst (smooth_run w o1)) o2), snd (smooth_run w o1) ++ snd (smooth_run (fst (smooth_run w o1)) o2)).
Proof.
  induction o1 as [| o o1 IH]; intros o2 w; cbn [app smooth_run fst snd].
  - destruct (smooth_run w o2); reflexivity.
  - rewrite IH. cbn [fst snd]. rewrite app_assoc. reflexivity.
Qed.
Lemma ramp_values_from : forall w j s v ops b now,
  nth_error w j = Some s -> ramps_at_block_rate s -> leaves_alone j ops ->
  value_after j now (snd (smooth_run w (SApply j (PFloat v) :: ops ++ [SBlock b]))) =
  Some (lerp (ramp_start s) v (N.min (frames_in ops) (ramp_length s)) (ramp_length s)).
Proof.
  intros w j s v ops b now Hw Hs Hl. destruct s as [c | s0 e d el r dn]; [destruct Hs |]. destruct r; [| destruct Hs].
  cbn [ramp_start ramp_length].
  change (smooth_run w (SApply j (PFloat v) :: ops ++ [SBlock b])) with
    (fst (smooth_run (fst (smooth_apply w j (PFloat v))) (ops ++ [SBlock b])),
     snd (smooth_apply w j (PFloat v)) ++ snd (smooth_run (fst (smooth_apply w j (PFloat v))) (ops ++ [SBlock b]))).
  cbn [snd]. unfold smooth_apply. rewrite Hw. cbn [retarget].
  set (s1 := SLinear _ v d 0 BlockRate false).
  assert (L : (j < length w)%nat) by (apply nth_error_Some; rewrite Hw; discriminate).
  destruct (set_nth_some w j s1 L) as [w' S']. rewrite S'. cbn [fst snd app].
  rewrite smooth_run_app. cbn [fst snd]. rewrite value_after_app.
  destruct (run_ramp ops w' j (if dn then e else lerp s0 e el d) v d 0 0 false now) as (el' & dn' & A & B).
  { apply (set_nth_same _ _ _ _ S'). }
  { left. split; [reflexivity | lia]. }
  { exact Hl. }
  rewrite N.add_0_l in B.
  cbn [smooth_run smooth_step fst snd]. rewrite app_nil_r.
  destruct (smooth_block_proj _ 0 j b _ (value_after j now (snd (smooth_run w' ops))) A) as [_ C]. cbn [Nat.add] in C. rewrite C.
  destruct (ramp_block _ _ _ _ _ _ _ b B) as (el2 & dn2 & _ & E & _). exact E.
Qed.
Lemma ramp_values : forall w j s v ops b,
  nth_error w j = Some s -> ramps_at_block_rate s -> leaves_alone j ops ->
  value_after j None (snd (smooth_run w (SApply j (PFloat v) :: ops ++ [SBlock b]))) =
  Some (lerp (ramp_start s) v (N.min (frames_in ops) (ramp_length s)) (ramp_length s)).
Proof. intros w j s v ops b. apply ramp_values_from. Qed.
Lemma apply_same : forall w j s v, nth_error w j = Some s ->
  match v with PSmoothing sm r => nth_error (fst (smooth_apply w j v)) j = Some (set_smoothing s sm r) /\ snd (smooth_apply w j v) = [] | _ => True end.
Proof.
  intros w j s v Hw. destruct v as [x | x | sm r]; try exact Logic.I. unfold smooth_apply. rewrite Hw.
  assert (L : (j < length w)%nat) by (apply nth_error_Some; rewrite Hw; discriminate).
  destruct (set_nth_some w j (set_smoothing s sm r) L) as [w' S']. rewrite S'. cbn [fst snd]. split; [apply (set_nth_same _ _ _ _ S') | reflexivity].
Qed.
(** The parameter after a change of target and some operations on other parameters *)
Lemma ramp_state : forall w j s v ops, nth_error w j = Some s -> ramps_at_block_rate s -> leaves_alone j ops ->
  exists dn, nth_error (fst (smooth_run w (SApply j (PFloat v) :: ops))) j = Some (SLinear (ramp_start s) v (ramp_length s) (N.min (frames_in ops) (ramp_length s)) BlockRate dn).
Proof.
  intros w j s v ops Hw Hs Hl. destruct s as [c | s0 e d el r dn]; [destruct Hs |]. destruct r; [| destruct Hs]. cbn [ramp_start ramp_length].
  change (fst (smooth_run w (SApply j (PFloat v) :: ops))) with (fst (smooth_run (fst (smooth_apply w j (PFloat v))) ops)).
  unfold smooth_apply. rewrite Hw. cbn [retarget]. set (s1 := SLinear _ v d 0 BlockRate false).
  assert (L : (j < length w)%nat) by (apply nth_error_Some; rewrite Hw; discriminate).
  destruct (set_nth_some w j s1 L) as [w' S']. rewrite S'. cbn [fst].
  destruct (run_ramp ops w' j (if dn then e else lerp s0 e el d) v d 0 0 false None (set_nth_same _ _ _ _ S')) as (el' & dn' & A & B); [left; split; [reflexivity | lia] | exact Hl |].
  rewrite N.add_0_l in B. rewrite A. exists dn'. destruct B as [[_ ->] | (_ & -> & B & _)]; [reflexivity |]. replace (N.min (frames_in ops) d) with d by lia. reflexivity.
Qed.
Lemma off_on : forall w j s v ops d2 v2 ops2 b, nth_error w j = Some s -> ramps_at_block_rate s -> leaves_alone j ops -> leaves_alone j ops2 ->
  value_after j None (snd (smooth_run w ((SApply j (PFloat v) :: ops) ++
    [SApply j (PSmoothing NoSmoothing BlockRate); SApply j (PSmoothing (Linear d2) BlockRate)] ++ SApply j (PFloat v2) :: ops2 ++ [SBlock b]))) =
  Some (lerp (lerp (ramp_start s) v (N.min (frames_in ops) (ramp_length s)) (ramp_length s)) v2 (N.min (frames_in ops2) d2) d2).
Proof.
  intros w j s v ops d2 v2 ops2 b Hw Hs Hl Hl2. destruct (ramp_state w j s v ops Hw Hs Hl) as [dn A].
  rewrite smooth_run_app. set (w1 := fst (smooth_run w (SApply j (PFloat v) :: ops))) in *. cbn [snd]. rewrite value_after_app. rewrite smooth_run_app. cbn [snd]. rewrite value_after_app.
  cbn [smooth_run smooth_step fst snd app].
  destruct (apply_same w1 j _ (PSmoothing NoSmoothing BlockRate) A) as [B1 B2]. rewrite B2. cbn [set_smoothing] in B1.
  destruct (apply_same _ j _ (PSmoothing (Linear d2) BlockRate) B1) as [C1 C2]. rewrite C2. cbn [set_smoothing] in C1. cbn [app].
  rewrite app_nil_r || idtac. cbn [value_after].
  refine (ramp_values_from _ j _ v2 ops2 b _ C1 Logic.I Hl2).
Qed.

(** * The ramp itself, in floating point arithmetic *)
Section Lerp.
Context {prec emax : Z} {I : ieee prec emax}.
Notation fl := (binary_float prec emax).
Notation rnd := (@rnd prec emax).
Local Open Scope R_scope.
Let mixr (n d : N) : R := rnd (rnd (IZR (Z.of_N n)) / rnd (IZR (Z.of_N d))).

Lemma usize_ok : forall n : N, (n < U64)%N -> val (fz (Z.of_N n) : fl) = rnd (IZR (Z.of_N n)) /\ fin (fz (Z.of_N n) : fl).
Proof.
  intros n H. apply fz_ok. apply fits with 64%Z; [destruct I; lia |].
  rewrite Rabs_pos_eq by (apply IZR_le; lia). change (bpow radix2 64) with (IZR (2 ^ 64)). apply IZR_le.
  unfold U64 in H. lia.
Qed.
Lemma rnd_pos_int : forall n : N, (0 < n)%N -> 1 <= rnd (IZR (Z.of_N n)).
Proof. intros n H. rewrite <- (rnd_1 (prec := prec) (emax := emax)). apply rnd_le. apply IZR_le. lia. Qed.
Lemma mixr_range : forall n d, (0 < d)%N -> (n <= d)%N -> 0 <= mixr n d <= 1.
Proof.
  intros n d Hd Hn. apply rnd_between; [apply rnd_0 | apply rnd_1 |].
  pose proof (rnd_pos_int d Hd) as P.
  assert (A : 0 <= rnd (IZR (Z.of_N n))). { rewrite <- (rnd_0 (prec := prec) (emax := emax)). apply rnd_le. apply IZR_le. lia. }
  assert (B : rnd (IZR (Z.of_N n)) <= rnd (IZR (Z.of_N d))) by (apply rnd_le, IZR_le; lia).
  split; [apply Rmult_le_pos; [exact A | left; apply Rinv_0_lt_compat; lra] |].
  apply Rmult_le_reg_r with (rnd (IZR (Z.of_N d))); [lra |]. unfold Rdiv. rewrite Rmult_assoc, Rinv_l by lra. lra.
Qed.
Lemma mixr_le : forall n m d, (0 < d)%N -> (n <= m)%N -> mixr n d <= mixr m d.
Proof.
  intros n m d Hd Hn. apply rnd_le. pose proof (rnd_pos_int d Hd) as P.
  apply Rmult_le_compat_r; [left; apply Rinv_0_lt_compat; lra |]. apply rnd_le, IZR_le. lia.
Qed.
Lemma mixr_0 : forall d, mixr 0 d = 0.
Proof. intros. unfold mixr. change (Z.of_N 0) with 0%Z. rewrite rnd_0. unfold Rdiv. rewrite Rmult_0_l. apply rnd_0. Qed.
Lemma mixr_1 : forall d, (0 < d)%N -> mixr d d = 1.
Proof.
  intros d Hd. unfold mixr. pose proof (rnd_pos_int d Hd) as P. unfold Rdiv. rewrite Rinv_r by lra. apply rnd_1.
Qed.
Lemma mix_ok : forall n d, (0 < d)%N -> (n <= d)%N -> (d < U64)%N ->
  val (fdiv (fz (Z.of_N n)) (fz (Z.of_N d)) : fl) = mixr n d /\ fin (fdiv (fz (Z.of_N n)) (fz (Z.of_N d)) : fl).
Proof.
  intros n d Hd Hn Hu.
  destruct (usize_ok n ltac:(lia)) as [A1 A2]. destruct (usize_ok d Hu) as [B1 B2].
  destruct (fdiv_ok (fz (Z.of_N n) : fl) (fz (Z.of_N d))) as [C1 C2].
  - exact A2.
  - rewrite B1. pose proof (rnd_pos_int d Hd). lra.
  - rewrite A1, B1. apply below_top with 0%Z; [destruct I; lia |]. change (bpow radix2 0) with 1.
    fold (mixr n d). pose proof (mixr_range n d Hd Hn). rewrite Rabs_pos_eq; lra.
  - split; [| exact C2]. rewrite C1, A1, B1. reflexivity.
Qed.

Variables (s v : fl) (k : Z).
Hypothesis Hs : fin s.
Hypothesis Hv : fin v.
Hypothesis Hk : (0 <= k)%Z.
Hypothesis Hke : (k + 2 < emax)%Z.
Hypothesis Bs : Rabs (val s) <= bpow radix2 k.
Hypothesis Bv : Rabs (val v) <= bpow radix2 k.
Let dif : R := rnd (val v - val s).
Let lr (n d : N) : R := rnd (rnd (dif * mixr n d) + val s).

Lemma bpow_S : forall e, bpow radix2 (e + 1) = 2 * bpow radix2 e.
Proof. intros. rewrite bpow_plus. change (bpow radix2 1) with 2. ring. Qed.
Lemma dif_bound : Rabs dif <= bpow radix2 (k + 1).
Proof.
  apply rnd_bound; [lia |]. rewrite bpow_S.
  eapply Rle_trans; [apply Rabs_triang |]. rewrite Rabs_Ropp. lra.
Qed.
Lemma scaled_bound : forall n d, (0 < d)%N -> (n <= d)%N -> Rabs (rnd (dif * mixr n d)) <= bpow radix2 (k + 1).
Proof.
  intros n d Hd Hn. apply rnd_bound; [lia |]. rewrite Rabs_mult.
  pose proof (mixr_range n d Hd Hn) as M. rewrite (Rabs_pos_eq (mixr n d)) by lra.
  pose proof dif_bound as D. pose proof (Rabs_pos dif).
  apply Rle_trans with (Rabs dif * 1); [apply Rmult_le_compat_l; lra | lra].
Qed.
Lemma lerp_ok : forall n d, (0 < d)%N -> (n <= d)%N -> (d < U64)%N -> val (lerp s v n d) = lr n d /\ fin (lerp s v n d).
Proof.
  intros n d Hd Hn Hu. unfold lerp.
  destruct (fsub_ok v s Hv Hs) as [A1 A2].
  { apply below_top with (k + 1)%Z; [lia | exact dif_bound]. }
  destruct (mix_ok n d Hd Hn Hu) as [M1 M2].
  destruct (fmul_ok (fsub v s) (fdiv (fz (Z.of_N n)) (fz (Z.of_N d))) A2 M2) as [P1 P2].
  { rewrite A1, M1. apply below_top with (k + 1)%Z; [lia | apply scaled_bound; assumption]. }
  rewrite A1, M1 in P1. fold dif in P1.
  destruct (fadd_ok _ s P2 Hs) as [Q1 Q2].
  { rewrite P1. apply fits with (k + 2)%Z; [lia |]. replace (k + 2)%Z with (k + 1 + 1)%Z by lia. rewrite bpow_S.
    eapply Rle_trans; [apply Rabs_triang |]. pose proof (scaled_bound n d Hd Hn) as B.
    assert (bpow radix2 k <= bpow radix2 (k + 1)) by (apply bpow_le; lia). lra. }
  split; [rewrite Q1, P1; reflexivity | exact Q2].
Qed.
Lemma dif_sign : (val s <= val v -> 0 <= dif) /\ (val v <= val s -> dif <= 0).
Proof. unfold dif. split; intros; rewrite <- (rnd_0 (prec := prec) (emax := emax)); apply rnd_le; lra. Qed.
Lemma lr_mono : forall n m d, (0 < d)%N -> (n <= m)%N ->
  (val s <= val v -> lr n d <= lr m d) /\ (val v <= val s -> lr m d <= lr n d).
Proof.
  intros n m d Hd Hn. pose proof (mixr_le n m d Hd Hn) as M. destruct dif_sign as [P Q]. split; intros H.
  - apply rnd_le, Rplus_le_compat_r, rnd_le. apply Rmult_le_compat_l; [exact (P H) | exact M].
  - apply rnd_le, Rplus_le_compat_r, rnd_le. specialize (Q H).
    assert (K : - dif * mixr n d <= - dif * mixr m d) by (apply Rmult_le_compat_l; lra). lra.
Qed.
Lemma lr_0 : forall d, lr 0 d = val s.
Proof. intros. unfold lr. rewrite mixr_0, Rmult_0_r, rnd_0, Rplus_0_l. apply rnd_val. Qed.
Lemma lr_end : forall d, (0 < d)%N -> lr d d = rnd (dif + val s).
Proof.
  intros d Hd. unfold lr. rewrite (mixr_1 d Hd), Rmult_1_r. unfold dif. f_equal. f_equal.
  unfold FloatBase.rnd. apply round_generic; [typeclasses eauto |]. apply generic_format_round; typeclasses eauto.
Qed.
Lemma lerp_start : forall d, (0 < d)%N -> (d < U64)%N -> val (lerp s v 0 d) = val s.
Proof. intros d Hd Hu. destruct (lerp_ok 0 d Hd ltac:(lia) Hu) as [-> _]. apply lr_0. Qed.
Lemma lerp_mono : forall n m d, (0 < d)%N -> (n <= m)%N -> (m <= d)%N -> (d < U64)%N ->
  (val s <= val v -> val (lerp s v n d) <= val (lerp s v m d)) /\
  (val v <= val s -> val (lerp s v m d) <= val (lerp s v n d)).
Proof.
  intros n m d Hd Hn Hm Hu. destruct (lerp_ok n d Hd ltac:(lia) Hu) as [-> _]. destruct (lerp_ok m d Hd Hm Hu) as [-> _].
  apply lr_mono; assumption.
Qed.
Lemma lerp_end : forall d, (0 < d)%N -> (d < U64)%N -> rnd (val v - val s) = val v - val s -> val (lerp s v d d) = val v.
Proof.
  intros d Hd Hu H. destruct (lerp_ok d d Hd ltac:(lia) Hu) as [-> _]. rewrite (lr_end d Hd). unfold dif. rewrite H.
  replace (val v - val s + val s) with (val v) by ring. apply rnd_val.
Qed.
(** In general the last value of a ramp is the target up to two roundings. *)
Lemma lerp_end_close : forall d, (0 < d)%N -> (d < U64)%N ->
  val (lerp s v d d) = rnd (rnd (val v - val s) + val s).
Proof. intros d Hd Hu. destruct (lerp_ok d d Hd ltac:(lia) Hu) as [-> _]. apply lr_end. exact Hd. Qed.
End Lerp.
