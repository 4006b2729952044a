(** C44, C55: pink noise; C53: one-pole filter, brown noise, interpolated random numbers. *)
From Coq Require Import Reals Lra.
From Flocq Require Import Core BinarySingleNaN.
From Verif Require Import Base FloatBase FloatMore NoiseModel NoiseSpec NoiseProofs NoiseMore.
Local Open Scope R_scope.
Notation f32 := (binary_float 24 128).
Notation f64 := (binary_float 53 1024).

(** * C44 *)
(** The row is always valid: no assertion fires, whatever the random numbers (any floating point numbers at all). *)
Theorem C44_rows : forall ws : list (f32 * f32), exists s l, pink_run pink_new ws = Some (s, l) /\ length l = length ws.
Proof. intros ws. destruct (pink_run_ok ws pink_new pink_new_ok) as (s & l & E & _ & L). exists s, l. split; assumption. Qed.
Print Assumptions C44_rows.

(** A random number in 0..1 gives a white sample in -1..1, without rounding, in both precisions. *)
Theorem C44_white_f32 : forall r : f32, rand01 r -> exists z, (- 2 ^ 23 <= z <= 2 ^ 23)%Z /\ fin (white_of r) /\ val (white_of r) = IZR z * bpow radix2 (-23) /\ val (white_of r) = 2 * val r - 1.
Proof.
  intros r H. destruct (white_ok r H) as (z & [F V] & S). exists z. split; [exact S |]. split; [exact F |]. split; [exact V |].
  destruct H as (y & [Fr Vr] & Hy). unfold white_of.
  assert (V2 : val (fz 2 : f32) = 2 /\ fin (fz 2 : f32)) by (apply fz_small; lia).
  assert (E : val r * val (fz 2 : f32) = IZR y * bpow radix2 (-23)).
  { rewrite Vr, (proj1 V2). change (-23)%Z with (1 + -24)%Z. rewrite bpow_plus. change (bpow radix2 1) with 2. ring. }
  destruct (fmul_ok r (fz 2) Fr (proj2 V2)) as [A B].
  { rewrite E, rnd_grid by lia. apply below_top with (24 + -23)%Z; [lia |]. apply grid_size; lia. }
  rewrite E, rnd_grid in A by lia.
  assert (E2 : IZR y * bpow radix2 (-23) - val (fone : f32) = IZR (y - 2 ^ 23) * bpow radix2 (-23)).
  { rewrite val_fone, minus_IZR. change (IZR (2 ^ 23)) with (bpow radix2 23). rewrite Rmult_minus_distr_r, <- bpow_plus. reflexivity. }
  destruct (fsub_ok (fmul r (fz 2)) fone B fin_fone) as [C D].
  { rewrite A, E2, rnd_grid by lia. apply below_top with (23 + -23)%Z; [lia |]. apply grid_size; lia. }
  rewrite C, A, E2, rnd_grid by lia. rewrite <- E2, <- E, (proj1 V2), val_fone. ring.
Qed.
Print Assumptions C44_white_f32.

(** With f64, where no sum needs rounding, the running sum is the exact sum of the rows for ever and the output stays in -1..1. *)
Theorem C44_range : forall ws : list (f64 * f64), Forall (fun w => white (fst w) /\ white (snd w)) ws ->
  exists s l, pink_run pink_new ws = Some (s, l) /\ Forall (between (-1) 1) l /\ val (p_sum s) = rsum (map val (p_ws s)) + val (p_on s).
Proof.
  intros ws H. destruct (sum_run ws pink_new ltac:(lia) sum_new H) as (s & l & E & S & F). exists s, l. split; [exact E |]. split; [exact F |]. apply sum_real. exact S.
Qed.
Print Assumptions C44_range.
Example white_example : white (fze (-3) (-2) : f64).
Proof.
  assert (K : IZR (-3) * bpow radix2 (-2) = IZR (-3 * 2 ^ 21) * bpow radix2 (-23)) by (cbn; lra).
  assert (Rn : @rnd 53 1024 (IZR (-3) * bpow radix2 (-2)) = IZR (-3) * bpow radix2 (-2)) by (apply rnd_grid; lia).
  exists (-3 * 2 ^ 21)%Z. destruct (fze_ok (prec := 53) (emax := 1024) (-3) (-2)) as [A B].
  - rewrite Rn. apply below_top with (2 + -2)%Z; [lia |]. apply grid_size; lia.
  - split; [| lia]. split; [exact B |]. rewrite A, Rn. exact K.
Qed.
Definition outs64 (r : option (pink 53 1024 * list f64)) := option_map (fun p => map (fun o : f64 => B2SF o) (snd p)) r.
Example pink_example : outs64 (pink_run pink_new [(fone, fze 1 (-1)); (fneg fone, fone)]) = Some (map (fun o : f64 => B2SF o) [fdiv (fze 3 (-1)) (fz 10); fdiv fone (fz 10)]).
Proof. vm_compute. reflexivity. Qed.

(** * C55 *)
(** White samples 1 - j 2^-22 that make the rounding errors of the running sum add up *)
Definition near_one (j : Z) : f32 := fze (2 ^ 22 - j) (-22).
Definition drift : list (Z * Z) := [(1, 1); (1, 1); (1, 1); (1, 1); (1, 1); (1, 1); (1, 1); (1, 2); (2, 3); (2, 4); (3, 1); (1, 1); (2, 1); (4, 1); (4, 1); (2, 1); (2, 1); (2, 1); (4, 1); (2, 1); (2, 1); (4, 1); (4, 1); (2, 1); (2, 1); (2, 1); (4, 1); (4, 1); (2, 1); (4, 1); (4, 1); (2, 1); (2, 1); (2, 1); (4, 1); (2, 1); (2, 1); (4, 1); (4, 1); (4, 1); (2, 1); (2, 1); (4, 1); (4, 1); (2, 1); (4, 1); (4, 1); (4, 1); (2, 1); (2, 1); (4, 1); (2, 1); (2, 1); (4, 1); (4, 1); (2, 1); (2, 1); (2, 1); (4, 1); (4, 1); (2, 1); (4, 1); (4, 1); (2, 2); (1, 3); (2, 1); (1, 1); (2, 2); (2, 4); (4, 1); (3, 1); (3, 1); (2, 2); (1, 3); (3, 2); (4, 4); (1, 2); (2, 4); (2, 1); (2, 2); (4, 4); (4, 1); (2, 2); (1, 3); (3, 2); (1, 3); (2, 1); (2, 2); (4, 4); (2, 1); (2, 2); (2, 4); (4, 1); (3, 1); (2, 2); (4, 4); (4, 1); (2, 2); (1, 3); (3, 2); (2, 4); (4, 1); (3, 1); (3, 1); (2, 2); (1, 3); (3, 2); (1, 3); (2, 1); (1, 1); (3, 1); (3, 1); (2, 2); (2, 4); (4, 1); (1, 1); (2, 2); (4, 4); (4, 1); (2, 2); (1, 3); (2, 1); (1, 1); (1, 1); (1, 1); (3, 1); (1, 1); (1, 1); (1, 1); (2, 2); (4, 2); (4, 2); (1, 2); (4, 2); (4, 2); (4, 2); (1, 2); (1, 2); (4, 2); (1, 2); (1, 2); (4, 2); (4, 2); (1, 2); (1, 2); (1, 2); (4, 2); (4, 2); (1, 2); (4, 2); (4, 2); (1, 2); (1, 2); (1, 2); (4, 2); (1, 2); (1, 2); (4, 2); (4, 2); (1, 2); (1, 2); (1, 2); (4, 2); (4, 2); (1, 2); (4, 2); (4, 2); (4, 2); (1, 2); (1, 2); (4, 2); (1, 2); (1, 2); (4, 2); (4, 2); (4, 2); (1, 2); (1, 2); (4, 2); (4, 2); (1, 2); (4, 2); (4, 2); (1, 2); (1, 2); (1, 2); (4, 2); (1, 2); (1, 2); (4, 2); (4, 2); (4, 2); (1, 2); (1, 2); (4, 2); (4, 2); (1, 2); (4, 2); (4, 2); (4, 2); (1, 2); (1, 2); (4, 2); (1, 2); (1, 2); (4, 2); (4, 2); (1, 2); (1, 2); (1, 2); (4, 2); (4, 2); (1, 2); (4, 2); (4, 2); (1, 2); (1, 2); (1, 2); (4, 2); (1, 2); (1, 2); (4, 2); (4, 2); (4, 2); (1, 2); (1, 2); (4, 2); (4, 2); (1, 2); (4, 2); (4, 2); (4, 2); (1, 2); (1, 2); (4, 2); (1, 2); (1, 2); (4, 2); (4, 2); (4, 2); (1, 2); (1, 2); (4, 2); (4, 2); (1, 2); (4, 2); (4, 2); (1, 2); (1, 2); (1, 2); (4, 2); (1, 2); (1, 2); (4, 2); (4, 2); (4, 2)]%Z.
Definition drift_run := pink_run pink_new (map (fun w => (near_one (fst w), near_one (snd w))) drift).
(** In f32 the running sum drifts: for some random numbers the output is above 1 after 256 samples. *)
Theorem C55_drift_refuted : forallb (fun w => (1 <=? fst w)%Z && (fst w <=? 4)%Z && (1 <=? snd w)%Z && (snd w <=? 4)%Z)%bool drift = true /\
  (forall j, (1 <= j <= 4)%Z -> white (near_one j)) /\
  match drift_run with Some (_, l) => length l = 256%nat /\ fltb fone (last l fzero) = true | None => False end.
Proof.
  split; [vm_compute; reflexivity |]. split.
  - intros j Hj.
    assert (K : IZR (2 ^ 22 - j) * bpow radix2 (-22) = IZR ((2 ^ 22 - j) * 2) * bpow radix2 (-23)).
    { rewrite mult_IZR. change (-22)%Z with (1 + -23)%Z. rewrite bpow_plus. change (bpow radix2 1) with 2. ring. }
    assert (Rn : @rnd 24 128 (IZR (2 ^ 22 - j) * bpow radix2 (-22)) = IZR (2 ^ 22 - j) * bpow radix2 (-22)) by (apply rnd_grid; lia).
    exists ((2 ^ 22 - j) * 2)%Z. unfold near_one. destruct (fze_ok (prec := 24) (emax := 128) (2 ^ 22 - j) (-22)) as [A B].
    + rewrite Rn. apply below_top with (22 + -22)%Z; [lia |]. apply grid_size; lia.
    + split; [| lia]. split; [exact B |]. rewrite A, Rn. exact K.
  - vm_compute. split; reflexivity.
Qed.
Print Assumptions C55_drift_refuted.

(** * C53 *)
(** Exact arithmetic: the low-pass output stays within any range that holds the inputs and the initial 0, whatever the coefficients
    (from 0 to 1) and however they change. *)
Theorem C53_one_pole : forall lo hi ops, lo <= 0 <= hi -> Forall (lp_real_ok lo hi) ops ->
  Forall (fun o => lo <= o <= hi) (lp_run Rplus Rminus Rmult 1 (op_new 0 1) ops).
Proof. intros lo hi ops H Ho. apply lp_real; [exact H | cbn; lra | cbn; lra | exact Ho]. Qed.
Print Assumptions C53_one_pole.
(** Floating point: bounds that are powers of two are kept exactly, in both precisions. *)
Theorem C53_one_pole_f32 : forall k (ops : list (lp_op f32)), (0 <= k <= 100)%Z -> Forall (lp_op_ok k) ops ->
  Forall (within_pow k) (lp_run fadd fsub fmul fone (op_new fzero fone) ops).
Proof.
  intros k ops Hk Ho. apply lp_run_bound; try assumption; cbn [op_new o_last o_a0 o_b1].
  - split; [reflexivity |]. change (val (fzero : f32)) with 0. rewrite Rabs_R0. apply bpow_ge_0.
  - apply unit_one.
  - apply unit_zero.
  - rewrite val_fone. change (val (fzero : f32)) with 0. pose proof (bpow_gt_0 radix2 (- (24))). lra.
Qed.
Print Assumptions C53_one_pole_f32.
Theorem C53_one_pole_f64 : forall k (ops : list (lp_op f64)), (0 <= k <= 100)%Z -> Forall (lp_op_ok k) ops ->
  Forall (within_pow k) (lp_run fadd fsub fmul fone (op_new fzero fone) ops).
Proof.
  intros k ops Hk Ho. apply lp_run_bound; try assumption; cbn [op_new o_last o_a0 o_b1].
  - split; [reflexivity |]. change (val (fzero : f64)) with 0. rewrite Rabs_R0. apply bpow_ge_0.
  - apply unit_one.
  - apply unit_zero.
  - rewrite val_fone. change (val (fzero : f64)) with 0. pose proof (bpow_gt_0 radix2 (- (53))). lra.
Qed.
Print Assumptions C53_one_pole_f64.
Example lp_example : map (fun o : f32 => B2SF o) (lp_run fadd fsub fmul fone (op_new fzero fone) [LIn fone; LCoeff (fze 1 (-1)); LIn (fneg fone); LIn (fneg fone)]) =
  map (fun o : f32 => B2SF o) [fone; fzero; fze (-1) (-1)].
Proof. vm_compute. reflexivity. Qed.
(** A coefficient above 1 (a negative cutoff frequency) takes the output out of the range of the inputs. *)
Theorem C53_negative_cutoff_refuted : exists l, lp_run Rplus Rminus Rmult 1 (op_new 0 1) [LCoeff 2; LIn 1; LIn 1; LIn 1] = l /\ l = [-1; -3; -7].
Proof. eexists. split; [reflexivity |]. cbn. repeat f_equal; lra. Qed.
Print Assumptions C53_negative_cutoff_refuted.

(** Brown noise stays in -1..1 for ever. *)
Theorem C53_brown_f32 : forall ws : list f32, Forall white ws -> Forall (between (-1) 1) (brown_run fzero ws).
Proof.
  intros ws H. apply brown_run_ok; [split; [reflexivity |]; change (val (fzero : f32)) with 0; lra |]. eapply Forall_impl; [| exact H]. intros. apply white_between. assumption.
Qed.
Print Assumptions C53_brown_f32.
Theorem C53_brown_f64 : forall ws : list f64, Forall white ws -> Forall (between (-1) 1) (brown_run fzero ws).
Proof.
  intros ws H. apply brown_run_ok; [split; [reflexivity |]; change (val (fzero : f64)) with 0; lra |]. eapply Forall_impl; [| exact H]. intros. apply white_between. assumption.
Qed.
Print Assumptions C53_brown_f64.

(** Interpolated random numbers stay in 0..1 for every non-negative frequency, changed at any time: exactly, in floating point. *)
Theorem C53_random_f32 : forall (freq sr r0 r1 : f32) ops, fin freq -> 0 <= val freq -> fin sr -> 1 <= val sr -> rand01 r0 -> rand01 r1 -> Forall rl_op_ok ops ->
  Forall (between 0 1) (rl_run (rl_init freq sr r0 r1) ops).
Proof. intros. apply rl_run_ok; [apply rl_init_ok; assumption | assumption]. Qed.
Print Assumptions C53_random_f32.
Theorem C53_random_f64 : forall (freq sr r0 r1 : f64) ops, fin freq -> 0 <= val freq -> fin sr -> 1 <= val sr -> rand01 r0 -> rand01 r1 -> Forall rl_op_ok ops ->
  Forall (between 0 1) (rl_run (rl_init freq sr r0 r1) ops).
Proof. intros. apply rl_run_ok; [apply rl_init_ok; assumption | assumption]. Qed.
Print Assumptions C53_random_f64.
Example random_example : map (fun o : f32 => B2SF o) (rl_run (rl_init (fz 2) (fz 4) (fze 1 (-1)) (fze 1 (-2))) [RFrame fzero; RFrame fzero; RFrame fzero; RFrame fzero; RFrame fzero]) =
  map (fun o : f32 => B2SF o) [fze 1 (-1); fze 3 (-3); fze 1 (-2); fze 1 (-3); fzero].
Proof. vm_compute. reflexivity. Qed.
(** With a negative frequency the output runs away: here below 0 within five frames. *)
Theorem C53_negative_freq_refuted :
  map (fun o : f32 => B2SF o) (rl_run (rl_init (fz (-2)) (fz 4) (fzero) (fze 1 (-1))) [RFrame fzero; RFrame fzero; RFrame fzero; RFrame fzero; RFrame fzero]) =
  map (fun o : f32 => B2SF o) [fzero; fze (-1) (-2); fze (-1) (-1); fze (-3) (-2); fneg fone].
Proof. vm_compute. reflexivity. Qed.
Print Assumptions C53_negative_freq_refuted.
