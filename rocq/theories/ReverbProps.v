(** C69: the Galactic reverb. *)
From Coq Require Import Reals Lra Lia.
From Flocq Require Import Core.
From Verif Require Import Base DelayModel RngModel RngProofs ReverbModel ReverbSpec ReverbProofs ReverbBounds ReverbGain.
Local Open Scope R_scope.

(** With silent input the tank never gains energy, at any setting of the reverb, and no output exceeds what is stored. *)
Theorem C69_tail : forall g n t t' os, tank_fours t -> 0 <= g <= / 8 -> tank_run g (repeat (0, 0) n) t = Some (t', os) ->
  energy t' <= energy t /\ Forall (fun o => fst o * fst o + snd o * snd o <= energy t) os.
Proof. exact tail. Qed.
Print Assumptions C69_tail.
(** Nor does it gain any when the size changes. *)
Theorem C69_resize : forall x s s', resize x s = Some s' -> side_energy s' = side_energy s.
Proof. intros x s s' H. exact (proj1 (proj2 (resize_sized x s s' H))). Qed.
Print Assumptions C69_resize.
(** The settings: the gain of the feedback is within what the two theorems above and below need *)
Theorem C69_feedback : forall p, 0 <= p_replace p <= 1 -> 0 <= regen p <= / 8 /\ (0 < p_replace p -> regen p < / 8).
Proof. intros p H. unfold regen. split; [lra | intros; lra]. Qed.
Print Assumptions C69_feedback.
(** Below the highest feedback the tail dies out, at an exponential rate. *)
Theorem C69_dies_out : forall g t, tank_ok t -> 0 <= g < / 8 -> exists c q, 0 <= c /\ 0 < q < 1 /\ forall n, exists t' os,
  tank_run g (repeat (0, 0) n) t = Some (t', os) /\ length os = n /\ forall i o, nth_error os i = Some o -> fst o * fst o + snd o * snd o <= c * q ^ i.
Proof. exact dies_out. Qed.
Print Assumptions C69_dies_out.
(** From the start, with settings in range, no input makes it panic and the outputs are at most a constant times the largest input (and the dither). *)
Theorem C69_bounded : forall sr p, (11026 <= sr)%N -> unit_params p -> 0 < p_replace p ->
  exists K, forall fl fr, (fl < M32)%N -> (fr < M32)%N -> exists g, galactic_init sr fl fr p = Some g /\
  forall X bs, 0 <= X -> Forall (Forall (within X)) bs -> exists g' os, blocks false bs g = Some (g', os) /\ Forall (Forall (within (K * (X + 1 / 10 ^ 7)))) os.
Proof. exact bounded. Qed.
Print Assumptions C69_bounded.
(** Blocks may be divided in any way. *)
Theorem C69_blocks : forall checks bs b g, process checks (concat (b :: bs)) g = (p <- blocks checks (b :: bs) g;; Some (fst p, concat (snd p))).
Proof. exact all_blocks. Qed.
Print Assumptions C69_blocks.

(** An output of 2 or more panics with overflow checks: [2_u64.pow(exponent + 62)] *)
Lemma loud : forall g xl xr, p_wet (g_par g) = 0 -> 2 <= Rabs xl -> process true [(xl, xr)] g = None.
Proof.
  intros g xl xr Hw Hx. unfold process. destruct (resize _ (t_left _)) as [l |]; [| reflexivity]. cbn [bind]. destruct (resize _ (t_right _)) as [r |]; [| reflexivity]. cbn [bind frames].
  match goal with |- context [frame true ?x ?g] => set (g1 := g); assert (F : frame true x g1 = None) end; [| rewrite F; reflexivity].
  assert (Hw1 : p_wet (g_par g1) = 0) by exact Hw. unfold frame. cbn [fst snd]. destruct (signal_frame xl xr g1) as [[g2 [ol or]] |] eqn:S; [| reflexivity]. cbn [bind].
  assert (E : ol = xl).
  { unfold signal_frame in S. destruct (vibrate _ _ _ _) as [vib old]. apply bind_some in S as (ml & _ & S). apply bind_some in S as (mr & _ & S). apply bind_some in S as (il & _ & S).
    apply bind_some in S as (ir & _ & S). apply bind_some in S as ([tk [o1 o2]] & _ & S). assert (W : wetness (g_par g1) = 0) by (unfold wetness; rewrite Hw1; ring). rewrite W in S.
    destruct (Rlt_dec 0 1) as [_ | Q]; [| lra]. injection S as _ <- _. unfold heard. destruct (Rlt_dec (Rabs xl) (118 / 10 ^ 25)) as [Q | _]; [| ring].
    exfalso. assert (118 / 10 ^ 25 < 2) by lra. lra. }
  subst ol. unfold dithered, pow_u64, exponent. destruct (Req_EM_T xl 0) as [Q | Q]; [rewrite Q, Rabs_R0 in Hx; lra |].
  assert (Mg : (2 <= mag radix2 xl)%Z) by (apply mag_ge_bpow; exact Hx). destruct (Z.ltb_spec (Z.max 0 (mag radix2 xl) + 62) 64) as [L | _]; [lia |]. reflexivity.
Qed.
Definition example_params : params := mk_params (1 / 2) (1 / 2) (1 / 2) (1 / 2) 0.
Lemma example_unit : unit_params example_params. Proof. unfold unit_params, example_params. cbn. lra. Qed.
Theorem C69_overload_refuted : ~ (forall sr p fl fr g b, (11026 <= sr)%N -> unit_params p -> 0 < p_replace p -> (fl < M32)%N -> (fr < M32)%N ->
  galactic_init sr fl fr p = Some g -> Forall (within 2) b -> process true b g <> None).
Proof.
  intros H. destruct (C69_bounded 44100 example_params ltac:(lia) example_unit ltac:(cbn; lra)) as (K & HK). destruct (HK 20000%N 20000%N ltac:(reflexivity) ltac:(reflexivity)) as (g & I & _).
  apply (H 44100%N example_params 20000%N 20000%N g [(2, 2)] ltac:(lia) example_unit ltac:(cbn; lra) ltac:(reflexivity) ltac:(reflexivity) I).
  - constructor; [| constructor]. split; cbn [fst snd]; rewrite Rabs_pos_eq; lra.
  - apply loud; [| rewrite Rabs_pos_eq; lra]. unfold galactic_init in I. apply bind_some in I as (a & _ & I). apply bind_some in I as (b & _ & I). apply bind_some in I as (c & _ & I). apply bind_some in I as (d & _ & I).
    injection I as <-. reflexivity.
Qed.
Print Assumptions C69_overload_refuted.
(** At 11025 Hz the filters of the brightest setting diverge: left alone, their state grows without bound. *)
Theorem C69_filter_refuted : ~ (forall p, unit_params p -> exists b, forall n, Rabs (Nat.iter n (smooth (lowpass p (1 / 44100 * 11025)) 0) 1) <= b).
Proof.
  intros H. destruct (H (mk_params 1 1 1 1 1)) as [b Hb]; [unfold unit_params; cbn; lra |]. clear H. unfold lowpass in Hb. cbn [p_bright] in Hb.
  assert (S : sqrt (1 / 44100 * 11025) = / 2) by (replace (1 / 44100 * 11025) with (/ 2 * / 2) by lra; apply sqrt_square; lra). rewrite S in Hb.
  set (lp := (100001 / 100000 - (1 - 1)) ^ 2 / / 2) in *. assert (L : 1 + 4 / 100000 < lp - 1) by (unfold lp; cbn [pow]; lra).
  assert (E : forall n, Rabs (Nat.iter n (smooth lp 0) 1) = (lp - 1) ^ n).
  { induction n as [| n IH]; [cbn; apply Rabs_R1 |]. cbn [Nat.iter nat_rect pow]. unfold smooth at 1. fold (Nat.iter n (smooth lp 0) 1). rewrite Rmult_0_l, Rplus_0_r, Rabs_mult, IH, Rmult_comm. f_equal.
    rewrite Rabs_left; lra. }
  assert (G : forall n, 1 + INR n * (4 / 100000) <= (lp - 1) ^ n).
  { intros n. apply Rle_trans with ((1 + 4 / 100000) ^ n); [apply poly; lra | apply pow_incr; lra]. }
  assert (B0 : 0 <= b) by (pose proof (Hb O) as Q; rewrite E in Q; cbn [pow] in Q; lra). destruct (archimed (b * 100000)) as [Hn _]. set (n := Z.to_nat (up (b * 100000))).
  assert (Hm : INR n = IZR (up (b * 100000))) by (unfold n; rewrite INR_IZR_INZ, Z2Nat.id; [reflexivity | apply le_IZR; lra]). specialize (Hb n). rewrite E in Hb. pose proof (G n). rewrite Hm in *. lra.
Qed.
Print Assumptions C69_filter_refuted.

(** A small tank holding sound, its energy, and one frame of it *)
Definition tiny_line (a b : R) : ssd R := mk_ssd [a; b] 0 2.
Definition tiny_side : side := mk_side [tiny_line 0 1; tiny_line 0 0; tiny_line 0 0; tiny_line 0 0] (repeat (tiny_line 0 0) 4) [tiny_line 0 4; tiny_line 0 0; tiny_line 0 0; tiny_line 0 0].
Definition tiny : tank := mk_tank tiny_side tiny_side [0; 0; 0; 0] [0; 0; 0; 0].
Example tiny_ok : tank_ok tiny /\ tank_fours tiny /\ energy tiny = 4.
Proof.
  split; [| split].
  - repeat split; try reflexivity; repeat constructor; cbn; lia.
  - repeat split; reflexivity.
  - unfold energy, side_energy, held, squares, tiny, tiny_side, tiny_line. cbn. lra.
Qed.
Example tiny_sounds : exists t, tank_frame (/ 16) 0 0 tiny = Some (t, (/ 2, / 2)).
Proof.
  eexists. unfold tank_frame, tiny, tiny_side, tiny_line, side_frame. cbn [t_left t_right t_fb0 t_fb1 stage0 stage1 stage2 map repeat write_all bind each fst snd].
  unfold ssd_write, ssd_read, mixed, mix. simpl. f_equal. f_equal. f_equal; lra.
Qed.
Example bounded_applies : unit_params (mk_params 1 (1 / 2) 1 1 1) /\ (11026 <= 44100)%N /\ 0 < p_replace (mk_params 1 (1 / 2) 1 1 1).
Proof. unfold unit_params. cbn [p_replace p_detune p_bright p_big p_wet]. repeat split; try lra. lia. Qed.
