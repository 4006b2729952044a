(** The whole reverb: outputs are bounded by the inputs; splitting into blocks doesn't matter. *)
From Coq Require Import Reals Lra Lia.
From Flocq Require Import Core.
From Verif Require Import Base DelayModel RngModel RngProofs ReverbModel ReverbSpec ReverbProofs.
Local Open Scope R_scope.

(** * A decay rate *)
Lemma pow_le_inv : forall d n, 0 <= d -> INR n * d < 1 -> (1 + d) ^ n <= / (1 - INR n * d).
Proof.
  intros d n H0. induction n as [| n IH]; intros H1.
  - cbn [pow INR]. rewrite Rmult_0_l, Rminus_0_r, Rinv_1. lra.
  - rewrite S_INR in *. assert (Q : INR n * d < 1) by nra. specialize (IH Q). cbn [pow].
    apply Rle_trans with ((1 + d) * / (1 - INR n * d)); [apply Rmult_le_compat_l; lra |].
    apply Rmult_le_reg_r with ((1 - INR n * d) * (1 - (INR n + 1) * d)); [apply Rmult_lt_0_compat; lra |].
    replace ((1 + d) * / (1 - INR n * d) * ((1 - INR n * d) * (1 - (INR n + 1) * d))) with ((1 + d) * (1 - (INR n + 1) * d)) by (field; lra).
    replace (/ (1 - (INR n + 1) * d) * ((1 - INR n * d) * (1 - (INR n + 1) * d))) with (1 - INR n * d) by (field; lra).
    pose proof (pos_INR n). assert (0 <= INR n * (d * d)) by (apply Rmult_le_pos; [assumption | apply Rmult_le_pos; assumption]). nra.
Qed.
Lemma rate : forall a n, 0 <= a < 1 -> exists rho, 1 < rho /\ a * rho ^ S n <= 1.
Proof.
  intros a n Ha. set (d := (1 - a) / INR (S n)). assert (N0 : 0 < INR (S n)) by (apply lt_0_INR; lia).
  assert (E : INR (S n) * (d / 2) = (1 - a) / 2) by (unfold d; field; lra).
  assert (D : 0 < d / 2) by (unfold d; apply Rmult_lt_0_compat; [apply Rmult_lt_0_compat; [lra | apply Rinv_0_lt_compat; exact N0] | lra]).
  exists (1 + d / 2). split; [lra |]. pose proof (pow_le_inv (d / 2) (S n) ltac:(lra) ltac:(rewrite E; lra)) as P. rewrite E in P.
  apply Rle_trans with (a * / (1 - (1 - a) / 2)); [apply Rmult_le_compat_l; lra |].
  apply Rmult_le_reg_r with (1 - (1 - a) / 2); [lra |]. replace (a * / (1 - (1 - a) / 2) * (1 - (1 - a) / 2)) with a by (field; lra). lra.
Qed.
Lemma rate_regen : forall g M, 0 <= g < / 8 -> exists rho, 1 < rho /\ 64 * (g * g) * rho ^ (3 * M + 2) <= 1.
Proof. intros g M Hg. replace (3 * M + 2)%nat with (S (3 * M + 1)) by lia. apply rate. nra. Qed.

(** * Decay of the tank *)
Fixpoint longest (ls : list (ssd R)) : nat := match ls with [] => 0%nat | l :: r => Nat.max (ss_len l) (longest r) end.
Lemma longest_short : forall ls M, Forall line_ok ls -> (longest ls <= M)%nat -> Forall (short M) ls.
Proof. induction ls as [| l ls IH]; intros M F H; [constructor |]. inversion F; subst. cbn [longest] in H. constructor; [split; [assumption | lia] | apply IH; [assumption | lia]]. Qed.
Lemma tank_ok_short : forall t, tank_ok t -> exists M, tank_short M t.
Proof.
  intros t (((A & A') & (B & B') & (C & C')) & ((D & D') & (E & E') & (F & F')) & G & H).
  set (a := longest (stage0 (t_left t))). set (b := longest (stage1 (t_left t))). set (c := longest (stage2 (t_left t))).
  set (d := longest (stage0 (t_right t))). set (e := longest (stage1 (t_right t))). set (f := longest (stage2 (t_right t))).
  exists (a + b + c + d + e + f)%nat. repeat split; try assumption; apply longest_short; try assumption; unfold a, b, c, d, e, f; lia.
Qed.
Lemma silence : forall rho M g n t, 1 < rho -> tank_short M t -> 64 * (g * g) * rho ^ (3 * M + 2) <= 1 ->
  exists t' os, tank_run g (repeat (0, 0) n) t = Some (t', os) /\ length os = n /\
    forall i o, nth_error os i = Some o -> kappa rho M * kappa rho M * kappa rho M * (fst o * fst o + snd o * snd o) <= level rho M t / rho ^ S i.
Proof.
  intros rho M g n t Hr. revert t. induction n as [| n IH]; intros t T G.
  - exists t, []. repeat split. intros [|] o; discriminate.
  - destruct (tank_step rho Hr M g 0 0 t T G) as (t1 & o1 & E1 & T1 & _ & _ & L1 & O1). destruct (IH t1 T1 G) as (t2 & os & E2 & N & B).
    exists t2, (o1 :: os). cbn [repeat tank_run fst snd]. rewrite E1. cbn [bind fst snd]. rewrite E2. split; [reflexivity |]. split; [cbn; congruence |].
    replace (4 * (rho / (rho - 1)) * (0 * 0 + 0 * 0)) with 0 in L1 by ring. intros [| i] o Ho; cbn [nth_error] in Ho.
    + injection Ho as <-. rewrite pow_1. lra.
    + apply Rle_trans with (1 := B i o Ho). pose proof (pow_pos rho Hr i) as P. cbn [pow].
      apply Rmult_le_reg_r with (rho * rho ^ i); [apply Rmult_lt_0_compat; lra |].
      replace (level rho M t1 / (rho * rho ^ i) * (rho * rho ^ i)) with (level rho M t1) by (field; lra).
      replace (level rho M t / (rho * (rho * rho ^ i)) * (rho * rho ^ i)) with (level rho M t / rho) by (field; lra). lra.
Qed.
Theorem dies_out : forall g t, tank_ok t -> 0 <= g < / 8 -> exists c q, 0 <= c /\ 0 < q < 1 /\ forall n, exists t' os, tank_run g (repeat (0, 0) n) t = Some (t', os) /\ length os = n /\
  forall i o, nth_error os i = Some o -> fst o * fst o + snd o * snd o <= c * q ^ i.
Proof.
  intros g t T Hg. destruct (tank_ok_short t T) as [M S]. destruct (rate_regen g M Hg) as (rho & Hr & G).
  pose proof (kappa_pos rho Hr M) as K. set (k := kappa rho M) in *. assert (K3 : 0 < k * k * k) by (repeat apply Rmult_lt_0_compat; exact K).
  assert (LV : 0 <= level rho M t).
  { unfold level. pose proof (side_en_pos rho Hr M (t_left t)). pose proof (side_en_pos rho Hr M (t_right t)). pose proof (squares_pos (t_fb0 t)). pose proof (squares_pos (t_fb1 t)).
    fold k. assert (0 <= rho * (side_en rho M (t_left t) + side_en rho M (t_right t))) by (apply Rmult_le_pos; lra).
    assert (0 <= k * k * k / 64 * (squares (t_fb0 t) + squares (t_fb1 t))) by (apply Rmult_le_pos; lra). lra. }
  exists (level rho M t / (k * k * k)), (/ rho). split; [apply Rmult_le_pos; [exact LV | left; apply Rinv_0_lt_compat; exact K3] |].
  split; [split; [apply Rinv_0_lt_compat; lra | rewrite <- Rinv_1; apply Rinv_lt_contravar; lra] |].
  intros n. destruct (silence rho M g n t Hr S G) as (t' & os & E & N & B). exists t', os. split; [exact E |]. split; [exact N |].
  intros i o Ho. specialize (B i o Ho). fold k in B. pose proof (pow_pos rho Hr i) as P. apply Rmult_le_reg_l with (k * k * k); [exact K3 |]. apply Rle_trans with (1 := B).
  cbn [pow]. rewrite pow_inv by lra.
  replace (k * k * k * (level rho M t / (k * k * k) * / rho ^ i)) with (level rho M t / rho ^ i) by (field; lra).
  apply Rmult_le_compat_l; [exact LV |]. apply Rinv_le; [exact P |]. nra.
Qed.
Theorem tail : forall g n t t' os, tank_fours t -> 0 <= g <= / 8 -> tank_run g (repeat (0, 0) n) t = Some (t', os) ->
  energy t' <= energy t /\ Forall (fun o => fst o * fst o + snd o * snd o <= energy t) os.
Proof.
  intros g n. induction n as [| n IH]; intros t t' os F G H.
  - injection H as <- <-. split; [lra | constructor].
  - cbn [repeat tank_run fst snd] in H. apply bind_some in H as ([t1 o] & H1 & H). cbn [fst snd] in H. apply bind_some in H as ([t2 os2] & H2 & H). injection H as <- <-.
    destruct (tank_held g t t1 o F G H1) as (F1 & E1 & O1). destruct (IH _ _ _ F1 G H2) as [E2 O2]. cbn [fst snd]. split; [lra |]. constructor; [lra |].
    eapply Forall_impl; [| exact O2]. intros o' Q. cbv beta in *. lra.
Qed.

(** * Resizing *)
Definition sized (x : R) (l : ssd R) : Prop := set_fraction x l = Some l.
Lemma set_fraction_buf : forall x l l', set_fraction x l = Some l' -> ss_buf l' = ss_buf l /\ ss_pos l' = ss_pos l /\ sized x l'.
Proof.
  intros x l l' H. unfold sized, set_fraction in *. destruct (Rlt_dec (-1) (INR (length (ss_buf l)) * x)) as [d | d]; [| discriminate]. injection H as <-.
  cbn [ss_buf ss_pos]. split; [reflexivity |]. split; [reflexivity |]. destruct (Rlt_dec _ _) as [_ | n]; [reflexivity | contradiction].
Qed.
Lemma set_fraction_held : forall x l l', set_fraction x l = Some l' -> held l' = held l.
Proof. intros x l l' H. destruct (set_fraction_buf _ _ _ H) as (A & B & _). unfold held. rewrite A, B. reflexivity. Qed.
Lemma each_sized : forall x ls ls', each (set_fraction x) ls = Some ls' -> Forall (sized x) ls' /\ length ls' = length ls /\ map held ls' = map held ls.
Proof.
  intros x. induction ls as [| l ls IH]; intros ls' H; cbn [each] in H; [injection H as <-; repeat split; constructor |].
  apply bind_some in H as (l' & H1 & H). apply bind_some in H as (r & H2 & H). injection H as <-. destruct (IH _ H2) as (A & B & C).
  split; [constructor; [apply (set_fraction_buf _ _ _ H1) | exact A] |]. cbn [length map]. rewrite B, C, (set_fraction_held _ _ _ H1). split; reflexivity.
Qed.
Lemma each_same : forall x ls, Forall (sized x) ls -> each (set_fraction x) ls = Some ls.
Proof. intros x ls H. induction H as [| l ls H _ IH]; [reflexivity |]. cbn [each]. rewrite H. cbn [bind]. rewrite IH. reflexivity. Qed.
Definition side_sized (x : R) (s : side) : Prop := Forall (sized x) (stage0 s) /\ Forall (sized x) (stage1 s) /\ Forall (sized x) (stage2 s).
Lemma resize_sized : forall x s s', resize x s = Some s' -> side_sized x s' /\ side_energy s' = side_energy s /\ (fours s -> fours s').
Proof.
  intros x s s' H. unfold resize in H. apply bind_some in H as (a & A & H). apply bind_some in H as (b & B & H). apply bind_some in H as (c & C & H). injection H as <-.
  destruct (each_sized _ _ _ A) as (A1 & A2 & A3). destruct (each_sized _ _ _ B) as (B1 & B2 & B3). destruct (each_sized _ _ _ C) as (C1 & C2 & C3).
  split; [repeat split; assumption |]. unfold side_energy, fours. cbn [stage0 stage1 stage2]. rewrite A2, A3, B2, B3, C2, C3. split; [reflexivity | intros Q; exact Q].
Qed.
Lemma resize_same : forall x s, side_sized x s -> resize x s = Some s.
Proof.
  intros x s (A & B & C). unfold resize. rewrite (each_same _ _ A). cbn [bind]. rewrite (each_same _ _ B). cbn [bind]. rewrite (each_same _ _ C). destruct s; reflexivity.
Qed.
Lemma write_sized : forall x v l l', ssd_write v l = Some l' -> sized x l -> sized x l'.
Proof.
  intros x v l l' H S. unfold ssd_write in H. apply bind_some in H as (buf & E & H). apply bind_some in H as (p & _ & H). injection H as <-.
  unfold sized, set_fraction in *. cbn [ss_buf ss_pos ss_len]. rewrite (set_nth_length _ _ _ _ E). destruct (Rlt_dec _ _); [| discriminate]. injection S as S.
  f_equal. f_equal. apply (f_equal ss_len) in S. cbn in S. exact S.
Qed.
Lemma write_all_sized : forall x xs ls ls', write_all xs ls = Some ls' -> Forall (sized x) ls -> Forall (sized x) ls'.
Proof.
  intros x. induction xs as [| v xs IH]; intros ls ls' H F; [injection H as <-; constructor |]. destruct F as [| l ls F1 F2]; [injection H as <-; constructor |].
  cbn [write_all] in H. apply bind_some in H as (l' & H1 & H). apply bind_some in H as (r & H2 & H). injection H as <-.
  constructor; [eapply write_sized; eassumption | eapply IH; eassumption].
Qed.
Lemma side_frame_sized : forall x ins s s' z, side_frame ins s = Some (s', z) -> side_sized x s -> side_sized x s'.
Proof.
  intros x ins s s' z H (S0 & S1 & S2). unfold side_frame in H. apply bind_some in H as (a & A & H). apply bind_some in H as (y0 & _ & H). apply bind_some in H as (b & B & H).
  apply bind_some in H as (y1 & _ & H). apply bind_some in H as (c & C & H). apply bind_some in H as (y2 & _ & H). injection H as <- <-.
  repeat split; cbn [stage0 stage1 stage2]; eapply write_all_sized; eassumption.
Qed.
Definition g_sized (g : galactic) : Prop := side_sized (size (g_par g)) (t_left (g_tank g)) /\ side_sized (size (g_par g)) (t_right (g_tank g)).
Lemma signal_sized : forall xl xr g g' o, signal_frame xl xr g = Some (g', o) -> g_sized g -> g_sized g' /\ g_par g' = g_par g.
Proof.
  intros xl xr g g' o H (SL & SR). unfold signal_frame in H. destruct (vibrate _ _ _ _) as [vib old].
  apply bind_some in H as (ml & _ & H). apply bind_some in H as (mr & _ & H). apply bind_some in H as (il & _ & H). apply bind_some in H as (ir & _ & H).
  apply bind_some in H as ([tk [ol or]] & T & H). injection H as <- _.
  unfold tank_frame in T. apply bind_some in T as ([l zl] & TL & T). apply bind_some in T as ([r zr] & TR & T). injection T as <- _ _.
  split; [| reflexivity]. split; cbn [g_tank g_par t_left t_right fst]; eapply side_frame_sized; eassumption.
Qed.
Lemma frame_sized : forall checks x g g' o, frame checks x g = Some (g', o) -> g_sized g -> g_sized g' /\ g_par g' = g_par g.
Proof.
  intros checks x g g' o H S. unfold frame in H. apply bind_some in H as ([g1 [ol or]] & H1 & H). apply bind_some in H as (a & _ & H). apply bind_some in H as (b & _ & H). injection H as <- _.
  exact (signal_sized _ _ _ _ _ H1 S).
Qed.
Lemma frames_sized : forall checks xs g g' o, frames checks xs g = Some (g', o) -> g_sized g -> g_sized g'.
Proof.
  intros checks. induction xs as [| x xs IH]; intros g g' o H S; [injection H as <- _; exact S |].
  cbn [frames] in H. apply bind_some in H as ([g1 o1] & H1 & H). apply bind_some in H as ([g2 o2] & H2 & H). injection H as <- _.
  exact (IH _ _ _ H2 (proj1 (frame_sized _ _ _ _ _ H1 S))).
Qed.
Lemma process_same : forall checks xs g, g_sized g -> process checks xs g = frames checks xs g.
Proof. intros checks xs g (SL & SR). unfold process. rewrite (resize_same _ _ SL). cbn [bind]. rewrite (resize_same _ _ SR). cbn [bind]. destruct g as [[]]. reflexivity. Qed.
Lemma process_sized : forall checks xs g g' o, process checks xs g = Some (g', o) -> g_sized g'.
Proof.
  intros checks xs g g' o H. unfold process in H. apply bind_some in H as (l & L & H). apply bind_some in H as (r & Rr & H).
  apply (frames_sized _ _ _ _ _ H). split; cbn [g_par g_tank t_left t_right]; eapply resize_sized; eassumption.
Qed.
Lemma frames_app : forall checks xs ys g, frames checks (xs ++ ys) g = (p <- frames checks xs g;; q <- frames checks ys (fst p);; Some (fst q, snd p ++ snd q)).
Proof.
  intros checks. induction xs as [| x xs IH]; intros ys g; cbn [app frames].
  - cbn [bind fst snd app]. destruct (frames checks ys g) as [[g' o] |]; reflexivity.
  - destruct (frame checks x g) as [[g1 o1] |]; cbn [bind fst snd]; [| reflexivity]. rewrite IH. destruct (frames checks xs g1) as [[g2 o2] |]; cbn [bind fst snd]; [| reflexivity].
    destruct (frames checks ys g2) as [[g3 o3] |]; reflexivity.
Qed.
Theorem split_blocks : forall checks xs ys g, process checks (xs ++ ys) g = (p <- process checks xs g;; q <- process checks ys (fst p);; Some (fst q, snd p ++ snd q)).
Proof.
  intros checks xs ys g. assert (P : forall p, process checks xs g = Some p -> process checks ys (fst p) = frames checks ys (fst p)).
  { intros [g' o] H. apply process_same. exact (process_sized _ _ _ _ _ H). }
  destruct (process checks xs g) as [p |] eqn:E; cbn [bind].
  - rewrite (P p eq_refl). unfold process in *. destruct (resize _ (t_left _)) as [l |]; cbn [bind] in *; [| discriminate]. destruct (resize _ (t_right _)) as [r |]; cbn [bind] in *; [| discriminate].
    rewrite frames_app, E. reflexivity.
  - unfold process in *. destruct (resize _ (t_left _)) as [l |]; cbn [bind] in *; [| reflexivity]. destruct (resize _ (t_right _)) as [r |]; cbn [bind] in *; [| reflexivity].
    rewrite frames_app, E. reflexivity.
Qed.
Theorem all_blocks : forall checks bs b g, process checks (concat (b :: bs)) g = (p <- blocks checks (b :: bs) g;; Some (fst p, concat (snd p))).
Proof.
  intros checks. induction bs as [| c bs IH]; intros b g.
  - cbn [concat blocks]. rewrite app_nil_r. destruct (process checks b g) as [[g' o] |]; cbn [bind fst snd concat]; [| reflexivity]. rewrite app_nil_r. reflexivity.
  - change (concat (b :: c :: bs)) with (b ++ concat (c :: bs)). rewrite split_blocks. cbn [blocks]. destruct (process checks b g) as [p |]; cbn [bind]; [| reflexivity].
    rewrite IH. cbn [blocks]. destruct (process checks c (fst p)) as [q |]; cbn [bind]; [| reflexivity]. destruct (blocks checks bs (fst q)) as [r |]; reflexivity.
Qed.
