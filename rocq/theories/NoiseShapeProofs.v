From Coq Require Import Reals Lra Lia.
From Flocq Require Import Core Relative BinarySingleNaN.
From Verif Require Import Base FloatBase FloatMore NoiseModel NoiseSpec NoiseProofs NoiseMore EnvJumpSpec EnvJumpProofs NoiseShapeSpec.
Local Open Scope R_scope.

(** * The schedule of the octaves *)
Lemma latest_snoc : forall A P (d : A) xs x, latest P d (xs ++ [x]) = if P (S (length xs)) then x else latest P d xs.
Proof.
  intros A P d xs x. unfold latest. rewrite app_length. cbn [length]. rewrite seq_app. cbn [seq plus].
  assert (E : forall (a b : list nat) (c e : list A), length a = length c -> combine (a ++ b) (c ++ e) = combine a c ++ combine b e).
  { induction a as [| y a IH]; intros b [| z c] e L; cbn in *; try discriminate; [reflexivity |]. f_equal. apply IH. congruence. }
  rewrite E by apply seq_length. rewrite fold_left_app. cbn. reflexivity.
Qed.
Lemma due_small : forall r j, (r < 256)%nat -> (j < 9)%nat -> due j (S r) = (j =? ptz (Pos.of_succ_nat r))%nat.
Proof.
  assert (C : forallb (fun r => forallb (fun j => Bool.eqb (due j (S r)) (j =? ptz (Pos.of_succ_nat r))%nat) (seq 0 9)) (seq 0 256) = true) by (vm_compute; reflexivity).
  intros r j Hr Hj. rewrite forallb_forall in C. specialize (C r ltac:(apply in_seq; lia)). rewrite forallb_forall in C.
  specialize (C j ltac:(apply in_seq; lia)). apply Bool.eqb_prop in C. exact C.
Qed.
Lemma mod_mod_256 : forall i n, (i <= 8)%nat -> (S n mod 2 ^ i = S (n mod 256) mod 2 ^ i)%nat.
Proof.
  intros i n Hi. assert (E : (256 = 2 ^ i * 2 ^ (8 - i))%nat) by (rewrite <- Nat.pow_add_r; replace (i + (8 - i))%nat with 8%nat by lia; reflexivity).
  assert (Z : (2 ^ i <> 0)%nat) by (apply Nat.pow_nonzero; lia).
  rewrite (Nat.div_mod n 256 ltac:(lia)) at 1.
  assert (Q : (S (256 * (n / 256) + n mod 256) = S (n mod 256) + (2 ^ (8 - i) * (n / 256)) * 2 ^ i)%nat).
  { generalize (n / 256)%nat (n mod 256)%nat. intros x r. revert E. generalize (2 ^ i)%nat (2 ^ (8 - i))%nat. intros y z E.
    transitivity (S (y * z * x + r))%nat; [rewrite <- E; reflexivity | ring]. }
  rewrite Q.
  apply Nat.mod_add. exact Z.
Qed.
Lemma due_mod : forall n j, (j < 9)%nat -> due j (S n) = due j (S (n mod 256)).
Proof.
  intros n j Hj. unfold due. destruct (Nat.ltb_spec j 8) as [L | L].
  - rewrite (mod_mod_256 (S j) n ltac:(lia)). reflexivity.
  - pose proof (mod_mod_256 8 n ltac:(lia)) as Q. change (2 ^ 8)%nat with 256%nat in Q. rewrite Q. reflexivity.
Qed.
Lemma due_counter : forall n j, (j < 9)%nat -> due j (S n) = (j =? ptz (Pos.of_succ_nat (n mod 256)))%nat.
Proof. intros n j Hj. rewrite due_mod by exact Hj. apply due_small; [apply Nat.mod_upper_bound; lia | exact Hj]. Qed.

Section Proofs.
Context {prec emax : Z} {I : ieee prec emax}.
Notation fl := (binary_float prec emax).
Notation rnd := (@rnd prec emax).
Notation eps := (@eps prec).

Lemma pink_run_app : forall ws vs (s : pink prec emax), pink_run s (ws ++ vs) =
  (p <- pink_run s ws;; q <- pink_run (fst p) vs;; Some (fst q, snd p ++ snd q)).
Proof.
  induction ws as [| w ws IH]; intros vs s; cbn [app pink_run bind].
  - cbn [fst snd app]. destruct (pink_run s vs) as [[a b] |]; reflexivity.
  - destruct (pink_step s (fst w) (snd w)) as [[s1 o] |]; cbn [bind fst snd]; [| reflexivity]. rewrite IH.
    destruct (pink_run s1 ws) as [[a b] |]; cbn [bind fst snd]; [| reflexivity].
    destruct (pink_run a vs) as [[c d] |]; reflexivity.
Qed.
Notation ten := (fadd (fz (Z.of_nat octaves)) fone).
Lemma step_out : forall (s s' : pink prec emax) w1 w2 o, pink_step s w1 w2 = Some (s', o) -> o = fdiv (p_sum s') ten.
Proof.
  intros s s' w1 w2 o E. unfold pink_step in E. destruct (noise_index s) as [i |]; cbn [bind] in E; [| discriminate].
  destruct (negb _); [discriminate |]. destruct (nth_error (p_ws s) i); cbn [bind] in E; [| discriminate].
  destruct (set_nth (p_ws s) i w1); cbn [bind] in E; [| discriminate]. destruct (increment s); cbn [bind] in E; [| discriminate].
  injection E as <- <-. reflexivity.
Qed.
(** The [n]-th output is that of the run up to there *)
Lemma run_prefix : forall ws (s s' : pink prec emax) l n, pink_run s ws = Some (s', l) -> (n < length ws)%nat ->
  exists sn ln, pink_run s (firstn (S n) ws) = Some (sn, ln) /\ nth_error l n = Some (fdiv (p_sum sn) ten).
Proof.
  induction ws as [| w ws IH]; intros s s' l n E Hn; [cbn in Hn; lia |]. cbn [pink_run] in E.
  destruct (pink_step s (fst w) (snd w)) as [[s1 o] |] eqn:E1; cbn [bind fst snd] in E; [| discriminate].
  destruct (pink_run s1 ws) as [[s2 l2] |] eqn:E2; cbn [bind fst snd] in E; [| discriminate]. injection E as <- <-.
  rewrite firstn_cons. cbn [pink_run]. rewrite E1. cbn [bind fst snd]. destruct n as [| n].
  - exists s1, [o]. cbn [firstn pink_run bind fst snd nth_error]. split; [reflexivity |]. rewrite (step_out _ _ _ _ _ E1). reflexivity.
  - cbn [length] in Hn. destruct (IH s1 s2 l2 n E2 ltac:(lia)) as (sn & ln & Q1 & Q2). rewrite Q1. cbn [bind fst snd].
    exists sn, (o :: ln). split; [reflexivity | exact Q2].
Qed.
Lemma set_nine : forall A (f : nat -> A) k w, (k < 9)%nat -> set_nth (map f (seq 0 9)) k w = Some (map (fun i => if (i =? k)%nat then w else f i) (seq 0 9)).
Proof. intros A f k w H. do 9 (destruct k as [| k]; [reflexivity |]). lia. Qed.
(** The state after a run *)
Lemma run_state : forall ws (s : pink prec emax) l, pink_run pink_new ws = Some (s, l) ->
  p_cnt s = N.of_nat (S (length ws mod 256)) /\ p_mask s = 256%N /\
  p_ws s = map (fun i => latest (due i) fzero (map fst ws)) (seq 0 9) /\ p_on s = last (map snd ws) fzero.
Proof.
  induction ws as [| w ws IH] using rev_ind; intros s l E.
  - injection E as <- <-. split; [reflexivity |]. split; [reflexivity |]. split; reflexivity.
  - rewrite pink_run_app in E. destruct (pink_run pink_new ws) as [[s0 l0] |] eqn:E0; cbn [bind fst snd] in E; [| discriminate].
    destruct (IH s0 l0 eq_refl) as (Q1 & Q2 & Q3 & Q4). clear IH. cbn [pink_run] in E.
    destruct (pink_step s0 (fst w) (snd w)) as [[s1 o] |] eqn:E1; cbn [bind fst snd] in E; [| discriminate]. injection E as <- <-.
    set (r := (length ws mod 256)%nat) in *. assert (Hr : (r < 256)%nat) by (apply Nat.mod_upper_bound; lia).
    unfold pink_step, noise_index, increment in E1. rewrite Q1, Q2, Q3 in E1.
    change (N.of_nat (S r)) with (N.pos (Pos.of_succ_nat r)) in E1.
    assert (L1 : (N.pos (Pos.of_succ_nat r) <=? 256)%N = true) by (apply N.leb_le; lia).
    rewrite L1 in E1. cbn [bind] in E1. change (0 <? N.pos (Pos.of_succ_nat r))%N with true in E1. cbn [andb] in E1.
    set (k := ptz (Pos.of_succ_nat r)) in *.
    destruct (negb (k <? octaves)%nat) eqn:Lk; [discriminate |]. apply Bool.negb_false_iff, Nat.ltb_lt in Lk. unfold octaves in Lk.
    destruct (nth_error _ k) as [old |]; cbn [bind] in E1; [| discriminate].
    assert (Sn : set_nth (map (fun i => latest (due i) fzero (map fst ws)) (seq 0 9)) k (fst w) =
      Some (map (fun i => latest (due i) fzero (map fst (ws ++ [w]))) (seq 0 9))).
    { rewrite map_app. cbn [map]. assert (Eq : forall i, In i (seq 0 9) -> latest (due i) fzero (map fst ws ++ [fst w]) = if (i =? k)%nat then fst w else latest (due i) fzero (map fst ws)).
      { intros i Hi. apply in_seq in Hi. rewrite latest_snoc, map_length, due_counter by lia. reflexivity. }
      rewrite (map_ext_in _ _ _ Eq). apply set_nine. exact Lk. }
    rewrite Sn in E1. cbn [bind] in E1. injection E1 as <- _. cbn [p_cnt p_mask p_ws p_on].
    split; [| split; [reflexivity |]; split; [reflexivity |]].
    + change (Pos.land (Pos.of_succ_nat r) 255) with (N.land (N.pos (Pos.of_succ_nat r)) (N.ones 8)). rewrite N.land_ones. rewrite app_length. cbn [length]. change (2 ^ 8)%N with 256%N.
      assert (M : ((length ws + 1) mod 256 = (r + 1) mod 256)%nat).
      { unfold r. rewrite (Nat.add_mod (length ws) 1 256) by lia. reflexivity. }
      rewrite M. replace (N.pos (Pos.of_succ_nat r)) with (N.of_nat (r + 1)) by lia.
      change 256%N with (N.of_nat 256). rewrite <- (Nat2N.inj_mod (r + 1) 256). lia.
    + rewrite map_app. cbn [map]. rewrite last_last. reflexivity.
Qed.
Lemma average_state : forall ws (s : pink prec emax) l, pink_run pink_new ws = Some (s, l) ->
  (rsum (map val (p_ws s)) + val (p_on s)) / 10 = pink_average ws.
Proof.
  intros ws s l E. destruct (run_state ws s l E) as (_ & _ & Q3 & Q4). unfold pink_average. rewrite Q3, Q4, map_map. reflexivity.
Qed.
Lemma pow_error : forall e x, (-50 <= e <= 100)%Z -> Rabs x <= bpow radix2 e -> Rabs (rnd x - x) <= bpow radix2 (e - prec - 1).
Proof.
  intros e x He H. destruct (Req_dec x 0) as [-> | N].
  { rewrite rnd_0, Rminus_0_r, Rabs_R0. apply bpow_ge_0. }
  destruct (Req_dec (Rabs x) (bpow radix2 e)) as [E | Ne].
  - assert (R0 : rnd x = x); [| rewrite R0, Rminus_diag_eq, Rabs_R0 by reflexivity; apply bpow_ge_0].
    unfold Rabs in E. destruct (Rcase_abs x).
    + replace x with (- bpow radix2 e) by lra. rewrite rnd_opp, rnd_bpow by lia. reflexivity.
    + rewrite E. apply rnd_bpow. lia.
  - eapply Rle_trans; [apply error_le_half_ulp; exact (FLT_exp_valid (SpecFloat.emin prec emax) prec) |].
    rewrite ulp_neq_0 by exact N. unfold cexp.
    assert (M : (mag radix2 x <= e)%Z) by (apply mag_le_bpow; [exact N | lra]).
    replace (/ 2) with (bpow radix2 (-1)) by reflexivity. rewrite <- bpow_plus. apply bpow_le.
    unfold SpecFloat.fexp, SpecFloat.emin. destruct I. lia.
Qed.
(** f64: the sum is exact *)
Lemma sum_state : forall ws (s : pink prec emax), (28 <= prec)%Z -> sum_ok s -> Forall (fun w => white (fst w) /\ white (snd w)) ws ->
  forall s' l, pink_run s ws = Some (s', l) -> sum_ok s'.
Proof.
  intros ws s Hp H Hw s' l E. destruct (sum_run ws s Hp H Hw) as (s1 & l1 & E1 & S1 & _). rewrite E in E1. injection E1 as <- <-. exact S1.
Qed.
Lemma firstn_Forall : forall A (P : A -> Prop) n l, Forall P l -> Forall P (firstn n l).
Proof. intros A P n l H. rewrite <- (firstn_skipn n l) in H. apply Forall_app in H. apply H. Qed.
Lemma rsum_bound : forall l, Forall (fun w : fl => between (-1) 1 w) l -> Rabs (rsum (map val l)) <= INR (length l).
Proof.
  induction l as [| x l IH]; intros H; [cbn; rewrite Rabs_R0; lra |]. inversion H as [| ? ? [F B] Hl]; subst. specialize (IH Hl).
  change (rsum (map val (x :: l))) with (val x + rsum (map val l)). cbn [length]. rewrite S_INR. apply abs_le in IH. apply Rabs_le. lra.
Qed.
Lemma div_ten : forall p : fl, fin p -> Rabs (val p) <= 16 -> Rabs (val (fdiv p ten) - val p / 10) <= bpow radix2 (1 - prec - 1).
Proof.
  intros p F B. destruct (ten_ok (prec := prec) (emax := emax)) as [Ft Vt]. apply abs_le in B.
  assert (Q : Rabs (val p / 10) <= bpow radix2 1) by (change (bpow radix2 1) with 2; apply Rabs_le; lra).
  destruct (fdiv_ok p ten F) as [A C]; rewrite ?Vt; [lra | apply fits with 1%Z; [destruct I; lia | exact Q] |].
  rewrite A, Vt. apply pow_error; [lia | exact Q].
Qed.
Lemma pink_exact : forall ws : list (fl * fl), (28 <= prec)%Z -> Forall (fun w => white (fst w) /\ white (snd w)) ws ->
  exists s l, pink_run pink_new ws = Some (s, l) /\ length l = length ws /\
    forall n, (n < length ws)%nat -> exists o, nth_error l n = Some o /\ Rabs (val o - pink_average (firstn (S n) ws)) <= 2 * eps.
Proof.
  intros ws Hp Hw. destruct (pink_run_ok ws pink_new pink_new_ok) as (s & l & E & _ & L). exists s, l. split; [exact E |]. split; [exact L |].
  intros n Hn. destruct (run_prefix ws pink_new s l n E Hn) as (sn & ln & E2 & O). exists (fdiv (p_sum sn) ten). split; [exact O |].
  pose proof (sum_state _ _ Hp sum_new (firstn_Forall _ _ (S n) _ Hw) sn ln E2) as Sk.
  pose proof (sum_real sn Sk) as V. rewrite <- (average_state _ _ _ E2), <- V.
  replace (2 * eps) with (bpow radix2 (1 - prec - 1)).
  2: { unfold FloatMore.eps. replace (1 - prec - 1)%Z with (1 + (- prec - 1))%Z by ring. rewrite bpow_plus. change (bpow radix2 1) with 2. ring. }
  destruct Sk as [Ok (zs & on & Hr & Go & So & [Fp Vp])]. apply div_ten; [exact Fp |].
  rewrite Vp. pose proof (zsum_small zs (proj2 Hr)) as B. rewrite (rows_length _ _ Hr), (proj1 Ok) in B. unfold small in So. change (Z.of_nat octaves) with 9%Z in B.
  eapply Rle_trans; [apply grid_size with (k := 27%Z); lia |]. change (bpow radix2 (27 + -23)) with 16. lra.
Qed.
End Proofs.

(** * Single precision: the drift of the running sum *)
Notation f32 := (binary_float 24 128).
Definition drifts (k : R) (s : pink 24 128) : Prop :=
  pink_ok s /\ Forall (between (-1) 1) (p_ws s) /\ between (-1) 1 (p_on s) /\ fin (p_sum s) /\
  Rabs (val (p_sum s) - (rsum (map val (p_ws s)) + val (p_on s))) <= k * bpow radix2 (-19).
Lemma rsum_set : forall (l : list f32) i old w l', nth_error l i = Some old -> set_nth l i w = Some l' ->
  rsum (map val l') = rsum (map val l) - val old + val w.
Proof.
  induction l as [| y l IH]; intros [| i] old w l' E S; cbn in E, S; try discriminate.
  - injection E as ->. injection S as <-. cbn. lra.
  - destruct (set_nth l i w) as [l2 |] eqn:S2; [| discriminate S]. injection S as <-. 
    change (val y + rsum (map val l2) = val y + rsum (map val l) - val old + val w). rewrite (IH _ _ _ _ E S2). lra.
Qed.
Lemma Forall_setb : forall (P : f32 -> Prop) l i z l', Forall P l -> P z -> set_nth l i z = Some l' -> Forall P l'.
Proof.
  intros P. induction l as [| y l IH]; intros [| i] z l' H Hz S; cbn in S; try discriminate; inversion H; subst.
  - injection S as <-. constructor; assumption.
  - destruct (set_nth l i z) as [l2 |] eqn:S2; [| discriminate S]. injection S as <-. constructor; [assumption | apply (IH i z); assumption].
Qed.
Notation u := (bpow radix2 (-21)).
Lemma add32 : forall x y : f32, fin x -> fin y -> Rabs (val x + val y) <= 16 -> fin (fadd x y) /\ Rabs (val (fadd x y) - (val x + val y)) <= u.
Proof.
  intros x y Fx Fy B. change 16 with (bpow radix2 4) in B. destruct (fadd_ok x y Fx Fy) as [A C]; [apply fits with 4%Z; [lia | exact B] |].
  split; [exact C |]. rewrite A. apply (pow_error (prec := 24) (emax := 128) 4); [lia | exact B].
Qed.
Lemma sub32 : forall x y : f32, fin x -> fin y -> Rabs (val x - val y) <= 16 -> fin (fsub x y) /\ Rabs (val (fsub x y) - (val x - val y)) <= u.
Proof.
  intros x y Fx Fy B. change 16 with (bpow radix2 4) in B. destruct (fsub_ok x y Fx Fy) as [A C]; [apply fits with 4%Z; [lia | exact B] |].
  split; [exact C |]. rewrite A. apply (pow_error (prec := 24) (emax := 128) 4); [lia | exact B].
Qed.
Lemma u_small : 0 < u /\ bpow radix2 (-19) = 4 * u /\ bpow radix2 (-22) = u / 2 /\ bpow radix2 (-24) = u / 8 /\ u * 2097152 = 1.
Proof.
  split; [apply bpow_gt_0 |]. split; [change (-19)%Z with (2 + -21)%Z; rewrite bpow_plus; reflexivity |].
  split; [change (-22)%Z with (-1 + -21)%Z; rewrite bpow_plus; change (bpow radix2 (-1)) with (/ 2); lra |].
  split; [change (-24)%Z with (-3 + -21)%Z; rewrite bpow_plus; change (bpow radix2 (-3)) with (/ 8); lra |].
  change 2097152 with (bpow radix2 21). rewrite <- bpow_plus. reflexivity.
Qed.
Lemma drift_step : forall k s w1 w2, 0 <= k <= 1048575 -> drifts k s -> between (-1) 1 w1 -> between (-1) 1 w2 ->
  exists s' o, pink_step s w1 w2 = Some (s', o) /\ drifts (k + 1) s'.
Proof.
  intros k s w1 w2 Hk (Ok & Rs & On & Fp & D) W1 W2. destruct u_small as (U0 & U1 & _ & _ & U2). rewrite U1 in D.
  destruct (pink_step_ok s w1 w2 Ok) as (i & old & ws & c & Hi & En & Es & E & H'). cbv zeta in E, H'.
  eexists. eexists. split; [exact E |].
  assert (Bo : between (-1) 1 old) by (rewrite Forall_forall in Rs; apply Rs; apply (nth_error_In _ _ En)).
  pose proof (rsum_bound (p_ws s) Rs) as B1. rewrite (proj1 Ok) in B1.
  pose proof (Forall_setb _ _ _ _ _ Rs W1 Es) as Rs'. pose proof (rsum_bound ws Rs') as B2. rewrite (set_nth_length _ _ _ _ Es), (proj1 Ok) in B2.
  pose proof (rsum_set _ _ _ _ _ En Es) as RE.
  change (INR octaves) with (INR 9) in B1, B2. replace (INR 9) with 9 in B1, B2 by (cbn; lra).
  apply abs_le in B1. apply abs_le in B2. apply abs_le in D.
  destruct Bo as [Fo Vo]. destruct W1 as [F1 V1]. destruct W2 as [F2 V2]. destruct On as [Fn Vn].
  assert (Ku : 0 <= k * u <= / 2) by nra.
  set (S0 := rsum (map val (p_ws s))) in *. set (S1 := rsum (map val ws)) in *. set (p0 := val (p_sum s)) in *.
  destruct (sub32 (p_sum s) old Fp Fo ltac:(apply Rabs_le; fold p0; lra)) as [Fa Ea]. fold p0 in Ea. set (a := val (fsub (p_sum s) old)) in *. apply abs_le in Ea.
  destruct (add32 _ w1 Fa F1 ltac:(apply Rabs_le; fold a; lra)) as [Fb Eb]. fold a in Eb. set (b := val (fadd (fsub (p_sum s) old) w1)) in *. apply abs_le in Eb.
  destruct (sub32 _ (p_on s) Fb Fn ltac:(apply Rabs_le; fold b; lra)) as [Fc Ec]. fold b in Ec. set (d := val (fsub (fadd (fsub (p_sum s) old) w1) (p_on s))) in *. apply abs_le in Ec.
  destruct (add32 _ w2 Fc F2 ltac:(apply Rabs_le; fold d; lra)) as [Fd Ed]. fold d in Ed. apply abs_le in Ed.
  split; [exact H' |]. cbn [p_ws p_on p_sum]. split; [exact Rs' |]. split; [split; assumption |]. split; [exact Fd |].
  rewrite U1. apply Rabs_le. fold S1. lra.
Qed.
Lemma drift_run : forall ws s k, 0 <= k -> k + INR (length ws) <= 1048576 -> drifts k s -> Forall (fun w : f32 * f32 => between (-1) 1 (fst w) /\ between (-1) 1 (snd w)) ws ->
  forall s' l, pink_run s ws = Some (s', l) -> drifts (k + INR (length ws)) s'.
Proof.
  induction ws as [| [w1 w2] ws IH]; intros s k Hk Hl H Hw s' l E.
  - injection E as <- <-. cbn [length INR]. rewrite Rplus_0_r. exact H.
  - inversion Hw as [| ? ? [W1 W2] Hw']; subst. cbn [length] in *. rewrite S_INR in *. pose proof (pos_INR (length ws)).
    destruct (drift_step k s w1 w2 ltac:(lra) H W1 W2) as (s1 & o & E1 & H1). cbn [pink_run fst snd] in E. rewrite E1 in E. cbn [bind fst snd] in E.
    destruct (pink_run s1 ws) as [[s2 l2] |] eqn:E2; cbn [bind fst snd] in E; [| discriminate]. injection E as <- _.
    replace (k + (INR (length ws) + 1)) with ((k + 1) + INR (length ws)) by ring. apply (IH s1 (k + 1) ltac:(lra) ltac:(lra) H1 Hw' s2 l2 E2).
Qed.
Lemma drift_new : drifts 0 pink_new.
Proof.
  assert (Z : between (-1) 1 (fzero : f32)) by (split; [reflexivity | change (val (fzero : f32)) with 0; lra]).
  split; [apply pink_new_ok |]. split; [cbn; repeat (constructor; [exact Z |]); constructor |]. split; [exact Z |]. split; [reflexivity |].
  assert (E : rsum (map val (p_ws (pink_new : pink 24 128))) = 0) by (cbn; unfold val, B2R; lra).
  rewrite E. change (val (p_sum (pink_new : pink 24 128))) with 0. change (val (p_on (pink_new : pink 24 128))) with 0.
  rewrite Rplus_0_r, Rminus_0_r, Rabs_R0, Rmult_0_l. lra.
Qed.
Lemma average_bound : forall s : pink 24 128, Forall (between (-1) 1) (p_ws s) -> length (p_ws s) = 9%nat -> between (-1) 1 (p_on s) ->
  Rabs ((rsum (map val (p_ws s)) + val (p_on s)) / 10) <= 1.
Proof.
  intros s H L [_ V]. pose proof (rsum_bound _ H) as B. rewrite L in B. replace (INR 9) with 9 in B by (cbn; lra). apply abs_le in B. apply Rabs_le. lra.
Qed.
Lemma pink_drift : forall ws : list (f32 * f32), Forall (fun w => white (fst w) /\ white (snd w)) ws ->
  exists s l, pink_run pink_new ws = Some (s, l) /\
    forall n, (n < length ws)%nat -> INR (S n) <= 1048576 -> exists o, nth_error l n = Some o /\ fin o /\
      Rabs (val o - pink_average (firstn (S n) ws)) <= INR (S n) * bpow radix2 (-22) + bpow radix2 (-24) /\ Rabs (pink_average (firstn (S n) ws)) <= 1.
Proof.
  intros ws Hw. destruct (pink_run_ok ws pink_new pink_new_ok) as (s & l & E & _ & L). exists s, l. split; [exact E |].
  intros n Hn Hb. destruct (run_prefix ws pink_new s l n E Hn) as (sn & ln & E2 & O). eexists. split; [exact O |].
  assert (Hf : Forall (fun w : f32 * f32 => between (-1) 1 (fst w) /\ between (-1) 1 (snd w)) (firstn (S n) ws)).
  { apply firstn_Forall. eapply Forall_impl; [| exact Hw]. intros w [A B]. split; apply white_between; assumption. }
  assert (Ln : length (firstn (S n) ws) = S n) by (rewrite firstn_length; lia).
  pose proof (drift_run _ pink_new 0 ltac:(lra) ltac:(rewrite Ln; lra) drift_new Hf sn ln E2) as (Ok & Rs & On & Fp & D).
  rewrite Ln, Rplus_0_l in D. rewrite <- (average_state _ _ _ E2). destruct u_small as (U0 & U1 & U2 & U3 & U4). rewrite U1 in D. rewrite U2, U3.
  pose proof (average_bound sn Rs (proj1 Ok) On) as Av. apply abs_le in D. apply abs_le in Av.
  assert (P0 : 1 <= INR (S n)) by (rewrite S_INR; pose proof (pos_INR n); lra).
  set (N0 := INR (S n)) in *. assert (Nu : 0 <= N0 * u <= / 2) by nra.
  assert (B : Rabs (val (p_sum sn)) <= 16) by (apply Rabs_le; lra).
  pose proof (div_ten (p_sum sn) Fp B) as Dt. replace (bpow radix2 (1 - 24 - 1)) with (u / 8) in Dt by (rewrite <- U3; reflexivity). apply abs_le in Dt.
  split.
  { destruct (ten_ok (prec := 24) (emax := 128)) as [Ft Vt]. apply abs_le in B. apply fdiv_ok; [exact Fp | rewrite Vt; lra |].
    rewrite Vt. apply fits with 1%Z; [lia |]. change (bpow radix2 1) with 2. apply Rabs_le. lra. }
  split; [apply Rabs_le; lra | apply Rabs_le; lra].
Qed.

Section Walk.
Context {prec emax : Z} {I : ieee prec emax}.
Notation fl := (binary_float prec emax).
Notation rnd := (@rnd prec emax).
Notation eps := (@eps prec).
(** * Brown noise *)
Lemma unit_error_abs : forall x, Rabs x <= 1 -> Rabs (rnd x - x) <= eps.
Proof.
  intros x H. replace eps with (bpow radix2 (0 - prec - 1)) by (unfold FloatMore.eps; f_equal; ring). apply pow_error; [lia | exact H].
Qed.
Lemma clamp_val : forall x : fl, fin x -> val (clamp x (fneg fone) fone) = limited (val x).
Proof.
  intros x Fx. assert (Fn : fin (fneg (fone : fl))) by (apply fin_fneg; apply fin_fone).
  assert (Vn : val (fneg (fone : fl)) = -1) by (rewrite val_fneg, val_fone; reflexivity).
  unfold clamp, limited. destruct (fltb x (fneg fone)) eqn:C.
  - apply fltb_true in C; [| exact Fx | exact Fn]. rewrite Vn in C.
    rewrite fltb_ok, Rlt_bool_false by (try apply fin_fone; try exact Fn; rewrite Vn, val_fone; lra).
    rewrite Vn. rewrite Rmin_right by lra. rewrite Rmax_left by lra. reflexivity.
  - apply fltb_false in C; [| exact Fx | exact Fn]. rewrite Vn in C. destruct (fltb fone x) eqn:D.
    + apply fltb_true in D; [| apply fin_fone | exact Fx]. rewrite val_fone in *. rewrite Rmin_left by lra. rewrite Rmax_right by lra. reflexivity.
    + apply fltb_false in D; [| apply fin_fone | exact Fx]. rewrite val_fone in D. rewrite Rmin_right by lra. rewrite Rmax_right by lra. reflexivity.
Qed.
Lemma limited_cases : forall x, (x <= -1 /\ limited x = -1) \/ (-1 <= x <= 1 /\ limited x = x) \/ (1 <= x /\ limited x = 1).
Proof.
  intros x. unfold limited. destruct (Rle_dec x (-1)) as [L | L].
  - left. rewrite Rmin_right by lra. rewrite Rmax_left by lra. lra.
  - right. destruct (Rle_dec x 1) as [K | K].
    + left. rewrite Rmin_right by lra. rewrite Rmax_right by lra. lra.
    + right. rewrite Rmin_left by lra. rewrite Rmax_right by lra. lra.
Qed.
Lemma limited_near : forall x y, Rabs (limited x - limited y) <= Rabs (x - y).
Proof.
  intros x y. unfold Rabs. destruct (limited_cases x) as [[A ->] | [[A ->] | [A ->]]]; destruct (limited_cases y) as [[B ->] | [[B ->] | [B ->]]];
    repeat (match goal with |- context [Rcase_abs ?a] => destruct (Rcase_abs a) end); lra.
Qed.
Lemma brown_near : forall last w : fl, between (-1) 1 last -> between (-1) 1 w ->
  Rabs (val (brown_step last w) - limited (val last + val w / 10)) <= 4 * eps.
Proof.
  intros last w [Fl Vl] [Fw Vw]. destruct tenth_ok as [Ft Vt]. pose proof (eps_pos (prec := prec)) as Ep.
  assert (T : Rabs (val (tenth : fl) - / 10) <= eps).
  { unfold tenth. destruct (fz_small (prec := prec) (emax := emax) 10) as [V F]; [lia |].
    destruct (fdiv_ok fone (fz 10 : fl) fin_fone) as [A B]; [rewrite V; lra | |].
    - rewrite V, val_fone. apply fits with 0%Z; [destruct I; lia |]. change (bpow radix2 0) with 1. rewrite Rabs_pos_eq; lra.
    - rewrite A, V, val_fone. replace (1 / 10) with (/ 10) by lra. apply unit_error_abs. rewrite Rabs_pos_eq; lra. }
  apply abs_le in T. set (t := val (tenth : fl)) in *.
  assert (P : Rabs (val w * t) <= 1) by (apply Rabs_le; nra).
  destruct (fmul_ok w tenth Fw Ft) as [A B]; [apply fits with 0%Z; [destruct I; lia | exact P] |].
  pose proof (abs_le _ _ (unit_error_abs _ P)) as E1. fold t in A. rewrite <- A in E1.
  assert (Q : Rabs (val (fmul w tenth)) <= 1) by (rewrite A; apply (rnd_bound _ 0); [lia | exact P]). apply abs_le in Q.
  assert (S : Rabs (val last + val (fmul w tenth)) <= bpow radix2 1) by (change (bpow radix2 1) with 2; apply Rabs_le; lra).
  destruct (fadd_ok last (fmul w tenth) Fl B) as [C D]; [apply fits with 1%Z; [destruct I; lia | exact S] |].
  pose proof (pow_error 1 _ ltac:(lia) S) as E2. rewrite <- C in E2.
  replace (bpow radix2 (1 - prec - 1)) with (2 * eps) in E2.
  2: { unfold FloatMore.eps. replace (1 - prec - 1)%Z with (1 + (- prec - 1))%Z by ring. rewrite bpow_plus. reflexivity. }
  apply abs_le in E2. unfold brown_step. rewrite clamp_val by exact D. eapply Rle_trans; [apply limited_near |].
  assert (E3 : - eps <= val w * t - val w / 10 <= eps).
  { replace (val w * t - val w / 10) with (val w * (t - / 10)) by lra. split; nra. }
  apply Rabs_le. lra.
Qed.
Lemma brown_walks : forall ws (last : fl), between (-1) 1 last -> Forall white ws -> walks (4 * eps) (val last) ws (brown_run last ws).
Proof.
  induction ws as [| w ws IH]; intros last Hl Hw; cbn [brown_run walks]; [constructor |]. inversion Hw as [| ? ? W Hw']; subst.
  pose proof (brown_step_ok last w Hl (white_between w W)) as B. split; [apply B |].
  split; [apply brown_near; [exact Hl | apply white_between; exact W] |]. apply IH; assumption.
Qed.

(** * Interpolated random numbers *)
Notation rlin := (rlin prec emax).
Definition rl_out (s : rlin) : fl := fadd (r_cur s) (fmul (r_phase s) (r_width s)).
(** The output is on the line *)
Lemma rl_line : forall s : rlin, rl_ok s -> fin (rl_out s) /\ 0 <= val (rl_out s) <= 1 /\
  Rabs (val (r_width s)) <= 1 /\ Rabs (val (rl_out s) - (val (r_cur s) + val (r_phase s) * val (r_width s))) <= 2 * eps.
Proof.
  intros s H. pose proof (out_between s H) as [Fo Bo]. split; [exact Fo |]. split; [exact Bo |].
  destruct H as ((c & t & Hc & Ht & Gc & Gw) & (Fp & Vp) & _). pose proof (grid24 _ _ Gc Hc) as Vc. destruct Gc as [Fc Ec]. destruct Gw as [Fw Ew].
  assert (Vt : 0 <= val (r_cur s) + val (r_width s) <= 1).
  { replace (val (r_cur s) + val (r_width s)) with (IZR t * bpow radix2 (-24)) by (rewrite Ec, Ew, minus_IZR; ring).
    assert (B : Rabs (IZR t * bpow radix2 (-24)) <= bpow radix2 (24 + -24)) by (apply grid_size; lia). change (bpow radix2 (24 + -24)) with 1 in B. apply abs_le in B.
    assert (0 <= IZR t) by (apply IZR_le; lia). pose proof (bpow_gt_0 radix2 (-24)). split; [apply Rmult_le_pos; lra | lra]. }
  set (w := val (r_width s)) in *. set (p := val (r_phase s)) in *. set (cv := val (r_cur s)) in *.
  assert (Bw : Rabs w <= 1) by (apply Rabs_le; lra). split; [exact Bw |]. apply abs_le in Bw.
  assert (B1 : Rabs (p * w) <= 1) by (apply Rabs_le; nra).
  destruct (fmul_ok (r_phase s) (r_width s) Fp Fw) as [A1 A2]; [fold p w; apply fits with 0%Z; [destruct I; lia | exact B1] |]. fold p w in A1.
  pose proof (abs_le _ _ (unit_error_abs _ B1)) as E1. rewrite <- A1 in E1.
  assert (Rw : rnd w = w) by (unfold w; apply rnd_val).
  assert (N : (0 <= w -> 0 <= val (fmul (r_phase s) (r_width s)) <= w) /\ (w <= 0 -> w <= val (fmul (r_phase s) (r_width s)) <= 0)).
  { rewrite A1. split; intros L; apply rnd_between; try apply rnd_0; try exact Rw; nra. }
  assert (S : 0 <= cv + val (fmul (r_phase s) (r_width s)) <= 1).
  { destruct (Rle_lt_dec 0 w) as [L | L]; [destruct (proj1 N L) | destruct (proj2 N ltac:(lra))]; lra. }
  destruct (fadd_ok (r_cur s) (fmul (r_phase s) (r_width s)) Fc A2) as [D1 D2].
  { fold cv. apply fits with 0%Z; [destruct I; lia |]. change (bpow radix2 0) with 1. rewrite Rabs_pos_eq; lra. }
  pose proof (abs_le _ _ (unit_error' _ S)) as E2. fold cv in D1. rewrite <- D1 in E2. unfold rl_out. apply Rabs_le. lra.
Qed.
(** A new value: the line goes on exactly where the old one was to end, towards the new number *)
Lemma rl_turn : forall (s : rlin) r, rl_ok s -> rand01 r ->
  let s' := rl_new_value s r in
  val (r_cur s') = val (r_cur s) + val (r_width s) /\ val (r_cur s') + val (r_width s') = val r /\ val (r_phase s') = 0.
Proof.
  intros s r ((c & t & Hc & Ht & Gc & Gw) & _) (z & Gz & Hz). pose proof (prec_pow (prec := prec) (emax := emax)).
  assert (G : on_grid (-24) (fadd (r_cur s) (r_width s)) t) by (replace t with (c + (t - c))%Z by lia; apply grid_add; [assumption | assumption | lia | lia]).
  assert (G2 : on_grid (-24) (fsub r (fadd (r_cur s) (r_width s))) (z - t)) by (apply grid_sub; [assumption | assumption | lia | lia]).
  cbv zeta. unfold rl_new_value. cbn [r_cur r_width r_phase]. destruct Gc as [_ Ec]. destruct Gw as [_ Ew]. destruct G as [_ E]. destruct G2 as [_ E2]. destruct Gz as [_ Ez].
  rewrite E, E2, Ec, Ew, Ez, !minus_IZR. split; [ring |]. split; [ring | reflexivity].
Qed.
Lemma turn_out : forall (s : rlin) r, rl_ok (rl_new_value s r) -> val (rl_out (rl_new_value s r)) = val (r_cur (rl_new_value s r)).
Proof.
  intros s r H. destruct H as ((c & t & Hc & Ht & [Fc Ec] & [Fw Ew]) & _). unfold rl_out. set (s' := rl_new_value s r) in *.
  assert (Fp : fin (r_phase s') /\ val (r_phase s') = 0) by (split; reflexivity). destruct Fp as [Fp Vp].
  destruct (fmul_ok (r_phase s') (r_width s') Fp Fw) as [A B]; rewrite Vp, Rmult_0_l, ?rnd_0 in *; [rewrite Rabs_R0; apply bpow_gt_0 |].
  destruct (fadd_ok (r_cur s') _ Fc B) as [C D]; rewrite A, Rplus_0_r, rnd_val in *; [apply val_top | exact C].
Qed.
(** One frame, with a step of at most 2 *)
Lemma rl_frame : forall q (s : rlin) r, rl_ok s -> rand01 r -> fin (r_step s) -> val (r_step s) <= q -> q <= 2 ->
  let s' := fst (rl_step s (RFrame r)) in
  rl_ok s' /\ r_step s' = r_step s /\ r_inc s' = r_inc s /\ Rabs (val (rl_out s') - val (rl_out s)) <= q + 5 * eps.
Proof.
  intros q s r H Hr Fs Vs Hq. pose proof (eps_pos (prec := prec)) as Ep.
  destruct (rl_step_ok s (RFrame r) H Hr) as [Ok _]. cbv zeta. split; [exact Ok |].
  destruct (rl_line s H) as (Fo & Bo & Bw & Eo). apply abs_le in Eo. apply abs_le in Bw.
  pose proof H as ((c & t & Hc & Ht & Gc & Gw) & (Fp & Vp) & Ns & Fi & Vi).
  assert (Ps : 0 <= val (r_step s)) by (destruct (nn_cases _ Ns) as [[_ V] | E]; [exact V | rewrite E in Fs; discriminate Fs]).
  destruct (fadd_ok (r_phase s) (r_step s) Fp Fs) as [A B].
  { apply fits with 2%Z; [destruct I; lia |]. change (bpow radix2 2) with 4. rewrite Rabs_pos_eq; lra. }
  cbn [rl_step fst] in *. cbn [r_phase] in *. set (s1 := mk_rlin (r_cur s) (r_width s) (fadd (r_phase s) (r_step s)) (r_step s) (r_inc s)) in *.
  destruct (fleb fone (fadd (r_phase s) (r_step s))) eqn:L.
  - split; [reflexivity |]. split; [reflexivity |]. rewrite turn_out by exact Ok.
    assert (T : val (r_cur (rl_new_value s1 r)) = val (r_cur s) + val (r_width s)) by apply (rl_turn s r H Hr).
    rewrite T. apply fleb_true in L; [| apply fin_fone | exact B]. rewrite val_fone in L.
    assert (P : 1 - val (r_phase s) <= val (r_step s) + eps).
    { destruct (Rlt_le_dec (val (r_phase s) + val (r_step s)) 1) as [K | K]; [| lra].
      pose proof (abs_le _ _ (unit_error (prec := prec) (emax := emax) _ (conj (Rplus_le_le_0_compat _ _ (proj1 Vp) Ps) K))). rewrite A in L. lra. }
    assert (M : - (1 - val (r_phase s)) <= (1 - val (r_phase s)) * val (r_width s) <= 1 - val (r_phase s)) by (split; nra).
    apply Rabs_le. lra.
  - split; [reflexivity |]. split; [reflexivity |].
    destruct (rl_line s1 Ok) as (Fo' & _ & _ & Eo'). apply abs_le in Eo'.
    change (r_cur s1) with (r_cur s) in Eo'. change (r_phase s1) with (fadd (r_phase s) (r_step s)) in Eo'. change (r_width s1) with (r_width s) in Eo'.
    apply fleb_false in L; [| apply fin_fone | exact B]. rewrite val_fone in L.
    assert (K : val (r_phase s) + val (r_step s) < 1).
    { destruct (Rlt_le_dec (val (r_phase s) + val (r_step s)) 1) as [K | K]; [exact K |]. exfalso.
      apply (rnd_le (prec := prec) (emax := emax)) in K. rewrite rnd_1, <- A in K. lra. }
    pose proof (abs_le _ _ (unit_error (prec := prec) (emax := emax) _ (conj (Rplus_le_le_0_compat _ _ (proj1 Vp) Ps) K))) as E. rewrite <- A in E.
    set (p' := val (fadd (r_phase s) (r_step s))) in *.
    assert (P : - (val (r_step s) + eps) <= p' - val (r_phase s) <= val (r_step s) + eps) by lra.
    assert (M : - (val (r_step s) + eps) <= (p' - val (r_phase s)) * val (r_width s) <= val (r_step s) + eps) by (split; nra).
    apply Rabs_le. lra.
Qed.
(** Histories *)
Lemma inc_bound : forall sr : fl, fin sr -> 1 <= val sr <= bpow radix2 32 ->
  fin (fdiv fone sr) /\ 0 < val (fdiv fone sr) <= / val sr * (1 + 2 * eps).
Proof.
  intros sr Fs Vs. assert (Pi : 0 < / val sr <= 1) by (split; [apply Rinv_0_lt_compat; lra | rewrite <- Rinv_1; apply Rinv_le_contravar; lra]).
  destruct (fdiv_ok fone sr fin_fone) as [A B]; [lra | |]; rewrite val_fone in *.
  { apply fits with 0%Z; [destruct I; lia |]. change (bpow radix2 0) with 1. unfold Rdiv. rewrite Rmult_1_l, Rabs_pos_eq; lra. }
  split; [exact B |]. rewrite A. unfold Rdiv. rewrite Rmult_1_l.
  assert (Lo : bpow radix2 (-32) <= / val sr).
  { change (-32)%Z with (- (32))%Z. rewrite bpow_opp. apply Rinv_le_contravar; lra. }
  split.
  - apply Rlt_le_trans with (bpow radix2 (-32)); [apply bpow_gt_0 |]. rewrite <- (rnd_bpow (prec := prec) (emax := emax) (-32)) by lia. apply rnd_le. exact Lo.
  - assert (P : (0 < prec)%Z) by (destruct I; unfold FLX.Prec_gt_0 in *; lia).
    pose proof (relative_error_N_FLT radix2 (SpecFloat.emin prec emax) prec P (fun x => negb (Z.even x)) (/ val sr)) as Q.
    assert (L : bpow radix2 (SpecFloat.emin prec emax + prec - 1) <= Rabs (/ val sr)).
    { rewrite Rabs_pos_eq by lra. eapply Rle_trans; [| exact Lo]. apply bpow_le. unfold SpecFloat.emin. destruct I. lia. }
    specialize (Q L). rewrite (Rabs_pos_eq (/ val sr)) in Q by lra. apply abs_le in Q.
    replace (/ 2 * bpow radix2 (- prec + 1)) with (2 * eps) in Q.
    2: { unfold FloatMore.eps. replace (- prec + 1)%Z with ((- prec - 1) + 2)%Z by ring. rewrite bpow_plus. change (bpow radix2 2) with 4. field. }
    change (rnd (/ val sr)) with (round radix2 (SpecFloat.fexp prec emax) ZnearestE (/ val sr)).
    change (FLT_exp (SpecFloat.emin prec emax) prec) with (SpecFloat.fexp prec emax) in Q. lra.
Qed.
Lemma step_bound : forall F sr (v inc : fl), 0 <= F <= sr -> 1 <= sr -> fin inc -> 0 < val inc <= / sr * (1 + 2 * eps) -> fin v -> 0 <= val v <= F ->
  fin (fmul v inc) /\ val (fmul v inc) <= F / sr + 4 * eps.
Proof.
  intros F sr v inc HF Hs Fi Vi Fv Vv. pose proof (eps_pos (prec := prec)) as Ep. pose proof (eps_small (prec := prec)) as Es.
  assert (Pi : 0 < / sr) by (apply Rinv_0_lt_compat; lra).
  assert (Q : F / sr <= 1) by (apply Rmult_le_reg_r with sr; [lra |]; unfold Rdiv; rewrite Rmult_assoc, Rinv_l; lra).
  assert (Q0 : 0 <= F / sr) by (apply Rmult_le_pos; lra).
  assert (P : 0 <= val v * val inc <= F / sr + 2 * eps).
  { split; [apply Rmult_le_pos; lra |]. apply Rle_trans with (F * (/ sr * (1 + 2 * eps))); [apply Rmult_le_compat; lra |].
    replace (F * (/ sr * (1 + 2 * eps))) with (F / sr + F / sr * (2 * eps)) by (unfold Rdiv; ring). nra. }
  assert (B : Rabs (val v * val inc) <= bpow radix2 1) by (change (bpow radix2 1) with 2; rewrite Rabs_pos_eq; lra).
  destruct (fmul_ok v inc Fv Fi) as [A C]; [apply fits with 1%Z; [destruct I; lia | exact B] |]. split; [exact C |].
  pose proof (pow_error 1 _ ltac:(lia) B) as E. rewrite <- A in E.
  replace (bpow radix2 (1 - prec - 1)) with (2 * eps) in E.
  2: { unfold FloatMore.eps. replace (1 - prec - 1)%Z with (1 + (- prec - 1))%Z by ring. rewrite bpow_plus. reflexivity. }
  apply abs_le in E. lra.
Qed.
Definition freq_ok (F : R) (o : rl_op prec emax) : Prop := match o with RFreq v => fin v /\ 0 <= val v <= F | RFrame r => rand01 r end.
Definition rl_calm (F sr : R) (s : rlin) : Prop := rl_ok s /\ (fin (r_step s) /\ val (r_step s) <= F / sr + 4 * eps) /\ fin (r_inc s) /\ 0 < val (r_inc s) <= / sr * (1 + 2 * eps).
Lemma rl_click : forall F sr ops (s : rlin) x, 0 <= F <= sr -> 1 <= sr -> rl_calm F sr s -> Rabs (val (rl_out s) - x) <= F / sr + 9 * eps -> Forall (freq_ok F) ops ->
  no_click (F / sr + 9 * eps) x (rl_run s ops).
Proof.
  intros F sr. induction ops as [| o ops IH]; intros s x HF Hs C H Ho; [constructor |]. inversion Ho as [| ? ? O1 O2]; subst.
  pose proof (eps_pos (prec := prec)) as Ep. pose proof (eps_small (prec := prec)) as Es.
  assert (Q : F / sr <= 1) by (apply Rmult_le_reg_r with sr; [lra |]; unfold Rdiv; rewrite Rmult_assoc, Rinv_l; lra).
  destruct C as (Ok & (Fs & Vs) & Fi & Vi). destruct o as [v | r].
  - destruct O1 as [Fv Vv]. cbn [rl_run]. destruct (rl_step_ok s (RFreq v) Ok) as [Ok' _]; [split; [exact Fv | lra] |].
    cbn [rl_step] in *. rewrite feqb_ok, Req_bool_false in * by (try assumption; try reflexivity; rewrite ?val_fzero; lra). cbn [fst snd app] in *.
    apply IH; try assumption. split; [exact Ok' |]. cbn [r_step r_inc]. split; [| split; assumption]. apply (step_bound F sr v (r_inc s)); assumption.
  - change (rl_run s (RFrame r :: ops)) with (rl_out s :: rl_run (fst (rl_step s (RFrame r))) ops).
    destruct (rl_frame (F / sr + 4 * eps) s r Ok O1 Fs Vs ltac:(lra)) as (Ok' & St & In' & D).
    cbn [no_click]. split; [apply (rl_line s Ok) |]. split; [exact H |].
    apply IH; try assumption; [| eapply Rle_trans; [exact D | lra]]. split; [exact Ok' |]. rewrite St, In'. repeat split; assumption || apply Vi.
Qed.
Lemma between_smooth : forall b (l : list fl) x, 1 <= b -> 0 <= x <= 1 -> Forall (between 0 1) l -> no_click b x l.
Proof.
  intros b. induction l as [| y l IH]; intros x Hb Hx H; [constructor |]. inversion H as [| ? ? [F B] Hl]; subst. cbn [no_click].
  split; [exact F |]. split; [apply Rabs_le; lra | apply IH; assumption].
Qed.
Lemma click_smooth : forall b x (l : list fl), no_click b x l -> smooth b l.
Proof. intros b x [| y l] H; [constructor |]. destruct H as (F & _ & R). split; assumption. Qed.
Lemma rl_smooth : forall F (freq sr r0 r1 : fl) ops, fin sr -> 1 <= val sr <= bpow radix2 32 -> fin freq -> 0 <= val freq <= F -> rand01 r0 -> rand01 r1 ->
  Forall (freq_ok F) ops -> smooth (F / val sr + 9 * eps) (rl_run (rl_init freq sr r0 r1) ops).
Proof.
  intros F freq sr r0 r1 ops Fs Vs Ff Vf R0 R1 Ho. pose proof (eps_pos (prec := prec)) as Ep.
  pose proof (rl_init_ok freq sr r0 r1 Ff (proj1 Vf) Fs (proj1 Vs) R0 R1) as Ok.
  destruct (Rle_dec F (val sr)) as [L | L].
  - apply click_smooth with (val (rl_out (rl_init freq sr r0 r1))). apply rl_click; try assumption; try lra.
    + destruct (inc_bound sr Fs Vs) as [Fi Vi]. split; [exact Ok |]. unfold rl_init, rl_new_value. cbn [r_step r_inc].
      split; [| split; [exact Fi | exact Vi]]. apply (step_bound F (val sr)); try assumption; lra.
    + rewrite Rminus_diag_eq, Rabs_R0 by reflexivity. assert (0 <= F / val sr); [| lra]. apply Rmult_le_pos; [lra |]. left. apply Rinv_0_lt_compat. lra.
  - apply click_smooth with 0. apply between_smooth; [| lra |].
    + assert (1 <= F / val sr); [| lra]. apply Rmult_le_reg_r with (val sr); [lra |]. unfold Rdiv. rewrite Rmult_assoc, Rinv_l; lra.
    + apply rl_run_ok; [exact Ok |]. eapply Forall_impl; [| exact Ho]. intros [v | r]; cbn; [intros [A B]; split; [exact A | lra] | auto].
Qed.
End Walk.
