(** Properties C23 and C25 for relative times, at every sample rate. Specification: [SchedSpec]. *)
From Verif Require Import Base TimeModel TimeSpec TimeProofs SchedModel SchedSpec SchedProofs SchedFate SchedAny SchedProps.
Local Open Scope N_scope.

Section Props.
Variable V : Type.
Implicit Types (s : sched V).

(** The complete fate of a change with a relative time, at every sample rate: it is delivered in the first of the next
    [sr/bs + 2] blocks in which what is left of its time ends, its node runs and its token is active. *)
Theorem C23_fate_relative : forall c s key param value smooth token t ops s',
  config_ok c -> reached V c s -> sec_normal t -> (length (q_ring s) < c_ring c)%nat ->
  srun c s (Send key param value smooth token (Some (mk_time t false)) :: ops) = Some s' ->
  (forall s1, first_block V c s (Send key param value smooth token (Some (mk_time t false)) :: ops) = Some s1 -> (length (q_wait s1) < c_cap c)%nat) ->
  let e := sent s key param value smooth token (Some (mk_time t false)) in
  let due := due_in (c_bs c) (c_sr c) (sec_ticks t) in
  deliveries (e_id e) s' =
    match find_from (fun n b => takes (c_bs c) (due n b) e b) 0
            (firstn (N.to_nat (c_sr c / c_bs c) + 2) (blocks (c_bs c) (q_clock s) ops)) with
    | Some (n, b) => [delivery_at (due n b) e b]
    | None => []
    end.
Proof.
  intros c s key param value smooth token t ops s' [Hb Hr] Hs Ht Hring H Hroom e due.
  cbn [srun first_block] in H, Hroom. destruct (sstep c s _) as [s1|] eqn:E; cbn [bind] in H, Hroom; [|discriminate].
  pose proof (serial_step V _ _ _ _ (reached_serial V _ _ Hs) E) as Hs1.
  cbn [sstep] in E. apply Nat.ltb_lt in Hring. rewrite Hring in E. injection E as <-.
  eapply (fate_ring_rel V c Hb Hr ops _ s' e (sec_ticks t)) in H; [exact H|exact Hs1| | |exact Hroom].
  - cbn [q_ring]. apply in_or_app. right. left. reflexivity.
  - exists (mk_time t false). repeat split; apply Ht.
Qed.

Lemma find_from_some {A} (p : nat -> A -> bool) : forall l N k n x, find_from p k (firstn N l) = Some (n, x) ->
  (k <= n < k + N)%nat /\ nth_error l (n - k) = Some x /\ p n x = true /\
  forall j y, (k <= j < n)%nat -> nth_error l (j - k) = Some y -> p j y = false.
Proof.
  induction l as [|a l IH]; intros [|N] k n x H; try discriminate. cbn [firstn find_from] in H. destruct (p k a) eqn:E.
  - injection H as <- <-. rewrite Nat.sub_diag. split; [lia|]. split; [reflexivity|]. split; [exact E|]. intros j y Hj. lia.
  - apply IH in H as (A1 & A2 & A3 & A4). split; [lia|].
    replace (n - k)%nat with (S (n - S k)) by lia. split; [exact A2|]. split; [exact A3|].
    intros j y Hj Hy. destruct (Nat.eq_dec j k) as [->|].
    + rewrite Nat.sub_diag in Hy. injection Hy as <-. exact E.
    + apply A4; [lia|]. replace (j - k)%nat with (S (j - S k)) in Hy by lia. exact Hy.
Qed.
Lemma find_from_none {A} (p : nat -> A -> bool) : forall l N k, find_from p k (firstn N l) = None ->
  forall i x, (i < N)%nat -> nth_error l i = Some x -> p (k + i)%nat x = false.
Proof.
  induction l as [|a l IH]; intros [|N] k H [|i] x Hi Hx; try discriminate; try lia; cbn [firstn find_from] in H;
    destruct (p k a) eqn:E; try discriminate.
  - injection Hx as <-. rewrite Nat.add_0_r. exact E.
  - replace (k + S i)%nat with (S k + i)%nat by lia. eapply IH; [exact H| |exact Hx]. lia.
Qed.

Lemma block_ticks_bounds bs sr : 0 < sr -> bs * TS / sr * sr <= bs * TS < bs * TS / sr * sr + sr.
Proof.
  intros H. pose proof (N.div_mod (bs * TS) sr ltac:(lia)) as A. pose proof (N.mod_lt (bs * TS) sr ltac:(lia)) as B.
  generalize dependent (bs * TS / sr). intros q A. generalize dependent (bs * TS mod sr). intros r A B. nia.
Qed.
Lemma never_early bs sr T n : 0 < sr -> T * sr / TS <= N.of_nat n * bs + left_after bs sr T n * sr / TS.
Proof.
  intros H. destruct (block_ticks_bounds bs sr H) as [A _]. unfold left_after. set (D := bs * TS / sr) in *. generalize (N.of_nat n). intros k.
  assert (HT : TS <> 0) by (rewrite TS_val; lia).
  rewrite N.add_comm, <- N.div_add by exact HT. apply N.div_le_mono; [exact HT|]. 
  assert (X : k * (D * sr) <= k * (bs * TS)) by (apply N.mul_le_mono_l; exact A).
  rewrite N.mul_sub_distr_r. replace (k * bs * TS) with (k * (bs * TS)) by ring. replace (k * D * sr) with (k * (D * sr)) by ring.
  generalize dependent (k * (D * sr)). generalize (k * (bs * TS)), (T * sr). intros. lia.
Qed.
Lemma hardly_late bs sr T n : 0 < sr -> N.of_nat n * sr <= TS -> N.of_nat n * (bs * TS / sr) <= T ->
  N.of_nat n * bs + left_after bs sr T n * sr / TS <= T * sr / TS + 1.
Proof.
  intros H. destruct (block_ticks_bounds bs sr H) as [_ A]. unfold left_after. set (D := bs * TS / sr) in *. generalize (N.of_nat n). intros k Hk Hd.
  assert (HT : TS <> 0) by (rewrite TS_val; lia).
  rewrite N.add_comm, <- N.div_add by exact HT. replace (T * sr / TS + 1) with ((T * sr + 1 * TS) / TS) by (rewrite N.div_add by exact HT; reflexivity).
  apply N.div_le_mono; [exact HT|].
  assert (X : k * (bs * TS) <= k * (D * sr + sr)) by (apply N.mul_le_mono_l; lia).
  assert (Y : k * D * sr <= T * sr) by (apply N.mul_le_mono_r; exact Hd).
  rewrite N.mul_sub_distr_r. replace (k * bs * TS) with (k * (bs * TS)) by ring. rewrite N.mul_add_distr_l in X.
  replace (k * D * sr) with (k * (D * sr)) in * by ring. rewrite N.mul_1_l.
  generalize dependent (k * (D * sr)). generalize dependent (k * (bs * TS)). generalize dependent (T * sr). generalize dependent (k * sr). intros. lia.
Qed.
Lemma still_left bs sr T m : 0 < sr -> 0 < bs -> bs <= left_after bs sr T m * sr / TS -> N.of_nat (S m) * (bs * TS / sr) <= T.
Proof.
  intros H Hbs. destruct (block_ticks_bounds bs sr H) as [A _]. unfold left_after. set (D := bs * TS / sr) in *.
  rewrite Nat2N.inj_succ, N.mul_succ_l. generalize (N.of_nat m * D). intros x Hx.
  assert (HT : TS <> 0) by (rewrite TS_val; lia).
  assert (B : bs * TS <= (T - x) * sr).
  { rewrite N.mul_comm. etransitivity; [apply N.mul_le_mono_l; exact Hx|]. apply N.mul_div_le. exact HT. }
  assert (C : D * sr <= (T - x) * sr) by lia. apply N.mul_le_mono_pos_r in C; [|exact H].
  assert (P : 0 < bs * TS) by (apply N.mul_pos_pos; [exact Hbs|rewrite TS_val; lia]).
  destruct (N.le_gt_cases x T); [lia|]. exfalso. replace (T - x) with 0 in B by lia. lia.
Qed.

(** C25 at every sample rate at which the roundings of a second's worth of blocks add up to at most a frame (up to
    [282240000 / sr] blocks): a relative delay of at most a second, for a node that runs in every block, is applied once,
    never early, and at most one frame late. *)
Theorem C25_every_rate_partial : forall c s key param value smooth token t ops s' b,
  config_ok c -> reached V c s -> sec_normal t -> (length (q_ring s) < c_ring c)%nat ->
  srun c s (Send key param value smooth token (Some (mk_time t false)) :: ops) = Some s' ->
  (forall s1, first_block V c s (Send key param value smooth token (Some (mk_time t false)) :: ops) = Some s1 -> (length (q_wait s1) < c_cap c)%nat) ->
  (c_sr c / c_bs c + 1) * c_sr c <= TS ->
  let delay := sec_ticks t * c_sr c / TS in
  delay <= c_sr c ->
  (forall b, In b (blocks (c_bs c) (q_clock s) ops) ->
    In key (b_keys b) /\ match token with Some tok => b_act b (q_next s) tok = true | None => True end) ->
  In b (blocks (c_bs c) (q_clock s) ops) -> b_clock b <= q_clock s + delay + 1 < b_clock b + c_bs c ->
  exists d at_ b', deliveries (q_next s) s' = [d] /\ In b' (blocks (c_bs c) (q_clock s) ops) /\
    q_clock s + delay <= at_ <= q_clock s + delay + 1 /\ b_clock b' <= at_ < b_clock b' + c_bs c /\
    d_clock d = b_clock b' /\ d_key d = key /\
    d_calls d = (if b_clock b' <? at_ then [SetDelay param (at_ - b_clock b')] else []) ++
      match smooth with Some v => [Apply param v] | None => [] end ++ match value with Some v => [Apply param v] | None => [] end.
Proof.
  intros c s key param value smooth token t ops s' b Hc Hs Hn Hring H Hroom Hdr delay Hsec Hrun Hb Hf.
  pose proof (C23_fate_relative c s key param value smooth token t ops s' Hc Hs Hn Hring H Hroom) as P.
  cbv zeta in P. cbn [e_id sent] in P. destruct Hc as [Hbs Hsr].
  set (T := sec_ticks t) in *. set (bs := c_bs c) in *. set (sr := c_sr c) in *. set (bl := blocks bs (q_clock s) ops) in *.
  set (e := sent s key param value smooth token (Some (mk_time t false))) in *.
  assert (Hbig : forall n, (n <= N.to_nat (sr / bs) + 1)%nat -> N.of_nat n * sr <= TS).
  { intros n Hle. etransitivity; [|exact Hdr]. apply N.mul_le_mono_r. lia. }
  assert (Htk : forall n b, In b bl -> takes bs (due_in bs sr T n b) e b = (left_after bs sr T n * sr / TS <? bs)).
  { intros n b0 H0. destruct (Hrun b0 H0) as [K1 K2]. unfold takes, due_in. cbn [e e_key e_token e_id sent].
    assert (Hex : existsb (Nat.eqb key) (b_keys b0) = true) by (apply existsb_exists; exists key; split; [exact K1|apply Nat.eqb_refl]).
    rewrite Hex, andb_true_r.
    assert (Htok : match token with Some tok => b_act b0 (q_next s) tok | None => true end = true) by (destruct token; [exact K2|reflexivity]).
    rewrite Htok, andb_true_r. apply eq_true_iff_eq. rewrite !N.ltb_lt. lia. }
  destruct (find_from _ 0 _) as [[n x]|] eqn:E.
  - apply find_from_some in E as (A1 & A2 & A3 & A4). rewrite Nat.sub_0_r in A2.
    assert (Hx : In x bl) by (eapply nth_error_In; exact A2).
    pose proof (blocks_nth V bs ops (q_clock s) n x A2) as Hcl.
    rewrite Htk in A3 by exact Hx. apply N.ltb_lt in A3.
    assert (HD : N.of_nat n * (bs * TS / sr) <= T).
    { destruct n as [|m]; [cbn [N.of_nat]; lia|].
      destruct (nth_error bl m) as [y|] eqn:Ey; [|apply nth_error_None in Ey; assert (S m < length bl)%nat by (apply nth_error_Some; congruence); lia].
      assert (Hy : takes bs (due_in bs sr T m y) e y = false) by (apply (A4 m y); [lia|rewrite Nat.sub_0_r; exact Ey]).
      rewrite Htk in Hy by (eapply nth_error_In; exact Ey). apply N.ltb_ge in Hy.
      apply still_left; [apply Hsr|apply Hbs|exact Hy]. }
    pose proof (never_early bs sr T n ltac:(apply Hsr)) as L. pose proof (hardly_late bs sr T n ltac:(apply Hsr) ltac:(apply Hbig; lia) HD) as U.
    exists (delivery_at (due_in bs sr T n x) e x), (due_in bs sr T n x), x.
    split; [exact P|]. split; [exact Hx|]. unfold due_in. unfold delay in *. split.
    { rewrite Hcl. clear -L U. revert L U. generalize (T * sr / TS), (N.of_nat n * bs), (left_after bs sr T n * sr / TS). intros. lia. }
    split; [|repeat split]. clear -A3. revert A3. generalize (left_after bs sr T n * sr / TS). intros. lia.
  - exfalso. apply In_nth_error in Hb as Hi. destruct Hi as [i Hi].
    pose proof (blocks_nth V bs ops (q_clock s) i b Hi) as Hcl.
    assert (Hlt : (i <= N.to_nat (sr / bs) + 1)%nat).
    { assert (X : N.of_nat i <= sr / bs + 1); [|lia]. pose proof (N.div_mod sr bs ltac:(lia)) as Q. pose proof (N.mod_lt sr bs ltac:(lia)) as R.
      assert (I : N.of_nat i * bs <= sr + 1) by lia.
      apply N.mul_le_mono_pos_r with bs; [apply Hbs|].
      replace ((sr / bs + 1) * bs) with (bs * (sr / bs) + bs) by ring. generalize dependent (bs * (sr / bs)). intros. lia. }
    pose proof (find_from_none _ _ _ _ E i b ltac:(lia) Hi) as F. rewrite Nat.add_0_l in F. cbv beta in F. rewrite Htk in F by exact Hb.
    apply N.ltb_ge in F.
    assert (HD : N.of_nat i * (bs * TS / sr) <= T).
    { pose proof (still_left bs sr T i ltac:(apply Hsr) ltac:(apply Hbs) F) as S1. rewrite Nat2N.inj_succ, N.mul_succ_l in S1.
      clear -S1. revert S1. generalize (bs * TS / sr). intros. lia. }
    pose proof (hardly_late bs sr T i ltac:(apply Hsr) ltac:(apply Hbig; lia) HD) as U.
    unfold delay in *. clear -U Hf Hcl F. revert U Hf Hcl F. generalize (T * sr / TS), (N.of_nat i * bs), (left_after bs sr T i * sr / TS). intros. lia.
Qed.
End Props.
Print Assumptions C23_fate_relative.
Print Assumptions C25_every_rate_partial.

(** ** cases *)
(** The rate condition: 44.1, 48 and 96 kHz and the pull-down rate 47952 Hz, with blocks of 64 frames. *)
Example C25_rates : forallb (fun sr => (sr / 64 + 1) * sr <=? TS) [44100; 47952; 48000; 88200; 96000] = true.
Proof. reflexivity. Qed.
(** The case of [C25_drift_refuted] meets the other hypotheses, and its change is one frame late. *)
Example C25_drift_case : exists s, srun drift_cfg sched_new drift_ops = Some s /\
  deliveries 0 s = [mk_delivery 0 64 4 [SetDelay 2 11; Apply 2 1%nat]] /\ sec_ticks drift_t * 47952 / TS = 74 /\ 74 + 1 = 64 + 11.
Proof.
  destruct C25_drift_refuted as (s & A & B & D). exists s. split; [exact A|]. unfold deliveries. rewrite D. repeat split.
Qed.
Example C25_drift_fate : 
  match find_from (fun n b => takes 64 (due_in 64 47952 (sec_ticks drift_t) n b) (sent sched_new 4 2 (Some 1%nat) None None (Some (mk_time drift_t false))) b) 0
     (blocks 64 0 (repeat (run_block : sop nat) 3)) with Some (n, b) => Some (n, b_clock b, due_in 64 47952 (sec_ticks drift_t) n b) | None => None end
  = Some (1%nat, 64, 75).
Proof. vm_compute. reflexivity. Qed.
