(** Properties C23, C24, C25 and C31: scheduled changes and the clock. Specification: [SchedSpec]. *)
From Verif Require Import Base TimeModel TimeSpec TimeProofs SchedModel SchedSpec SchedProofs SchedFate.
From Coq Require Import Sorted.
Local Open Scope N_scope.

Section Props.
Variable V : Type.
Implicit Types (s : sched V).

Definition config_ok (c : config) : Prop := 0 < c_bs c <= U16 /\ 0 < c_sr c < U32.
Definition reached c s : Prop := exists ops, srun c sched_new ops = Some s.
Lemma reached_serial c s : reached c s -> serial V s.
Proof. intros [ops H]. eapply serial_run; [apply serial_new|exact H]. Qed.

(** No change is ever applied twice. *)
Theorem C23_at_most_once : forall c s n, reached c s -> (length (deliveries n s) <= 1)%nat.
Proof.
  intros c s n H. apply reached_serial in H. pose proof (sl_log V s H) as Hn. unfold deliveries.
  induction (q_log s) as [|d l IH]; cbn in *; [lia|]. inversion Hn; subst.
  destruct (Nat.eqb_spec (d_id d) n) as [<-|]; [|apply IH; assumption].
  cbn [length]. rewrite byid_none by assumption. cbn. lia.
Qed.

(** The complete fate of a change with an absolute time or without one (relative times: for sample rates that divide
    the tick rate), if the ring buffer has room when it is sent and the queue has room when it is received:
    it is delivered in the first of the next [sr/bs + 2] blocks in which it is due, its node runs and its token is
    active, with the offset of its due frame in that block; and if there is no such block, never. *)
Theorem C23_fate_partial : forall c s key param value smooth token t ops s',
  config_ok c -> reached c s -> match t with Some t => time_ok (c_sr c) t | None => True end ->
  (length (q_ring s) < c_ring c)%nat ->
  srun c s (Send key param value smooth token t :: ops) = Some s' ->
  (forall s1, first_block V c s (Send key param value smooth token t :: ops) = Some s1 -> (length (q_wait s1) < c_cap c)%nat) ->
  let e := sent s key param value smooth token t in
  let f := due_frame (c_sr c) (q_clock s) t in
  deliveries (e_id e) s' =
    match find (takes (c_bs c) f e) (firstn (N.to_nat (c_sr c / c_bs c) + 2) (blocks (c_bs c) (q_clock s) ops)) with
    | Some b => [delivery_at f e b]
    | None => []
    end.
Proof.
  intros c s key param value smooth token t ops s' [Hb Hr] Hs Ht Hring H Hroom e f.
  cbn [srun first_block] in H, Hroom. destruct (sstep c s _) as [s1|] eqn:E; cbn [bind] in H, Hroom; [|discriminate].
  pose proof (serial_step V _ _ _ _ (reached_serial _ _ Hs) E) as Hs1.
  cbn [sstep] in E. apply Nat.ltb_lt in Hring. rewrite Hring in E. injection E as <-.
  eapply (fate_ring V c Hb Hr ops _ s' e) in H; [exact H|exact Hs1| |exact Ht|exact Hroom].
  cbn [q_ring]. apply in_or_app. right. left. reflexivity.
Qed.

Lemma blocks_nth bs : forall (ops : list (sop V)) clock i b, nth_error (blocks bs clock ops) i = Some b -> b_clock b = clock + N.of_nat i * bs.
Proof.
  induction ops as [|[]  ops IH]; intros clock i b H; cbn [blocks] in H.
  - destruct i; discriminate.
  - eapply IH; exact H.
  - destruct i as [|i]; [injection H as <-; cbn; lia|]. cbn [nth_error] in H. apply IH in H. lia.
Qed.
Lemma find_first {A} (p : A -> bool) : forall l i x n, nth_error l i = Some x -> p x = true -> (i < n)%nat ->
  (forall j y, (j < i)%nat -> nth_error l j = Some y -> p y = false) -> find p (firstn n l) = Some x.
Proof.
  induction l as [|a l IH]; intros i x n Hi Hp Hn Hj; [destruct i; discriminate|].
  destruct n as [|n]; [lia|]. cbn [firstn find]. destruct i as [|i].
  - injection Hi as ->. rewrite Hp. reflexivity.
  - rewrite (Hj 0%nat a) by (lia || reflexivity). eapply IH; [exact Hi|exact Hp|lia|].
    intros j y Hlt Hy. apply (Hj (S j)); [lia|exact Hy].
Qed.

(** So a change whose frame lies in one of the next [sr/bs + 2] blocks is applied exactly once, in the block that
    contains its frame and with the right offset; a late one is applied at the start of the block it is received in. *)
Theorem C23_on_time_partial : forall c s key param value smooth token t ops s' i b,
  config_ok c -> reached c s -> match t with Some t => time_ok (c_sr c) t | None => True end ->
  (length (q_ring s) < c_ring c)%nat ->
  srun c s (Send key param value smooth token t :: ops) = Some s' ->
  (forall s1, first_block V c s (Send key param value smooth token t :: ops) = Some s1 -> (length (q_wait s1) < c_cap c)%nat) ->
  let e := sent s key param value smooth token t in
  let f := due_frame (c_sr c) (q_clock s) t in
  nth_error (blocks (c_bs c) (q_clock s) ops) i = Some b ->
  (b_clock b <= f \/ i = 0%nat) -> f < b_clock b + c_bs c -> (i < N.to_nat (c_sr c / c_bs c) + 2)%nat ->
  In key (b_keys b) -> match token with Some tok => b_act b (e_id e) tok = true | None => True end ->
  deliveries (e_id e) s' = [delivery_at f e b].
Proof.
  intros c s key param value smooth token t ops s' i b Hc Hs Ht Hring H Hroom e f Hb Hlo Hhi Hi Hkey Htok.
  pose proof (C23_fate_partial c s key param value smooth token t ops s' Hc Hs Ht Hring H Hroom) as F. cbv zeta in F.
  unfold e, f in *. rewrite F.
  rewrite (find_first _ _ i b); [reflexivity|exact Hb| |exact Hi|].
  - unfold takes. rewrite (proj2 (N.ltb_lt _ _) Hhi). cbn [andb sent e_key e_token].
    assert (Hx : existsb (Nat.eqb key) (b_keys b) = true) by (apply existsb_exists; exists key; split; [exact Hkey|apply Nat.eqb_refl]).
    rewrite Hx. destruct token; [exact Htok|reflexivity].
  - intros j y Hj Hy. unfold takes. apply blocks_nth in Hb, Hy. destruct Hlo as [Hlo|Hlo]; [|lia].
    destruct (N.ltb_spec (due_frame (c_sr c) (q_clock s) t) (b_clock y + c_bs c)); [|reflexivity].
    exfalso. rewrite Hy in *. rewrite Hb in *. destruct Hc as [Hc _]. nia.
Qed.
(** In particular within a second. *)
Theorem C23_within_a_second_partial : forall c s key param value smooth token t ops s' b,
  config_ok c -> reached c s -> match t with Some t => time_ok (c_sr c) t | None => True end ->
  (length (q_ring s) < c_ring c)%nat ->
  srun c s (Send key param value smooth token t :: ops) = Some s' ->
  (forall s1, first_block V c s (Send key param value smooth token t :: ops) = Some s1 -> (length (q_wait s1) < c_cap c)%nat) ->
  let e := sent s key param value smooth token t in
  let f := due_frame (c_sr c) (q_clock s) t in
  In b (blocks (c_bs c) (q_clock s) ops) -> b_clock b <= f < b_clock b + c_bs c -> f <= q_clock s + c_sr c ->
  In key (b_keys b) -> match token with Some tok => b_act b (e_id e) tok = true | None => True end ->
  deliveries (e_id e) s' = [delivery_at f e b].
Proof.
  intros c s key param value smooth token t ops s' b Hc Hs Ht Hring H Hroom e f Hb Hf Hsec Hkey Htok.
  apply In_nth_error in Hb as [i Hb]. eapply C23_on_time_partial; eauto; [left; apply Hf|apply Hf|].
  apply blocks_nth in Hb. fold f. destruct Hc as [Hc _].
  assert (N.of_nat i <= c_sr c / c_bs c) by (apply N.div_le_lower_bound; [lia|]; nia). lia.
Qed.

(** C24 *)
Definition in_order (l : list (delivery V)) : Prop := forall i j d1 d2, (i < j)%nat ->
  nth_error l i = Some d1 -> nth_error l j = Some d2 -> d_clock d1 = d_clock d2 -> (d_id d1 < d_id d2)%nat.
Lemma sorted_nth l : StronglySorted lt l -> forall i j a b, (i < j)%nat -> nth_error l i = Some a -> nth_error l j = Some b -> (a < b)%nat.
Proof.
  induction 1 as [|x l H IH Hf]; intros i j a b Hij Hi Hj; [destruct i; discriminate|].
  destruct j as [|j]; [lia|]. cbn in Hj. destruct i as [|i].
  - injection Hi as ->. rewrite Forall_forall in Hf. apply Hf. eapply nth_error_In. exact Hj.
  - cbn in Hi. eapply IH; [|exact Hi|exact Hj]. lia.
Qed.
Lemma ordered_step c s o s' : 0 < c_bs c -> serial V s -> sstep c s o = Some s' ->
  in_order (q_log s) -> (forall d, In d (q_log s) -> d_clock d < q_clock s) ->
  in_order (q_log s') /\ (forall d, In d (q_log s') -> d_clock d < q_clock s').
Proof.
  intros Hb Hs H Ho Hc. destruct o as [key param v sm tok t|keys act].
  - cbn [sstep] in H. destruct (Nat.ltb _ _); injection H as <-; auto.
  - apply block_shape in H as (d1 & k1 & d2 & k2 & _ & _ & E1 & E2 & E3 & E4 & E5 & Hso & Hcl).
    apply so_sorted in Hso as [Hd _]; [|apply Hs]. rewrite E1, E5. split.
    + intros i j x y Hij Hi Hj Hxy.
      destruct (Nat.lt_ge_cases j (length (q_log s))) as [Hjl|Hjl].
      * rewrite nth_error_app1 in Hi, Hj by lia. exact (Ho i j x y Hij Hi Hj Hxy).
      * rewrite nth_error_app2 in Hj by lia. destruct (Nat.lt_ge_cases i (length (q_log s))) as [Hil|Hil].
        -- rewrite nth_error_app1 in Hi by lia. apply nth_error_In in Hi, Hj. apply Hc in Hi. apply Hcl in Hj. lia.
        -- rewrite nth_error_app2 in Hi by lia.
           eapply (sorted_nth _ Hd (i - length (q_log s)) (j - length (q_log s))); [lia|apply map_nth_error; exact Hi|apply map_nth_error; exact Hj].
    + intros d Hd'. apply in_app_or in Hd' as [Hd'|Hd']; [apply Hc in Hd'; lia|apply Hcl in Hd'; lia].
Qed.
Lemma ordered_run c ops : 0 < c_bs c -> forall s s', serial V s -> srun c s ops = Some s' ->
  in_order (q_log s) -> (forall d, In d (q_log s) -> d_clock d < q_clock s) -> in_order (q_log s').
Proof.
  intros Hb. induction ops as [|o ops IH]; cbn [srun]; intros s s' Hs H Ho Hc; [injection H as <-; exact Ho|].
  destruct (sstep c s o) as [s1|] eqn:E; cbn [bind] in H; [|discriminate].
  destruct (ordered_step c s o s1 Hb Hs E Ho Hc) as [Ho1 Hc1].
  eapply IH; [eapply serial_step; eauto|exact H|exact Ho1|exact Hc1].
Qed.
(** Within a block changes are applied in the order in which they were sent (serial numbers count the sends). *)
Theorem C24_order : forall c s i j d1 d2, 0 < c_bs c -> reached c s -> (i < j)%nat ->
  nth_error (q_log s) i = Some d1 -> nth_error (q_log s) j = Some d2 -> d_clock d1 = d_clock d2 -> (d_id d1 < d_id d2)%nat.
Proof.
  intros c s i j d1 d2 Hb [ops H]. eapply (ordered_run c ops Hb sched_new s) in H.
  - unfold in_order in H. eauto.
  - apply serial_new.
  - intros a b x y _ Hx. destruct a; discriminate.
  - intros d [].
Qed.
(** The values a parameter is given in the block at [clock], in order. *)
Definition given (clock : N) (key param : nat) (l : list (delivery V)) : list V :=
  flat_map (fun d => if (d_clock d =? clock) && Nat.eqb (d_key d) key
    then flat_map (fun a => match a with Apply p v => if Nat.eqb p param then [v] else [] | SetDelay _ _ => [] end) (d_calls d) else []) l.
(** The last sent wins: if [d] sets the parameter to [v] and nothing sent later touches it in that block, then [v] is what
    the UGen is given last. *)
Theorem C24_last_sent_wins : forall c s d v, 0 < c_bs c -> reached c s -> In d (q_log s) ->
  forall param pre, d_calls d = pre ++ [Apply param v] ->
  (forall d', In d' (q_log s) -> d_clock d' = d_clock d -> d_key d' = d_key d -> (d_id d < d_id d')%nat ->
     forall w, ~ In (Apply param w) (d_calls d')) ->
  exists l, given (d_clock d) (d_key d) param (q_log s) = l ++ [v].
Proof.
  intros c s d v Hb Hs Hin param pre Hcalls Hlast. apply In_nth_error in Hin as [i Hi].
  apply nth_error_split in Hi as Hsp. destruct Hsp as (l1 & l2 & El & Hlen).
  unfold given. rewrite El, flat_map_app. cbn [flat_map]. rewrite N.eqb_refl, Nat.eqb_refl. cbn [andb].
  rewrite Hcalls, flat_map_app. cbn [flat_map]. rewrite Nat.eqb_refl. cbn [app].
  match goal with |- exists l, _ ++ (_ ++ [v]) ++ ?r = _ => assert (Hr : r = []) end.
  { match goal with |- flat_map ?f l2 = [] => assert (forall x, In x l2 -> f x = []) as Hz end.
    - intros x Hx. destruct ((d_clock x =? d_clock d) && Nat.eqb (d_key x) (d_key d)) eqn:E; [|reflexivity].
      apply andb_prop in E as [E1 E2]. apply N.eqb_eq in E1. apply Nat.eqb_eq in E2.
      assert (Hno : forall w, ~ In (Apply param w) (d_calls x)).
      { apply Hlast; [rewrite El; apply in_or_app; right; right; exact Hx|exact E1|exact E2|].
        apply In_nth_error in Hx as [j Hj]. eapply (C24_order c s i (S i + j)%nat); [exact Hb|exact Hs|lia|exact Hi| |congruence].
        rewrite El, nth_error_app2 by lia. replace (S i + j - length l1)%nat with (S j) by lia. exact Hj. }
      induction (d_calls x) as [|a cs IH]; [reflexivity|]. cbn [flat_map]. rewrite IH by (intros w Hw; apply (Hno w); right; exact Hw).
      destruct a as [|p w]; [reflexivity|]. destruct (Nat.eqb_spec p param) as [->|]; [|reflexivity].
      exfalso. apply (Hno w). left. reflexivity.
    - clear -Hz. induction l2 as [|x l2 IH]; [reflexivity|]. cbn [flat_map]. rewrite Hz by (left; reflexivity).
      apply IH. intros y Hy. apply Hz. right. exact Hy. }
  rewrite Hr, app_nil_r. eexists. rewrite app_assoc. reflexivity.
Qed.

(** C25: at sample rates that divide the tick rate (all common ones), a relative delay of at most a second is exact:
    the block's clock plus the offset in it is the clock of the block that received it plus the delay in frames. *)
Theorem C25_exact_partial : forall c s key param value smooth token t ops s' b,
  config_ok c -> reached c s -> (c_sr c | TS) -> sec_normal t -> (length (q_ring s) < c_ring c)%nat ->
  srun c s (Send key param value smooth token (Some (mk_time t false)) :: ops) = Some s' ->
  (forall s1, first_block V c s (Send key param value smooth token (Some (mk_time t false)) :: ops) = Some s1 -> (length (q_wait s1) < c_cap c)%nat) ->
  let delay := sec_ticks t * c_sr c / TS in
  In b (blocks (c_bs c) (q_clock s) ops) -> b_clock b <= q_clock s + delay < b_clock b + c_bs c -> delay <= c_sr c ->
  In key (b_keys b) -> match token with Some tok => b_act b (q_next s) tok = true | None => True end ->
  exists d, deliveries (q_next s) s' = [d] /\ d_clock d = b_clock b /\ d_key d = key /\
    d_calls d = (if b_clock b <? q_clock s + delay then [SetDelay param (q_clock s + delay - b_clock b)] else []) ++
      match smooth with Some v => [Apply param v] | None => [] end ++ match value with Some v => [Apply param v] | None => [] end.
Proof.
  intros c s key param value smooth token t ops s' b Hc Hs Hd Hn Hring H Hroom delay Hb Hf Hsec Hkey Htok.
  pose proof (C23_within_a_second_partial c s key param value smooth token (Some (mk_time t false)) ops s' b Hc Hs) as P.
  cbv zeta in P. cbn [due_frame t_abs t_secs] in P. fold delay in P.
  eexists. split; [apply P|]; try assumption.
  - split; [exact Hn|]. right. exact Hd.
  - lia.
  - repeat split.
Qed.
End Props.
Print Assumptions C23_at_most_once.
Print Assumptions C23_fate_partial.
Print Assumptions C23_on_time_partial.
Print Assumptions C23_within_a_second_partial.
Print Assumptions C24_order.
Print Assumptions C24_last_sent_wins.
Print Assumptions C25_exact_partial.

(** ** cases *)
Definition none_active (_ _ : nat) := false.
Definition run_block : sop nat := Block [7; 4]%nat none_active.
Definition cfg := mk_config 64 48000 8 8.
(** a change of parameter 2 of node 4 for frame 100 (absolute) and one 100 frames after receipt, sent after one block *)
Definition at_100 : time := mk_time (mk_seconds 0 588000) true.
Definition in_100 : time := mk_time (mk_seconds 0 588000) false.
Definition case_ops : list (sop nat) :=
  [run_block; Send 4 2 (Some 50%nat) None None (Some at_100); Send 4 2 (Some 51%nat) (Some 9%nat) None (Some in_100)] ++ repeat run_block 4.
Definition case_state := match srun cfg sched_new case_ops with Some s => s | None => sched_new end.
Example C23_case : reached nat cfg case_state /\ config_ok cfg /\ time_ok 48000 at_100 /\ time_ok 48000 in_100 /\
  q_log case_state = [mk_delivery 0 64 4 [SetDelay 2 36; Apply 2 50%nat];
                      mk_delivery 1 128 4 [SetDelay 2 36; Apply 2 9%nat; Apply 2 51%nat]].
Proof.
  split; [exists case_ops; vm_compute; reflexivity|]. split; [vm_compute; intuition discriminate|].
  split; [split; [vm_compute; auto|left; reflexivity]|]. split; [split; [vm_compute; auto|right; exists 5880; reflexivity]|].
  vm_compute. reflexivity.
Qed.
(** two changes for the same moment: a waiting one and one just received *)
Definition same_ops : list (sop nat) :=
  [Send 4 2 (Some 50%nat) None None (Some at_100); run_block; Send 4 2 (Some 51%nat) None None (Some at_100); run_block].
Definition same_state := match srun cfg sched_new same_ops with Some s => s | None => sched_new end.
Example C24_case : reached nat cfg same_state /\ map (fun d => (d_id d, d_clock d)) (q_log same_state) = [(0%nat, 64); (1%nat, 64)] /\
  given nat 64 4 2 (q_log same_state) = [50%nat; 51%nat].
Proof. split; [exists same_ops; vm_compute; reflexivity|]. split; vm_compute; reflexivity. Qed.

(** Full statement of C23 (false). 1: a change more than about a second ahead is discarded (here 2.1 s). *)
Definition far : time := mk_time (mk_seconds 2 28224000) true.
Definition far_cfg := mk_config 8 80 8 8.
Definition far_ops : list (sop nat) := Send 4 2 (Some 50%nat) None None (Some far) :: repeat run_block 30.
Definition far_state := match srun far_cfg sched_new far_ops with Some s => s | None => sched_new end.
Lemma far_runs : srun far_cfg sched_new far_ops = Some far_state.
Proof. vm_compute. reflexivity. Qed.
Lemma far_block : nth_error (blocks 8 0 far_ops) 21 = Some (mk_block 168 [7; 4]%nat none_active).
Proof. vm_compute. reflexivity. Qed.
Lemma far_keys : forallb (fun b => existsb (Nat.eqb 4) (b_keys b)) (blocks 8 0 far_ops) = true.
Proof. vm_compute. reflexivity. Qed.
Theorem C23_far_future_refuted : exists s b, srun far_cfg sched_new far_ops = Some s /\
  In b (blocks 8 0 far_ops) /\ b_clock b <= due_frame 80 0 (Some far) < b_clock b + 8 /\
  (forall b', In b' (blocks 8 0 far_ops) -> In 4%nat (b_keys b')) /\ deliveries 0 s = [].
Proof.
  exists far_state, (mk_block 168 [7; 4]%nat none_active).
  split; [exact far_runs|]. split; [exact (nth_error_In _ _ far_block)|].
  split; [split; vm_compute; [discriminate|reflexivity]|]. split; [|vm_compute; reflexivity].
  intros b' Hb'. pose proof (proj1 (forallb_forall _ _) far_keys b' Hb') as H.
  apply existsb_exists in H as (x & Hx & E). apply Nat.eqb_eq in E. subst x. exact Hx.
Qed.
Print Assumptions C23_far_future_refuted.
(** 2: a change is dropped when too many others are waiting. *)
Definition full_cfg := mk_config 64 48000 2 1.
Definition full_ops : list (sop nat) :=
  [Send 4 0 (Some 1%nat) None None (Some at_100); Send 4 1 (Some 2%nat) None None (Some at_100); run_block; run_block; run_block].
Theorem C23_queue_full_refuted : exists s, srun full_cfg sched_new full_ops = Some s /\ q_next s = 2%nat /\
  due_frame 48000 0 (Some at_100) = 100 /\ q_clock s = 192 /\ deliveries 0 s <> [] /\ deliveries 1 s = [].
Proof.
  exists (match srun full_cfg sched_new full_ops with Some s => s | None => sched_new end). vm_compute. repeat split. discriminate.
Qed.
Print Assumptions C23_queue_full_refuted.
(** 3: in blocks of more than 65536 frames the offset is truncated to 16 bits. *)
Definition big_cfg := mk_config 131072 192000 2 2.
Definition at_65541 : time := mk_time (mk_seconds 0 96345270) true.
Theorem C23_offset_truncated_refuted : exists s,
  srun big_cfg sched_new [Send 4 2 (Some 1%nat) None None (Some at_65541); run_block] = Some s /\
  due_frame 192000 0 (Some at_65541) = 65541 /\ q_log s = [mk_delivery 0 0 4 [SetDelay 2 5; Apply 2 1%nat]].
Proof.
  exists (match srun big_cfg sched_new [Send 4 2 (Some 1%nat) None None (Some at_65541); run_block] with Some s => s | None => sched_new end).
  vm_compute. repeat split.
Qed.
Print Assumptions C23_offset_truncated_refuted.
(** Full statement of C25 (false): the block length is rounded down to ticks, so at other sample rates a delay can come out
    a frame late (74 frames at 47952 Hz), and delays beyond about a second are discarded (as in C23). *)
Definition drift_cfg := mk_config 64 47952 8 8.
Definition drift_t := mk_seconds 0 441441.
Definition drift_ops : list (sop nat) := Send 4 2 (Some 1%nat) None None (Some (mk_time drift_t false)) :: repeat run_block 3.
Theorem C25_drift_refuted : exists s, srun drift_cfg sched_new drift_ops = Some s /\
  sec_ticks drift_t * 47952 / TS = 74 /\ q_log s = [mk_delivery 0 64 4 [SetDelay 2 11; Apply 2 1%nat]].
Proof.
  exists (match srun drift_cfg sched_new drift_ops with Some s => s | None => sched_new end). vm_compute. repeat split.
Qed.
Print Assumptions C25_drift_refuted.
Definition far_rel_ops : list (sop nat) := Send 4 2 (Some 50%nat) None None (Some (mk_time (mk_seconds 2 0) false)) :: repeat run_block 40.
Theorem C25_long_delay_refuted : exists s, srun far_cfg sched_new far_rel_ops = Some s /\ 160 < q_clock s /\ q_log s = [].
Proof.
  exists (match srun far_cfg sched_new far_rel_ops with Some s => s | None => sched_new end). vm_compute. repeat split.
Qed.
Print Assumptions C25_long_delay_refuted.

(** C31 *)
Theorem C31_frame_clock : forall bs sr n, 0 < sr < U32 -> N.of_nat n * bs < U64 ->
  exists t, clock_run bs sr n (0, sec_zero) = Some (N.of_nat n * bs, t).
Proof.
  intros bs sr n Hsr Hn.
  assert (G : forall m clock t, clock + N.of_nat m * bs < U64 ->
    exists t', clock_run bs sr m (clock, t) = Some (clock + N.of_nat m * bs, t')).
  { induction m as [|m IH]; intros clock t H; cbn [clock_run fst].
    - exists t. f_equal. f_equal. lia.
    - rewrite add_w_some by lia. cbn [bind]. unfold sec_from_samples. rewrite div_w_some, rem_w_some by lia. cbn [bind].
      assert ((clock + bs) mod sr < sr) by (apply N.mod_lt; lia).
      rewrite mul_w_some by (rewrite TS_val, U64_val; rewrite U32_val in *; nia). cbn [bind]. rewrite div_w_some by lia. cbn [bind].
      edestruct IH as [t' E]; [|rewrite E; exists t'; f_equal; f_equal; lia]. lia. }
  destruct (G n 0 sec_zero) as [t E]; [lia|]. exists t. rewrite E. f_equal.
Qed.
Print Assumptions C31_frame_clock.
(** The shared clock is the exact time of that frame, rounded down to a tick, until 2^32 seconds. *)
Theorem C31_shared_clock_partial : forall bs sr n, 0 < sr < U32 -> (0 < n)%nat -> N.of_nat n * bs < U32 * sr ->
  exists t, clock_run bs sr n (0, sec_zero) = Some (N.of_nat n * bs, t) /\ sec_normal t /\ sec_ticks t = N.of_nat n * bs * TS / sr.
Proof.
  intros bs sr n Hsr H0 Hn.
  assert (HU : U32 * sr <= U64) by (unfold U64; change (2 ^ 64) with (U32 * U32); nia).
  assert (G : forall m clock t, clock + N.of_nat (S m) * bs < U32 * sr ->
    exists t', clock_run bs sr (S m) (clock, t) = Some (clock + N.of_nat (S m) * bs, t') /\
      sec_from_samples (clock + N.of_nat (S m) * bs) sr = Some t').
  { induction m as [|m IH]; intros clock t H.
    - cbn [clock_run fst]. rewrite add_w_some by lia. cbn [bind].
      rewrite (sec_from_samples_val (clock + bs)) by lia. cbn [bind].
      eexists. split; [f_equal; f_equal; lia|]. replace (clock + N.of_nat 1 * bs) with (clock + bs) by lia.
      apply sec_from_samples_val; lia.
    - remember (S m) as m1. cbn [clock_run fst]. rewrite add_w_some by lia. cbn [bind].
      rewrite (sec_from_samples_val (clock + bs)) by lia. cbn [bind].
      edestruct (IH (clock + bs)) as (t' & E1 & E2); [|rewrite E1; exists t'; split; [f_equal; f_equal; lia|rewrite <- E2; f_equal; lia]]. lia. }
  destruct n as [|n]; [lia|]. destruct (G n 0 sec_zero) as (t & E1 & E2); [lia|].
  exists t. rewrite E1. split; [f_equal|]. rewrite N.add_0_l in E2.
  split; [eapply sec_from_samples_normal; [exact Hsr|exact Hn|exact E2]|].
  rewrite sec_from_samples_val in E2 by assumption. injection E2 as <-. unfold sec_ticks. cbn [s_whole s_sub].
  set (x := N.of_nat (S n) * bs). assert (Ex : x = sr * (x / sr) + x mod sr) by (apply N.div_mod; lia).
  replace (x * TS) with ((sr * (x / sr) + x mod sr) * TS) by (rewrite <- Ex; reflexivity).
  replace ((sr * (x / sr) + x mod sr) * TS) with (x mod sr * TS + x / sr * TS * sr) by lia.
  rewrite N.div_add by lia. apply N.add_comm.
Qed.
Print Assumptions C31_shared_clock_partial.
Example C31_case : clock_run 64 48000 751 (0, sec_zero) = Some (48064, mk_seconds 1 376320).
Proof. vm_compute. reflexivity. Qed.
(** "for any n" fails after 2^32 seconds: the whole seconds are truncated to 32 bits ([as u32], time.rs:81) *)
Theorem C31_shared_clock_wraps_refuted : exists bs sr n, 0 < sr < U32 /\ N.of_nat n * bs < U64 /\
  clock_run bs sr n (0, sec_zero) = Some (U32, mk_seconds 0 0).
Proof. exists (2 ^ 30), 1, 4%nat. vm_compute. intuition discriminate. Qed.
Print Assumptions C31_shared_clock_wraps_refuted.
