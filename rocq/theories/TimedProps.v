(** C74: a timed change is heard at exactly its frame. Specification: [TimedSpec], [PreciseSpec]. *)
From Verif Require Import Base TimeModel TimeSpec BlockModel PreciseModel PreciseSpec PreciseProofs PreciseProps SchedModel SchedSpec SchedProofs SchedProps TimedModel TimedSpec TimedProofs.
Local Open Scope N_scope.

(** From the handle to the samples: what a node in the sample-accurate wrapper puts out, block after block, is what the UGen puts
    out if every change sent to it is applied exactly before the frame that its time denotes; for any UGen, any input, any changes
    sent to other nodes in between. Conditions: there is room in the channel and in the queue; the node runs in every block; what is
    sent to it is at most a second ahead; per block at most [slots] changes have an offset, and they are sent in the order of their
    frames; each parameter is always ([tp]) or never changed with an offset. *)
Theorem C74_heard_partial : forall F V St (zero : F) (u : ugen F V St) c k slots tp st out (ops : list (top F V)) sf,
  config_ok c -> roomy c ops -> plain c k (u_params u) 0 ops -> srun c sched_new (map sop_of ops) = Some sf ->
  let music := score (c_bs c) (wanted (c_sr c) (c_bs c) k 0 ops) 0 ops in
  (forall es ib, In (es, ib) music -> block_ok u (N.to_nat (c_bs c)) slots es /\ offsets_stated tp es) ->
  option_map (fun r => (p_st (snd (fst r)), snd r)) (trun zero u c k out (sched_new, precise_new u slots st) ops) =
  ideal_run zero u (N.to_nat (c_bs c)) st music out.
Proof.
  intros F V St zero u c k slots tp st out ops sf Hc Hroom Hplain Hrun music Hok.
  pose proof (trun_precise zero u c k Hc ops sf (u_params u) Hroom Hplain Hrun out ops [] sched_new (precise_new u slots st) eq_refl eq_refl) as H.
  cbn [clock_of] in H. fold music in H.
  rewrite <- (C26_on_time_partial F V St zero u slots (N.to_nat (c_bs c)) tp music st out) by (try assumption; destruct Hc as [[Hb _] _]; lia).
  rewrite <- H. destruct (trun zero u c k out (sched_new, precise_new u slots st) ops) as [[[] ]|]; reflexivity.
Qed.
Print Assumptions C74_heard_partial.

(** ** cases *)
(** a check of [roomy] *)
Fixpoint room_from {F V} (c : config) (s : sched V) (ops : list (top F V)) : bool :=
  match ops with
  | [] => true
  | o :: ops =>
      match sstep c s (sop_of o) with
      | Some s' => match o with
                   | TSend _ _ _ _ _ _ => Nat.ltb (length (q_ring s)) (c_ring c)
                   | TBlock _ _ _ => Nat.ltb (length (q_wait s')) (c_cap c)
                   end && room_from c s' ops
      | None => true
      end
  end.
Lemma room_from_ok {F V} c (ops : list (top F V)) : room_from c sched_new ops = true -> roomy c ops.
Proof.
  unfold roomy. generalize (@sched_new V) as s0. induction ops as [|o ops IH]; intros s0 H pre o' post s s' E Hs Ho.
  - destruct pre; discriminate.
  - destruct pre as [|a pre]; cbn [app] in E; injection E as E1 E2; subst.
    + injection Hs as <-. cbn [room_from] in H. rewrite Ho in H. destruct o'; apply andb_prop in H as [H _]; apply Nat.ltb_lt; exact H.
    + cbn [map srun] in Hs. cbn [room_from] in H. destruct (sstep c s0 (sop_of a)) as [s1|]; cbn [bind] in Hs; [|discriminate].
      apply andb_prop in H as [_ H]. eapply (IH s1 H); eauto.
Qed.

(** blocks of 8 frames at 48 kHz (5880 ticks a frame); node 4 is the ramp of [PreciseProps]; node 9 gets changes too *)
Definition c8 : config := mk_config 8 48000 8 8.
Definition frames_time (n : N) (absolute : bool) : option time := Some (mk_time (mk_seconds 0 (n * 5880)) absolute).
Definition blk : top Z Z := TBlock [9; 4]%nat none_active ramp_in.
Definition melody : list (top Z Z) :=
  [TSend 4 0 (Some 10%Z) None None (frames_time 11 true); TSend 9 0 (Some 77%Z) None None (frames_time 2 true);
   TSend 4 0 (Some 3%Z) None None (frames_time 5 true); blk;
   TSend 9 1 (Some 78%Z) (Some 5%Z) None (frames_time 3 false); TSend 4 1 (Some 1000%Z) None None None;
   TSend 4 0 (Some 0%Z) None None (frames_time 7 false); blk; blk].
Example C74_case : config_ok c8 /\ roomy c8 melody /\ plain c8 4 2 0 melody /\
  wanted 48000 8 4 0 melody = [(11, 0%nat, 10%Z); (5, 0%nat, 3%Z); (8, 1%nat, 1000%Z); (15, 0%nat, 0%Z)] /\
  (forall es ib, In (es, ib) (score 8 (wanted 48000 8 4 0 melody) 0 melody) -> block_ok ramp 8 4 es /\ offsets_stated (Nat.eqb 0) es) /\
  option_map snd (trun 0%Z ramp c8 4 ramp_out (sched_new, precise_new ramp 4 (0, 1)%Z) melody) =
    Some [BlockModel.mk_block true [100;201;302;403;504;605;708;811]%Z 1 8;
          BlockModel.mk_block true [1100;1203;1306;1409;1519;1629;1739;1849]%Z 1 8;
          BlockModel.mk_block true [1149;1249;1349;1449;1549;1649;1749;1849]%Z 1 8].
Proof.
  split; [vm_compute; intuition discriminate|]. split; [apply room_from_ok; vm_compute; reflexivity|].
  split.
  { cbn. repeat split; try (intros; discriminate); try tauto; try lia; try (vm_compute; intuition discriminate);
      try (left; reflexivity); try (right; exists 5880; vm_compute; reflexivity). }
  split; [vm_compute; reflexivity|]. split.
  - intros es ib H. remember (score 8 (wanted 48000 8 4 0 melody) 0 melody) as l eqn:El. vm_compute in El. subst l.
    cbn [In] in H. destruct H as [H|[H|[H|[]]]]; injection H as <- <-;
      (split; [split; [cbn; lia|split; [cbn; intuition lia|]]|]); intros d i v Hin; cbn [In] in Hin;
      repeat (destruct Hin as [Hin|Hin]; [injection Hin as <- <- <-; vm_compute; repeat split; lia|]); destruct Hin.
  - vm_compute. reflexivity.
Qed.

(** Without the last condition it is false. A parameter is changed at frame 5 and again at frame 8, a block start: the second change
    is heard at frame 13, since the wrapper keeps the offset of the first one. *)
Definition late_case : list (top Z Z) :=
  [TSend 4 0 (Some 3%Z) None None (frames_time 5 true); TSend 4 0 (Some 10%Z) None None (frames_time 8 true); blk; blk].
Theorem C74_block_start_refuted :
  config_ok c8 /\ roomy c8 late_case /\ plain c8 4 2 0 late_case /\
  wanted 48000 8 4 0 late_case = [(5, 0%nat, 3%Z); (8, 0%nat, 10%Z)] /\
  option_map snd (trun 0%Z ramp c8 4 ramp_out (sched_new, precise_new ramp 4 (0, 1)%Z) late_case) =
    option_map snd (ideal_run 0%Z ramp 8 (0, 1)%Z (score 8 [(5, 0%nat, 3%Z); (13, 0%nat, 10%Z)] 0 late_case) ramp_out) /\
  option_map snd (trun 0%Z ramp c8 4 ramp_out (sched_new, precise_new ramp 4 (0, 1)%Z) late_case) <>
    option_map snd (ideal_run 0%Z ramp 8 (0, 1)%Z (score 8 (wanted 48000 8 4 0 late_case) 0 late_case) ramp_out).
Proof.
  split; [vm_compute; intuition discriminate|]. split; [apply room_from_ok; vm_compute; reflexivity|].
  split.
  { cbn. repeat split; try (intros; discriminate); try tauto; try lia; try (vm_compute; intuition discriminate);
      try (left; reflexivity). }
  split; [vm_compute; reflexivity|]. split; vm_compute; [reflexivity|discriminate].
Qed.
Print Assumptions C74_block_start_refuted.
(** Two changes for one block that are sent in the other order of their frames: the one for the earlier frame waits for the later. *)
Definition swapped_case : list (top Z Z) :=
  [TSend 4 0 (Some 3%Z) None None (frames_time 5 true); TSend 4 1 (Some 1000%Z) None None (frames_time 2 true); blk].
Theorem C74_sending_order_refuted :
  roomy c8 swapped_case /\ wanted 48000 8 4 0 swapped_case = [(5, 0%nat, 3%Z); (2, 1%nat, 1000%Z)] /\
  option_map snd (trun 0%Z ramp c8 4 ramp_out (sched_new, precise_new ramp 4 (0, 1)%Z) swapped_case) =
    option_map snd (ideal_run 0%Z ramp 8 (0, 1)%Z (score 8 [(5, 0%nat, 3%Z); (5, 1%nat, 1000%Z)] 0 swapped_case) ramp_out) /\
  option_map snd (trun 0%Z ramp c8 4 ramp_out (sched_new, precise_new ramp 4 (0, 1)%Z) swapped_case) <>
    option_map snd (ideal_run 0%Z ramp 8 (0, 1)%Z (score 8 (wanted 48000 8 4 0 swapped_case) 0 swapped_case) ramp_out).
Proof.
  split; [apply room_from_ok; vm_compute; reflexivity|]. split; [vm_compute; reflexivity|]. split; vm_compute; [reflexivity|discriminate].
Qed.
Print Assumptions C74_sending_order_refuted.
