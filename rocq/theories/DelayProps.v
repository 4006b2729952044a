(** C40 and C41: the integer delay lines. *)
From Verif Require Import Base DelayModel DelaySpec DelayProofs.

(** ** C40 *)
(** Any samples, any buffer of [len] samples, any history of inputs and changes of the delay to values below [len]: each output
    is the input as many frames ago as the delay then in force says, silence before the start; and there is no panic. *)
Theorem C40_delay_partial : forall (V : Type) (zero : V) len ops, 0 < len -> (forall d, In (SdSet d) ops -> d < len) ->
  sd_run (sd_init V zero len) ops = Some (sd_expected V zero ops).
Proof.
  intros V zero len ops HL Hd. rewrite (sd_run_ok zero len ops (sd_init V zero len) []); cbn [sd_init sd_buf sd_wp sd_d]; try assumption.
  - cbn [length app]. unfold sd_expected. rewrite map_length. reflexivity.
  - destruct (ring_init zero len 0 (repeat zero len) HL) as [A B]; [rewrite repeat_length; lia |]. split; [exact A |].
    intros j Hj. rewrite (B j Hj). cbn [length]. destruct (0 <? j); [rewrite nth_repeat_zero |]; reflexivity.
  - apply repeat_length.
  - cbn [length]. rewrite Nat.mod_0_l by lia. reflexivity.
Qed.
Print Assumptions C40_delay_partial.
(** The maximal delay itself is no delay at all ... *)
Theorem C40_max_delay_refuted : forall (V : Type) (zero : V) len (xs : list V), 0 < len ->
  sd_run (sd_init V zero len) (SdSet len :: map SdFrame xs) = Some xs.
Proof.
  intros V zero len xs HL. cbn [sd_run].
  assert (G : forall xs (s : sdelay V), length (sd_buf s) = len -> sd_wp s < len -> sd_d s = len -> sd_run s (map SdFrame xs) = Some xs).
  { clear xs. induction xs as [| x xs IH]; intros s Hb Hw Hd; [reflexivity |]. cbn [map sd_run]. unfold sd_process.
    destruct (set_nth_some (sd_buf s) (sd_wp s) x) as [buf' E]; [lia |]. rewrite E. cbn [bind].
    pose proof (set_nth_length _ _ _ _ E) as Lb. rewrite Lb, Hb, Hd.
    replace (sd_wp s + len <? len) with false by (symmetry; apply Nat.ltb_ge; lia).
    replace (len =? 0) with false by (symmetry; apply Nat.eqb_neq; lia).
    replace ((sd_wp s + len - len) mod len) with (sd_wp s) by (rewrite Nat.add_sub, Nat.mod_small by exact Hw; reflexivity).
    rewrite (set_nth_same _ _ _ _ E). cbn [bind fst snd]. rewrite IH; [reflexivity | cbn [sd_buf]; lia | cbn [sd_wp]; apply Nat.mod_upper_bound; lia | reflexivity]. }
  apply G; [apply repeat_length | exact HL | reflexivity].
Qed.
Print Assumptions C40_max_delay_refuted.
(** ... a longer one panics (in a release build: reads from a wrapped-around index), and so does a unit without any maximal delay. *)
Theorem C40_longer_refuted : forall (V : Type) (zero x : V) len, sd_run (sd_init V zero len) [SdSet (len + 1); SdFrame x] = None.
Proof.
  intros V zero x len. cbn [sd_run]. unfold sd_process. cbn [sd_set sd_init sd_buf sd_wp sd_d]. destruct len as [| len]; [reflexivity |].
  cbn [repeat set_nth bind length]. rewrite repeat_length. replace (0 + S len <? S len + 1) with true by (symmetry; apply Nat.ltb_lt; lia). reflexivity.
Qed.
Print Assumptions C40_longer_refuted.

Definition sd_ops : list (sd_op Z) := [SdSet 2; SdFrame 1%Z; SdFrame 2%Z; SdFrame 3%Z; SdFrame 4%Z; SdSet 3; SdFrame 5%Z; SdSet 0; SdFrame 6%Z].
Example sd_example : (forall d, In (SdSet d) sd_ops -> d < 4) /\ sd_expected Z 0%Z sd_ops = [0; 0; 1; 2; 2; 6]%Z.
Proof.
  split; [| vm_compute; reflexivity].
  intros d H. repeat (destruct H as [H | H]; [try discriminate H; injection H as <-; lia |]). destruct H.
Qed.

(** ** C41 *)
(** Any samples, any line of [len] samples, any mixture of sample-wise access, block access (blocks up to the length of the
    line) and [process] calls, without a change of the length: the input delayed by [len]. *)
Theorem C41_access_partial : forall (V : Type) (zero : V) len s0 ops, ssd_new V zero len = Some s0 -> no_change V ops -> blocks_fit V len ops ->
  exists s, ss_run V zero s0 ops = Some (s, delayed V zero len (ss_inputs V ops)).
Proof.
  intros V zero len s0 ops H Hn Hb. unfold ssd_new in H. destruct (Nat.eqb_spec len 0) as [| N0]; [discriminate H |]. injection H as <-.
  destruct (ss_run_ok zero len ops (mk_ssd (repeat zero len) 0 len) []) as (s & E); try assumption; try lia.
  - split; [apply repeat_length |]. split; [reflexivity |]. split; [cbn [ss_pos length]; rewrite Nat.mod_0_l by lia; reflexivity |].
    destruct (ring_init zero len 0 (repeat zero len)) as [A B]; [lia | rewrite repeat_length; lia |]. split; [exact A |].
    intros j Hj. cbn [ss_buf]. rewrite (B j Hj). cbn [length]. destruct (0 <? j); [rewrite nth_repeat_zero |]; reflexivity.
  - exists s. exact E.
Qed.
Print Assumptions C41_access_partial.
(** After a change of the length to [d], whatever happened before: from [d + 1] samples on, sample-wise access gives the input
    delayed by [d] (or by the length of the buffer, if [d] is longer). *)
Theorem C41_change_partial : forall (V : Type) (zero : V) (s : ssd V) d xs, 0 < d -> 0 < length (ss_buf s) -> ss_pos s < length (ss_buf s) ->
  let d' := Nat.min d (length (ss_buf s)) in
  exists s' out, ss_run V zero s [SsSet d; SsSamples xs] = Some (s', out) /\ length out = length xs /\
    forall m, d' + 1 <= m -> m < length xs -> nth_error out m = nth_error xs (m - d').
Proof.
  intros V zero s d xs Hd Hb Hp d'. cbn [ss_run ss_step bind fst snd app].
  set (s1 := ssd_set_length d s). assert (D0 : 0 < d') by (unfold d'; lia).
  destruct xs as [| x xs]; [exists s1, []; split; [reflexivity |]; split; [reflexivity |]; intros m _ H; cbn in H; lia |].
  cbn [ssd_samples]. change (ss_buf s1) with (ss_buf s).
  unfold ssd_read, ssd_write. cbn [s1 ssd_set_length ss_buf ss_pos ss_len]. fold d'.
  destruct (nth_error (ss_buf s) (ss_pos s)) as [o |] eqn:O; [| apply nth_error_None in O; lia]. cbn [bind].
  destruct (set_nth_some (ss_buf s) (ss_pos s) x Hp) as [buf' E]. rewrite E. cbn [bind].
  unfold rem. replace (d' =? 0) with false by (symmetry; apply Nat.eqb_neq; lia). cbn [bind].
  set (s2 := mk_ssd buf' ((ss_pos s + 1) mod d') d').
  pose proof (set_nth_length _ _ _ _ E) as Lb.
  destruct (changed_samples zero d' xs s2 [] ((ss_pos s + 1) mod d') (fun i => nth i buf' zero)) as (s' & out & A1 & A2 & A3); try assumption; try reflexivity.
  { cbn [s2 ss_pos length]. rewrite Nat.add_0_r, Nat.mod_mod by lia. reflexivity. }
  { apply ring_init; [exact D0 |]. cbn [s2 ss_buf]. rewrite Lb. unfold d'. lia. }
  exists s', (o :: out). rewrite A1. cbn [bind fst snd]. rewrite app_nil_r. split; [reflexivity |]. split; [cbn [length]; rewrite A2; reflexivity |].
  intros m Hm Hl. destruct m as [| m]; [lia |]. cbn [length] in Hl. cbn [nth_error]. rewrite (A3 m) by (cbn [length]; lia). cbn [length app Nat.add].
  symmetry. replace (S m - d') with (S (m - d')) by lia. cbn [nth_error]. apply nth_error_nth'. lia.
Qed.
Print Assumptions C41_change_partial.
(** Block access after a change of the length still delays by the old length ... *)
Definition line4 : ssd Z := mk_ssd [0; 0; 0; 0]%Z 0 4.
Theorem C41_change_blocks_refuted :
  option_map snd (ss_run Z 0%Z line4 [SsSet 2; SsBlock [1; 2]%Z; SsBlock [3; 4]%Z; SsBlock [5; 6]%Z]) = Some [0; 0; 0; 0; 1; 2]%Z /\
  option_map snd (ss_run Z 0%Z line4 [SsSet 2; SsSamples [1; 2]%Z; SsSamples [3; 4]%Z; SsSamples [5; 6]%Z]) = Some [0; 0; 1; 2; 3; 4]%Z.
Proof. vm_compute. split; reflexivity. Qed.
Print Assumptions C41_change_blocks_refuted.
(** ... and panics when a block wraps around; a length of 0 panics at the first write; and a block that is longer than the line panics. *)
Theorem C41_change_panics_refuted :
  ss_run Z 0%Z line4 [SsSet 3; SsBlock [1; 2; 3]%Z; SsBlock [4; 5; 6]%Z] = None /\
  ss_run Z 0%Z line4 [SsSet 0; SsSamples [1]%Z] = None /\
  ss_run Z 0%Z line4 [SsBlock [1; 2; 3; 4; 5]%Z] = None.
Proof. vm_compute. repeat split. Qed.
Print Assumptions C41_change_panics_refuted.

Definition ss_ops : list (ss_op Z) := [SsSamples [1; 2; 3]%Z; SsBlock [4; 5; 6]%Z; SsProcess [7; 8; 9; 10; 11]%Z; SsBlock [12; 13; 14; 15]%Z].
Example ss_example : ssd_new Z 0%Z 4 = Some line4 /\ no_change Z ss_ops /\ blocks_fit Z 4 ss_ops /\
  option_map snd (ss_run Z 0%Z line4 ss_ops) = Some [0; 0; 0; 0; 1; 2; 3; 4; 5; 6; 7; 8; 9; 10; 11]%Z.
Proof.
  split; [reflexivity |]. split; [intros n H; repeat (destruct H as [H | H]; [discriminate H |]); destruct H |].
  split; [| vm_compute; reflexivity].
  intros xs H. repeat (destruct H as [H | H]; [try discriminate H; injection H as <-; cbn; lia |]). destruct H.
Qed.
Example change_example : option_map snd (ss_run Z 0%Z line4 [SsSamples [1; 2; 3]%Z; SsSet 2; SsSamples [4; 5; 6; 7; 8; 9]%Z]) =
  Some [0; 0; 0; 0; 1; 2; 5; 6; 7]%Z.
Proof. vm_compute. reflexivity. Qed.
