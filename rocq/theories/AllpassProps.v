(** C42: silence of the allpass delays; C54: whole delays. *)
From Coq Require Import Reals Lra.
From Flocq Require Import Core BinarySingleNaN.
From Verif Require Import Base FloatBase FloatMore AllpassModel AllpassSpec DelaySpec AllpassProofs.
Local Open Scope R_scope.
Notation f32 := (binary_float 24 128).
Notation back32 := (back f32 (fzero : f32)).

Lemma first_frame : forall len (x : f32), (1 <= len)%nat -> silent x ->
  exists s o, ap_process x (ap_init len) = Some (s, o) /\ quiet s /\ silent o /\ length (a_buf s) = len.
Proof.
  intros len x Hl Hx.
  assert (Hm : forall l, (1 <= l)%nat -> (1 mod l < l)%nat) by (intros l L; apply Nat.mod_upper_bound; lia).
  unfold ap_process, ap_read. cbn [ap_init a_buf a_w a_r a_clear a_coeff a_pin a_pout a_nf]. rewrite repeat_length.
  replace (len =? 0)%nat with false by (symmetry; apply Nat.eqb_neq; lia). change (0 <? 0)%nat with false. cbn [bind].
  destruct len as [| len]; [lia |]. cbn [repeat nth_error bind fst snd].
  assert (So : silent (interp_sample fone fone fone (fzero : f32))).
  { assert (E : B2SF (interp_sample fone fone fone (fzero : f32)) = B2SF (fzero : f32)) by (vm_compute; reflexivity).
    apply B2SF_inj in E. rewrite E. apply silent_zero. }
  unfold ap_write. cbn [a_buf a_w a_r a_nf a_clear a_coeff a_pin a_pout set_nth bind length]. rewrite repeat_length.
  eexists. eexists. split; [reflexivity |].
  assert (Fz : Forall silent (repeat (fzero : f32) len)) by (apply Forall_forall; intros y Hy; apply repeat_spec in Hy; subst y; apply silent_zero).
  split; [| split; [exact So | cbn [a_buf length]; rewrite repeat_length; reflexivity]].
  unfold quiet. cbn [a_buf a_w a_r a_nf a_clear a_coeff a_pin a_pout length]. rewrite repeat_length. cbn [Nat.add].
  split; [lia |]. split; [apply Hm; lia |]. split; [apply Hm; lia |]. split; [constructor; [exact Hx | exact Fz] |].
  split; [apply fin_fone |]. split; [apply silent_zero | exact So].
Qed.

(** An allpass delay that is fed silence, and whose delay is only set after its first frame, is silent for ever: for all delay
    settings within the capacity, whole or not, as often as one likes, without a panic.
    Partial: the delay may not be set before the first frame, and the delay may not be cleared; both are refuted below. *)
Theorem C42_silent_partial : forall len (x : f32) ops, (1 <= len)%nat -> silent x -> silent_ops len ops ->
  exists l, ap_run ap_process (ap_init len) (ApFrame x :: ops) = Some l /\ Forall silent l.
Proof.
  intros len x ops Hl Hx Ho. destruct (first_frame len x Hl Hx) as (s & o & E & Q & So & Lb). cbn [ap_run]. rewrite E. cbn [bind fst snd].
  destruct (run_quiet ap_process process_quiet ops s Q) as (l & E2 & Fl); [rewrite Lb; exact Ho |]. rewrite E2. exists (o :: l).
  split; [reflexivity | constructor; assumption].
Qed.
Print Assumptions C42_silent_partial.

(** Likewise the allpass delay with feedback, for every finite feedback. *)
Theorem C42_feedback_silent_partial : forall len (fb x : f32) ops, (1 <= len)%nat -> fin fb -> silent x -> silent_ops len ops ->
  exists l, ap_run (fb_process fb) (ap_init len) (ApFrame x :: ops) = Some l /\ Forall silent l.
Proof.
  intros len fb x ops Hl Ff Hx Ho. destruct (first_frame len x Hl Hx) as (s & o & E & Q & So & Lb). cbn [ap_run].
  (* the first frame reads 0 whatever is written *)
  destruct (ap_read (ap_init len : ap 24 128)) as [[s0 o0] |] eqn:R; [| unfold ap_process in E; rewrite R in E; discriminate E].
  unfold ap_process in E. rewrite R in E. cbn [bind fst snd] in E.
  destruct (ap_write x s0) as [sx |] eqn:W; [| discriminate E]. injection E as E1 E2'. subst sx o.
  unfold fb_process at 1. rewrite R. cbn [bind fst snd].
  assert (Sw : silent (fadd (fmul o0 fb) x)) by (apply add_silent; [apply mul_zero_l; assumption | exact Hx]).
  assert (Q2 : exists s2, ap_write (fadd (fmul o0 fb) x) s0 = Some s2 /\ quiet s2 /\ length (a_buf s2) = len).
  { unfold ap_write in *. destruct (set_nth (a_buf s0) (a_w s0) x) as [b |] eqn:S; [| discriminate W]. cbn [bind] in W. injection W as <-.
    destruct Q as (Q0 & Q1 & Q2 & Q3 & Q4 & Q5 & Q6). cbn [a_buf a_w a_r a_coeff a_pin a_pout a_nf a_clear] in *.
    pose proof (set_nth_length _ _ _ _ S) as L1.
    assert (L2 : (a_w s0 < length (a_buf s0))%nat).
    { unfold ap_read in R. cbn [ap_init a_buf] in R. rewrite repeat_length in R. replace (len =? 0)%nat with false in R by (symmetry; apply Nat.eqb_neq; lia).
      cbn [ap_init a_buf a_w a_r a_clear] in R. change (0 <? 0)%nat with false in R. cbv iota in R.
      destruct (nth_error (repeat fzero len) 0) as [y |]; [| discriminate R]. cbn [bind] in R. injection R as <- <-. cbn [a_buf a_w]. rewrite repeat_length. lia. }
    destruct (set_nth_some (a_buf s0) (a_w s0) (fadd (fmul o0 fb) x) L2) as [b2 S2]. rewrite S2. cbn [bind].
    pose proof (set_nth_length _ _ _ _ S2) as L3. eexists. split; [reflexivity |].
    split; [| cbn [a_buf]; congruence]. unfold quiet. cbn [a_buf a_w a_r a_coeff a_pin a_pout a_nf a_clear]. replace (length b2) with (length b) by congruence.
    split; [exact Q0 |]. split; [exact Q1 |]. split; [exact Q2 |]. split; [| split; [exact Q4 | split; assumption]].
    apply (Forall_set _ (a_buf s0) (a_w s0) (fadd (fmul o0 fb) x) b2); [| exact Sw | exact S2].
    assert (Ez : a_buf s0 = repeat fzero len).
    { unfold ap_read in R. cbn [ap_init a_buf a_w a_r a_clear] in R. rewrite repeat_length in R. replace (len =? 0)%nat with false in R by (symmetry; apply Nat.eqb_neq; lia).
      change (0 <? 0)%nat with false in R. cbv iota in R.
      destruct (nth_error (repeat fzero len) 0) as [y |]; [| discriminate R]. cbn [bind] in R. injection R as <- <-. reflexivity. }
    rewrite Ez. apply Forall_forall. intros y Hy. apply repeat_spec in Hy. subst y. apply silent_zero. }
  destruct Q2 as (s2 & W2 & Q2 & L2). rewrite W2. cbn [bind fst snd].
  destruct (run_quiet (fb_process fb) (fun s x => fb_quiet fb s x Ff) ops s2 Q2) as (l & E3 & Fl); [rewrite L2; exact Ho |].
  rewrite E3. eexists. split; [reflexivity |]. constructor; [| exact Fl]. apply sub_silent; [exact So | apply mul_zero_r; assumption].
Qed.
Print Assumptions C42_feedback_silent_partial.

Definition outs (r : option (list f32)) := option_map (map (fun o : f32 => B2SF o)) r.
(** A fresh allpass delay set to two frames clicks: the interpolator starts with an imaginary input of one. *)
Definition set_first : list (ap_op 24 128) := [ApSet (fz 2); ApFrame fzero; ApFrame fzero; ApFrame fzero; ApFrame fzero].
Theorem C42_fresh_refuted : ~ (forall len (ops : list (ap_op 24 128)), silent_ops len ops ->
  exists l, ap_run ap_process (ap_init len) ops = Some l /\ Forall silent l).
Proof.
  intros H. destruct (H 8%nat set_first) as (l & E & F).
  - assert (W : within 8 (fz 2 : f32)).
    { destruct (fz_small (prec := 24) (emax := 128) 2) as [A B]; [lia |]. split; [exact B |]. rewrite A. split; [cbn; lra |].
      apply Rle_trans with (bpow radix2 1); [cbn; lra | apply bpow_le; lia]. }
    intros o Ho. cbn [set_first In] in Ho. repeat (destruct Ho as [<- | Ho]; [first [exact W | apply silent_zero] |]). destruct Ho.
  - assert (O : outs (ap_run ap_process (ap_init 8) set_first) = Some (map (fun o : f32 => B2SF o) [fone; fzero; fzero; fzero])) by (vm_compute; reflexivity).
    rewrite E in O. unfold outs in O. cbn [option_map map] in O. destruct l as [| a l]; [discriminate O |]. cbn [map] in O.
    assert (Ea : B2SF a = B2SF (fone : f32)) by congruence. apply B2SF_inj in Ea. subst a. inversion F as [| ? ? [_ V] _]. rewrite val_fone in V. lra.
Qed.
Print Assumptions C42_fresh_refuted.

(** A delay that has been silent all along clicks after being cleared. *)
Definition clear_ops : list (ap_op 24 128) := [ApFrame fzero; ApSet (fz 3); ApFrame fzero; ApClear; ApFrame fzero; ApFrame fzero; ApFrame fzero; ApFrame fzero].
Theorem C42_clear_refuted : silent_ops 8 (filter (fun o => match o with ApClear => false | _ => true end) clear_ops) /\
  outs (ap_run ap_process (ap_init 8) clear_ops) = Some (map (fun o : f32 => B2SF o) [fzero; fzero; fzero; fzero; fone; fzero]).
Proof.
  split; [| vm_compute; reflexivity].
  assert (W : within 8 (fz 3 : f32)).
  { destruct (fz_small (prec := 24) (emax := 128) 3) as [A B]; [lia |]. split; [exact B |]. rewrite A. split; [cbn; lra |].
    apply Rle_trans with (bpow radix2 2); [cbn; lra | apply bpow_le; lia]. }
  intros o Ho. cbn [clear_ops filter In] in Ho. repeat (destruct Ho as [<- | Ho]; [first [exact W | apply silent_zero] |]). destruct Ho.
Qed.
Print Assumptions C42_clear_refuted.

(** * C54 *)
(** After setting a whole delay of at least two frames the output is the input delayed by it.
    Partial: frame 0 is excluded (the click of C42); one frame is refuted below. *)
Theorem C54_whole_partial : forall len N (xs : list f32), (2 <= N <= len + 1)%nat -> (Z.of_nat N <= 2 ^ 24)%Z -> Forall bounded xs ->
  exists l, ap_run ap_process (ap_init len) (ApSet (fz (Z.of_nat N)) :: map ApFrame xs) = Some l /\ length l = length xs /\
    forall n o, nth_error l n = Some o -> (0 < n)%nat -> same o (back32 xs n N).
Proof.
  intros len N xs HN HB Hx. destruct (set_whole (prec := 24) (emax := 128) len N HN HB) as (s & E & W & _). cbn [ap_run]. rewrite E. cbn [bind].
  destruct (whole_run len (N - 1) xs s [] ltac:(lia) W Hx) as (l & E2 & L & P). exists l. split; [exact E2 |]. split; [exact L |].
  intros n o Hn Hp. specialize (P n o Hn Hp). cbn [app length Nat.add] in P. replace (N - 1 + 1)%nat with N in P by lia. exact P.
Qed.
Print Assumptions C54_whole_partial.
Example whole_run3 : outs (ap_run ap_process (ap_init 4) (ApSet (fz 3) :: map ApFrame [fz 5; fz 6; fz 7; fz 8; fz 9; fz 10; fz 11])) =
  Some (map (fun o : f32 => B2SF o) [fone; fzero; fzero; fz 5; fz 6; fz 7; fz 8]).
Proof. vm_compute. reflexivity. Qed.

(** A delay of one frame becomes a delay of the whole line plus one: the reader reads the cell just before the writer overwrites it. *)
Theorem C54_one_refuted :
  outs (ap_run ap_process (ap_init 4) (ApSet (fz 1) :: map ApFrame [fz 5; fz 6; fz 7; fz 8; fz 9; fz 10; fz 11])) =
  Some (map (fun o : f32 => B2SF o) [fone; fzero; fzero; fzero; fzero; fz 5; fz 6]) /\
  ~ (forall len (xs : list f32), (2 <= len)%nat -> Forall bounded xs -> forall l n o, ap_run ap_process (ap_init len) (ApSet (fz 1) :: map ApFrame xs) = Some l ->
      nth_error l n = Some o -> (0 < n)%nat -> same o (back32 xs n 1)).
Proof.
  split; [vm_compute; reflexivity |]. intros H.
  assert (O : outs (ap_run ap_process (ap_init 4) (ApSet (fz 1) :: map ApFrame [fone; fone])) = Some (map (fun o : f32 => B2SF o) [fone; fzero])) by (vm_compute; reflexivity).
  destruct (ap_run ap_process (ap_init 4) (ApSet (fz 1) :: map ApFrame [fone; fone])) as [l |] eqn:E; [| discriminate O].
  destruct l as [| a [| b l]]; try discriminate O. unfold outs in O. cbn [option_map map] in O.
  assert (Eb : B2SF b = B2SF (fzero : f32)) by congruence. apply B2SF_inj in Eb. subst b.
  destruct (H 4%nat [fone; fone] ltac:(lia) (Forall_cons _ bounded_one (Forall_cons _ bounded_one (Forall_nil _))) _ 1%nat fzero E eq_refl ltac:(lia)) as [_ V].
  unfold DelaySpec.back in V. cbn [Nat.ltb Nat.leb Nat.sub nth] in V. rewrite val_fone in V. change (val (fzero : f32)) with 0 in V. lra.
Qed.
Print Assumptions C54_one_refuted.

(** A negative or undefined delay panics. *)
Theorem C42_negative_refuted : ap_set (fz (-1) : f32) (ap_init 8) = None /\ ap_set (fdiv fzero fzero : f32) (ap_init 8) = None.
Proof. split; vm_compute; reflexivity. Qed.
Print Assumptions C42_negative_refuted.
(** The parameter [delay_time] of [AllpassDelay] never panics for a delay that is not negative: a delay within the line is set, one
    as long as the line or longer is ignored. *)
Theorem C42_delay_time : forall prec emax (I : ieee prec emax) (x : binary_float prec emax) s, (a_w s < length (a_buf s))%nat -> fin x -> 0 <= val x ->
  (INR (length (a_buf s)) <= val x -> ap_delay_time x s = Some s) /\
  (within (length (a_buf s)) x -> exists s', ap_delay_time x s = Some s' /\ ap_set x s = Some s' /\ (a_r s' < length (a_buf s'))%nat).
Proof.
  intros prec emax I x s Hw Fx Px. destruct (trunc_le x Px) as (_ & T0 & T1). rewrite INR_IZR_INZ.
  assert (E : ap_delay_time x s = if (Btrunc x <? Z.of_nat (length (a_buf s)))%Z then ap_set x s else Some s) by (destruct x as [? | [] | | ]; try reflexivity; discriminate Fx).
  rewrite E. split; intros H.
  - replace (Btrunc x <? Z.of_nat (length (a_buf s)))%Z with false; [reflexivity |]. symmetry. apply Z.ltb_ge.
    assert (L : IZR (Z.of_nat (length (a_buf s))) < IZR (Btrunc x + 1)) by (rewrite plus_IZR; lra). apply lt_IZR in L. lia.
  - destruct (ap_set_ok x s H Hw) as (s' & E1 & E2 & _ & E3 & _). exists s'. rewrite E2.
    replace (Btrunc x <? Z.of_nat (length (a_buf s)))%Z with true; [split; [exact E1 | split; [exact E1 | exact E3]] |]. symmetry. apply Z.ltb_lt.
    destruct H as (_ & Hv & _). rewrite INR_IZR_INZ in Hv. apply lt_IZR. lra.
Qed.
Print Assumptions C42_delay_time.
(** A line of 8 frames: 7 frames are set, 8 are ignored and so is infinity *)
Definition reader (o : option (ap 24 128)) : option nat := option_map a_r o.
Example C42_delay_time_case : reader (ap_delay_time (fz 7) (ap_init 8)) = Some 2%nat /\ reader (ap_delay_time (fz 8) (ap_init 8)) = Some 0%nat /\
  reader (ap_delay_time (B754_infinity false) (ap_init 8)) = Some 0%nat.
Proof. repeat split; vm_compute; reflexivity. Qed.

(** Without the range check of [AllpassDelay::delay_time] (the feedback version has none) a delay longer than the line panics. *)
Theorem C54_too_long_refuted : ap_set (fz 10 : f32) (ap_init 8) = None.
Proof. vm_compute. reflexivity. Qed.
Print Assumptions C54_too_long_refuted.
