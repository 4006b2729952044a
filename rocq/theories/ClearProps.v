(** C42: what an allpass delay still knows after [clear]. *)
From Coq Require Import Reals Lra.
From Flocq Require Import Core BinarySingleNaN.
From Verif Require Import Base FloatBase FloatMore AllpassModel AllpassSpec AllpassProofs ClearModel ClearProofs.
Local Open Scope R_scope.

(** A delay of one and a half frames or more that is set and then cleared has forgotten everything it was fed: its output is the
    one of a delay of any length with any other history, in every precision and for every input.  Nothing panics, and
    frame [n] of the plain delay is exactly zero as long as [n + 2] does not exceed the delay. *)
Theorem C42_clear_forgets : forall prec emax (I : ieee prec emax) (x fb : binary_float prec emax) s1 s2 xs,
  (a_w s1 < length (a_buf s1))%nat -> (a_w s2 < length (a_buf s2))%nat ->
  within (length (a_buf s1)) x -> within (length (a_buf s2)) x -> 3 / 2 <= val x ->
  let ops := ApSet x :: ApClear :: map ApFrame xs in
  (exists l, ap_run ap_process s1 ops = Some l /\ ap_run ap_process s2 ops = Some l /\ length l = length xs /\
     forall n o, INR n + 2 <= val x -> nth_error l n = Some o -> o = fzero) /\
  (exists l, ap_run (fb_process fb) s1 ops = Some l /\ ap_run (fb_process fb) s2 ops = Some l).
Proof.
  intros prec emax I x fb s1 s2 xs H1 H2 W1 W2 Hx. cbn [ap_run].
  destruct (ap_set_ok x s1 W1 H1) as (t1 & E1 & _). destruct (ap_set_ok x s2 W2 H2) as (t2 & E2 & _). rewrite E1, E2. cbn [bind].
  pose proof (cleared_alike x s1 s2 t1 t2 E1 E2 H1 H2 Hx) as A. destruct (set_nf x s1 t1 E1 H1 Hx) as (_ & F & _). split.
  - destruct (alike_process _ _ xs A) as (E & l & El & Ll & Z). exists l. split; [exact El|]. split; [rewrite <- E; exact El|]. split; [exact Ll|].
    intros n o Hn Ho. apply (Z n o); [|exact Ho]. cbn. apply INR_lt. lra.
  - destruct (alike_feedback fb _ _ xs A) as (E & l & El). exists l. split; [exact El|rewrite <- E; exact El].
Qed.
Print Assumptions C42_clear_forgets.

Notation f32 := (binary_float 24 128).
Definition shown (r : option (list f32)) := option_map (map (fun o : f32 => B2SF o)) r.
(** Delays of 4 and 6 frames with different contents and positions, set to 3 frames and cleared: the same output, with
    the click of the interpolator (see C42_clear_refuted) and no trace of the contents. *)
Definition used1 : ap 24 128 := mk_ap [fz 5; fz 6; fz 7; fz 8] 3 1 2 0 fzero (fz 9) (fz 10).
Definition used2 : ap 24 128 := mk_ap [fz 15; fz 16; fz 17; fz 18; fz 19; fz 20] 1 4 3 1 fzero (fz 11) (fz 12).
Definition cleared_ops (x : f32) : list (ap_op 24 128) := ApSet x :: ApClear :: map ApFrame [fz 1; fz 2; fz 3; fz 4; fz 5].
Example C42_clear_forgets_case :
  shown (ap_run ap_process used1 (cleared_ops (fz 3))) = Some (map (fun o : f32 => B2SF o) [fzero; fzero; fone; fone; fz 2]) /\
  shown (ap_run ap_process used2 (cleared_ops (fz 3))) = shown (ap_run ap_process used1 (cleared_ops (fz 3))).
Proof. split; vm_compute; reflexivity. Qed.
(** A delay of one frame does not forget: the sample that lies under the writer (8 and 16) is heard after [clear]. *)
Theorem C42_clear_short_refuted :
  shown (ap_run ap_process used1 (cleared_ops (fz 1))) = Some (map (fun o : f32 => B2SF o) [fone; fz 8; fz 5; fz 6; fz 7]) /\
  shown (ap_run ap_process used2 (cleared_ops (fz 1))) <> shown (ap_run ap_process used1 (cleared_ops (fz 1))).
Proof. split; [vm_compute; reflexivity|]. vm_compute. intros H. discriminate H. Qed.
Print Assumptions C42_clear_short_refuted.

(** [set_delay_in_frames_and_clear] with one and a half frames or more forgets the contents of the line, its length and its
    positions, in every precision and for every input.
    Partial: the two samples in the interpolator and the number of samples left to clear survive, and the two delays
    are supposed to agree on them; refuted below without this. *)
Theorem C42_reset_partial : forall prec emax (I : ieee prec emax) (x fb : binary_float prec emax) s1 s2 xs,
  (a_w s1 < length (a_buf s1))%nat -> (a_w s2 < length (a_buf s2))%nat ->
  within (length (a_buf s1)) x -> within (length (a_buf s2)) x -> 3 / 2 <= val x ->
  a_pin s1 = a_pin s2 -> a_pout s1 = a_pout s2 -> a_clear s1 = a_clear s2 ->
  exists t1 t2, ap_reset x s1 = Some t1 /\ ap_reset x s2 = Some t2 /\
  (exists l, ap_run ap_process t1 (map ApFrame xs) = Some l /\ ap_run ap_process t2 (map ApFrame xs) = Some l /\ length l = length xs) /\
  (exists l, ap_run (fb_process fb) t1 (map ApFrame xs) = Some l /\ ap_run (fb_process fb) t2 (map ApFrame xs) = Some l).
Proof.
  intros prec emax I x fb s1 s2 xs H1 H2 W1 W2 Hx Ei Eo Ec.
  destruct (reset_alike x s1 s2 H1 H2 W1 W2 Hx Ei Eo Ec) as (t1 & t2 & E1 & E2 & A). exists t1, t2. split; [exact E1|]. split; [exact E2|]. split.
  - destruct (alike_process _ _ xs A) as (E & l & El & Ll & _). exists l. split; [exact El|]. split; [rewrite <- E; exact El|exact Ll].
  - destruct (alike_feedback fb _ _ xs A) as (E & l & El). exists l. split; [exact El|rewrite <- E; exact El].
Qed.
Print Assumptions C42_reset_partial.
(** Lines of 4 and 6 frames with different contents and the same interpolator *)
Definition used3 : ap 24 128 := mk_ap [fz 15; fz 16; fz 17; fz 18; fz 19; fz 20] 1 4 3 0 fzero (fz 9) (fz 10).
Definition reset_out (x : f32) (s : ap 24 128) (xs : list f32) := shown (s' <- ap_reset x s;; ap_run ap_process s' (map ApFrame xs)).
Example C42_reset_case : reset_out (fz 3) used1 [fz 1; fz 2; fz 3; fz 4; fz 5] = Some (map (fun o : f32 => B2SF o) [fz 9; fzero; fzero; fz 1; fz 2]) /\
  reset_out (fz 3) used3 [fz 1; fz 2; fz 3; fz 4; fz 5] = reset_out (fz 3) used1 [fz 1; fz 2; fz 3; fz 4; fz 5].
Proof. split; vm_compute; reflexivity. Qed.
(** Full statement (false): after [set_delay_in_frames_and_clear] silence gives silence.  The sample that was read last
    before the reset (7, fed to a new delay of two frames two frames earlier) is heard after it. *)
Theorem C42_reset_refuted :
  shown (s <- ap_set (fz 2) (ap_init 8);; a <- ap_process (fz 7) s;; b <- ap_process fzero (fst a);; r <- ap_reset (fz 2) (fst b);;
         ap_run ap_process r (map ApFrame [fzero; fzero; fzero])) = Some (map (fun o : f32 => B2SF o) [fz 7; fzero; fzero]).
Proof. vm_compute. reflexivity. Qed.
Print Assumptions C42_reset_refuted.

(** * C54 *)
(** Frame 0, which C54_whole_partial leaves out, is one for every whole delay of at least two frames, whatever the input
    and the precision: the imaginary input of the interpolator. *)
Theorem C54_first_frame_refuted : forall prec emax (I : ieee prec emax) len N (x : binary_float prec emax) xs l,
  (2 <= N <= len + 1)%nat -> (Z.of_nat N <= 2 ^ 24)%Z ->
  ap_run ap_process (ap_init len) (ApSet (fz (Z.of_nat N)) :: map ApFrame (x :: xs)) = Some l -> exists o l', l = o :: l' /\ same o fone.
Proof.
  intros prec emax I len N x xs l HN HB E. cbn [ap_run map] in E. destruct (set_whole (prec := prec) (emax := emax) len N HN HB) as (s & Es & W & Ep).
  rewrite Es in E. cbn [bind] in E. destruct (set_keeps _ _ _ Es) as (Eb & _ & Eo & _). cbn [ap_init a_buf a_pout] in Eb, Eo.
  destruct W as (_ & _ & _ & Ec & _ & Sc & _). unfold ap_process at 1, ap_read in E. rewrite Ec, Eb in E. cbn [Nat.ltb Nat.leb] in E.
  destruct (length (repeat fzero len) =? 0)%nat; [discriminate|].
  destruct (nth_error (repeat fzero len) (a_r s)) as [v|] eqn:Ev; [|discriminate]. cbn [bind fst snd] in E.
  apply nth_error_In, repeat_spec in Ev. subst v. rewrite Ep, Eo in E.
  match type of E with bind (bind ?a _) _ = _ => destruct a; [|discriminate] end. cbn [bind fst snd] in E.
  match type of E with bind ?a _ = _ => destruct a as [l'|]; [|discriminate] end. injection E as <-.
  eexists _, l'. split; [reflexivity|]. apply interp_whole; [exact Sc|apply bounded_one|apply bounded_one|apply bounded_zero].
Qed.
Print Assumptions C54_first_frame_refuted.
Example C54_first_frame_case : shown (ap_run ap_process (ap_init 4) (ApSet (fz 2) :: map ApFrame [fz 5; fz 6; fz 7])) =
  Some (map (fun o : f32 => B2SF o) [fone; fzero; fz 5]).
Proof. vm_compute. reflexivity. Qed.
