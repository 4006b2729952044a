(** Interpolated wavetable reads (C81). *)
From Coq Require Import Reals Lra.
From Flocq Require Import Core BinarySingleNaN.
From Verif Require Import Base FloatBase OscModel WaveModel LerpModel LerpSpec LerpProofs.
Local Open Scope R_scope.

(** C81: a read of a table of full length with samples in -1..1 never fails, for any phase. In f32, f64 and every larger format its result
    is a number in -1..1, and it is on the line through the neighbouring samples except for a 65536th of their difference and 2^-22. *)
Theorem C81_line_partial : forall prec emax (I : ieee prec emax) (t : list (binary_float prec emax)) p, playable t ->
  exists y, table_read t p = Some y /\ fin y /\ Rabs (val y) <= 1 /\ Rabs (val y - on_line t p) <= Rabs (after t p - before t p) / 65536 + / 4194304.
Proof. intros. apply read_line. assumption. Qed.
Print Assumptions C81_line_partial.

(** C81: a phase that is a sample reads exactly that sample; so does every phase between two equal samples *)
Theorem C81_samples : forall prec emax (I : ieee prec emax) (t : list (binary_float prec emax)) p y, playable t ->
  (p mod 65536 = 0)%N \/ before t p = after t p -> table_read t p = Some y -> val y = before t p.
Proof. intros. eapply read_start; eassumption. Qed.
Print Assumptions C81_samples.

(** C81: no jumps. Two neighbouring phases, also across samples, across the end of the table and where the u32 phase starts again,
    differ by at most three 65536ths of the difference of the samples around the first, and 2^-21. *)
Theorem C81_no_jump : forall prec emax (I : ieee prec emax) (t : list (binary_float prec emax)) p y y', playable t ->
  table_read t p = Some y -> table_read t (wadd p 1) = Some y' -> Rabs (val y' - val y) <= 3 * Rabs (after t p - before t p) / 65536 + / 2097152.
Proof. intros prec emax I t p y y' H E E'. rewrite wraps in E'. eapply no_jump; eassumption. Qed.
Print Assumptions C81_no_jump.

(** C81: the read of a set of tables is the read of one of them *)
Theorem C81_set : forall prec emax (I : ieee prec emax) (ts : list (list (binary_float prec emax))) p freq, length ts = num_tables -> Forall playable ts ->
  exists t y, In t ts /\ tables_read ts p freq = Some y /\ table_read t p = Some y /\ fin y /\ Rabs (val y) <= 1.
Proof.
  intros prec emax I ts p freq L F. unfold tables_read, table_of. rewrite L.
  assert (B : forall f, (freq_to_table_index f < num_tables)%nat).
  { intros f. change num_tables with 17%nat. assert (G : forall ls, (table_index_in ls f <= length ls)%nat).
    { induction ls as [| l ls IH]; cbn [table_index_in length]; [lia |]. destruct (fleb f l); lia. }
    specialize (G limits). change (length limits) with 16%nat in G. unfold freq_to_table_index. lia. }
  specialize (B freq). rewrite Nat.min_l by lia.
  destruct (nth_error ts (freq_to_table_index freq)) as [t |] eqn:E; [| apply nth_error_None in E; lia].
  assert (T : In t ts) by (eapply nth_error_In; exact E). rewrite Forall_forall in F.
  destruct (read_line t p (F t T)) as (y & Ey & Fy & Yb & _). exists t, y. cbn [bind]. auto.
Qed.
Print Assumptions C81_set.

(** ** A table *)
Lemma one_after : ((0 + 1) mod period = 1)%nat.
Proof. apply Nat.mod_small. unfold period. lia. Qed.
(** -1, then a small number, then silence *)
Definition slope (x : f32) : list f32 := fneg fone :: x :: repeat fzero (N.to_nat 16382).
Lemma slope_playable : forall x, fin x -> Rabs (val x) <= 1 -> playable (slope x).
Proof.
  intros x F V. split.
  - unfold slope, period. cbn [length]. rewrite repeat_length. lia.
  - constructor; [split; [reflexivity |]; rewrite val_fneg, val_fone, Rabs_Ropp, Rabs_R1; lra |]. constructor; [split; assumption |].
    apply Forall_forall. intros y Hy. apply repeat_spec in Hy. subst y. split; [reflexivity |]. rewrite val_fzero, Rabs_R0. lra.
Qed.
Definition tiny : f32 := fze 3 (-25).
Lemma tiny_ok : fin tiny /\ val tiny = 3 / 33554432.
Proof.
  assert (E : @rnd 24 128 (IZR 3 * bpow radix2 (-25)) = 3 / 33554432).
  { rewrite rnd_format; [change (bpow radix2 (-25)) with (/ 33554432); lra |]. apply (generic_format_FLT radix2 (SpecFloat.emin 24 128) 24).
    exists (Float radix2 3 (-25)); [reflexivity | cbn; lia | vm_compute; discriminate]. }
  destruct (fze_ok (prec := 24) (emax := 128) 3 (-25)) as [V F]; [rewrite E; apply below_top with 0%Z; [lia |]; change (bpow radix2 0) with 1; rewrite Rabs_pos_eq; lra |].
  split; [exact F |]. rewrite <- E. exact V.
Qed.
Example C81_line_case : playable (slope tiny) /\ before (slope tiny) 32768 = -1 /\ on_line (slope tiny) 32768 = (-1 + 3 / 33554432) / 2.
Proof.
  destruct tiny_ok as [F V]. split; [apply slope_playable; [exact F | rewrite V, Rabs_pos_eq; lra] |].
  assert (A : before (slope tiny) 32768 = -1) by (unfold before; change (whole 32768) with 0%nat; cbn [slope nth]; rewrite val_fneg, val_fone; reflexivity).
  assert (B : after (slope tiny) 32768 = 3 / 33554432) by (unfold after; change (whole 32768) with 0%nat; rewrite one_after; cbn [slope nth]; exact V).
  split; [exact A |]. unfold on_line. rewrite A, B. replace (part 32768) with (1 / 2); [lra |]. unfold part. change (IZR (Z.of_N (32768 mod 65536))) with 32768. lra.
Qed.

(** C81, the line itself: refuted. The fraction of a phase is divided by 65535 instead of 65536, so the next sample is reached one
    step early: between a sample that is 0 and one that is not, the last phase gives the next sample, and the one after it the same again. *)
Theorem C81_early_refuted : forall prec emax (I : ieee prec emax) (t : list (binary_float prec emax)) p y, playable t -> (p mod 65536 = 65535)%N -> before t p = 0 -> after t p <> 0 ->
  table_read t p = Some y -> val y = after t p /\ val y <> on_line t p.
Proof.
  intros prec emax I t p y H M B A E. rewrite (read_last t p y H M B E). split; [reflexivity |]. unfold on_line. rewrite B. unfold part. rewrite M.
  change (IZR (Z.of_N 65535)) with 65535. lra.
Qed.
Print Assumptions C81_early_refuted.
Definition step_up : list f32 := fzero :: fone :: repeat fzero (N.to_nat 16382).
Example C81_early_case : playable step_up /\ before step_up 65535 = 0 /\ after step_up 65535 = 1.
Proof.
  split; [| split].
  - split; [unfold step_up, period; cbn [length]; rewrite repeat_length; lia |].
    constructor; [split; [reflexivity |]; rewrite val_fzero, Rabs_R0; lra |]. constructor; [split; [reflexivity |]; rewrite val_fone, Rabs_R1; lra |].
    apply Forall_forall. intros y Hy. apply repeat_spec in Hy. subst y. split; [reflexivity |]. rewrite val_fzero, Rabs_R0. lra.
  - unfold before. change (whole 65535) with 0%nat. reflexivity.
  - unfold after. change (whole 65535) with 0%nat; rewrite one_after. cbn [step_up nth]. apply val_fone.
Qed.

(** C81, between the neighbouring samples: refuted. The difference is rounded before it is added: between -1 and 3 * 2^-25 a read gives 2^-23,
    more than both. *)
Theorem C81_between_refuted : playable (slope tiny) /\ exists y, table_read (slope tiny) 65535 = Some y /\
  before (slope tiny) 65535 < after (slope tiny) 65535 /\ after (slope tiny) 65535 < val y.
Proof.
  destruct tiny_ok as [F V]. assert (P : playable (slope tiny)) by (apply slope_playable; [exact F | rewrite V, Rabs_pos_eq; lra]). split; [exact P |].
  exists (lerp (nth (whole 65535) (slope tiny) fzero) (nth ((whole 65535 + 1) mod period) (slope tiny) fzero) (wide (fraction_f32 65535))). split; [apply read_lerp; exact P |].
  assert (A : before (slope tiny) 65535 = -1) by (unfold before; change (whole 65535) with 0%nat; cbn [slope nth]; rewrite val_fneg, val_fone; reflexivity).
  assert (B : after (slope tiny) 65535 = 3 / 33554432) by (unfold after; change (whole 65535) with 0%nat; rewrite one_after; cbn [slope nth]; exact V).
  split; [rewrite A, B; lra |]. unfold after. change (whole 65535) with 0%nat. rewrite one_after. cbn [slope nth].
  apply fltb_true; [exact F | vm_compute; reflexivity | vm_compute; reflexivity].
Qed.
Print Assumptions C81_between_refuted.

(** C81, every table that can be built: refuted. A table filled from a shorter buffer panics for the phases behind its end. *)
Theorem C81_short_refuted : option_map (@val 24 128) (table_read [fone; fone : f32] 0) <> None /\ table_read [fone; fone : f32] 131072 = None.
Proof. split; [vm_compute; discriminate | vm_compute; reflexivity]. Qed.
Print Assumptions C81_short_refuted.
