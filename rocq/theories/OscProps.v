(** C46: safety limiter; C47: wavetable phase; C50: phasor. *)
From Coq Require Import Reals Lra.
From Flocq Require Import Core BinarySingleNaN.
From Verif Require Import Base FloatBase FloatMore NoiseModel NoiseSpec NoiseProofs OscModel OscSpec OscProofs.
Local Open Scope R_scope.

(** * C46 *)
(** Every floating point number, infinities and NaN included, becomes a number in -1..1; numbers in that range are unchanged. *)
Theorem C46_limit_f32 : forall x : f32, (fin (limit x) /\ -1 <= val (limit x) <= 1) /\ (fin x -> -1 <= val x <= 1 -> limit x = x).
Proof. intros x. split; [apply limit_range |]. intros F V. apply limit_same. split; assumption. Qed.
Print Assumptions C46_limit_f32.
Theorem C46_limit_f64 : forall x : f64, (fin (limit x) /\ -1 <= val (limit x) <= 1) /\ (fin x -> -1 <= val x <= 1 -> limit x = x).
Proof. intros x. split; [apply limit_range |]. intros F V. apply limit_same. split; assumption. Qed.
Print Assumptions C46_limit_f64.
Example limit_example : map (fun x : f32 => B2SF (limit x)) [B754_nan; B754_infinity true; fz 7; fze (-1) (-2); fneg fzero] =
  map (fun x : f32 => B2SF x) [fzero; fneg fone; fone; fze (-1) (-2); fneg fzero].
Proof. vm_compute. reflexivity. Qed.

(** * C47 *)
(** The table entry that is looked up is that of the exact accumulated phase, however long the oscillator has been running and
    whatever the sequence of frequencies, offsets and resets, and it is always inside a table of full size. *)
Theorem C47_phase : forall freq sr ops, let mult := wt_mult sr in
  map integer_component (wt_run (sinwt_init freq sr) ops) = map entry (exact_run mult (mk_exact 0 0 (as_u32 (fmul freq mult))) ops).
Proof. intros freq sr ops mult. apply (wt_follows ops (sinwt_init freq sr)). split; [reflexivity |]. split; reflexivity. Qed.
Print Assumptions C47_phase.
Theorem C47_in_table : forall V (table : list V) s ops p, N.of_nat (length table) = table_size -> In p (wt_run s ops) -> exists v, table_get table p = Some v.
Proof.
  intros V table s ops p L _. unfold table_get. rewrite integer_ok. destruct (nth_error table (N.to_nat (entry p))) as [v |] eqn:E; [exists v; reflexivity |].
  apply nth_error_None in E. pose proof (entry_bound p). unfold table_size in L. lia.
Qed.
Print Assumptions C47_in_table.
(** With a constant frequency and no offset: the entry after [n] samples is the whole part of [n] increments, modulo the table. *)
Theorem C47_constant : forall freq sr n, let inc := as_u32 (fmul freq (wt_mult sr)) in
  nth_error (map integer_component (wt_run (sinwt_init freq sr) (repeat WSample (S n)))) n = Some (((N.of_nat n * inc) / 65536) mod 16384)%N.
Proof.
  intros freq sr n inc. rewrite C47_phase. fold inc.
  assert (G : forall k m t, (k < m)%nat -> nth_error (map entry (exact_run (wt_mult sr) (mk_exact t 0 inc) (repeat WSample m))) k = Some (entry (t + N.of_nat k * inc))).
  { induction k as [| k IH]; intros [| m] t L; try lia; cbn [repeat exact_run exact_step fst snd x_total x_offset x_inc app map nth_error].
    - do 2 f_equal; try lia.
    - rewrite IH by lia. do 2 f_equal; try lia. }
  rewrite G by lia. reflexivity.
Qed.
Print Assumptions C47_constant.
(** One of the partial tables is always chosen. *)
Theorem C47_table_choice : forall V (tables : list V) f, length tables = num_tables -> exists t, table_of tables f = Some t.
Proof.
  intros V tables f L. unfold table_of. assert (E : num_tables = 17%nat) by (vm_compute; reflexivity). rewrite E in L.
  pose proof (index_bound limits f) as B. fold (freq_to_table_index f) in B. change (length limits) with 16%nat in B.
  destruct (nth_error tables (Nat.min (freq_to_table_index f) (length tables))) as [t |] eqn:N; [exists t; reflexivity |]. apply nth_error_None in N. lia.
Qed.
Print Assumptions C47_table_choice.
(* 12000 Hz at 48 kHz: a quarter of the table per sample *)
Example wt_example : map integer_component (wt_run (sinwt_init (fz 12000) (fz 48000)) [WSample; WSample; WSample; WSample; WSample]) = [0; 4096; 8192; 12288; 0]%N.
Proof. vm_compute. reflexivity. Qed.
(** A phase offset of half a period does not move the lookup at all; half a period is 8192 entries. *)
Theorem C47_offset_refuted : map integer_component (wt_run (sinwt_init (fz 12000) (fz 48000)) [WOffset (fze 1 (-1)); WSample; WSample]) = [0; 4096]%N /\
  entry (2 ^ 30 / 2) = 8192%N.
Proof. vm_compute. split; reflexivity. Qed.
Print Assumptions C47_offset_refuted.
(** No offset from 0 to 1 moves it by more than one entry of the 16384. *)
Theorem C47_offset_bound_partial : forall x : f64, fin x -> 0 <= val x <= 1 -> (as_u32 (fmul x (fz fractional_part)) <= 65536)%N.
Proof.
  intros x Fx Vx. destruct (fz_small (prec := 53) (emax := 1024) fractional_part) as [V F]; [unfold fractional_part; lia |].
  assert (Q : 0 <= val x * 65536 <= 65536) by lra.
  assert (R6 : @rnd 53 1024 65536 = 65536) by (apply (rnd_int 65536); lia).
  destruct (fmul_ok x (fz fractional_part) Fx F) as [A B].
  { rewrite V. apply fits with 16%Z; [lia |]. rewrite Rabs_pos_eq; [change (bpow radix2 16) with 65536 |]; apply Q. }
  assert (K : 0 <= val (fmul x (fz fractional_part)) <= 65536).
  { rewrite A, V. apply rnd_between; [apply rnd_0 | exact R6 | exact Q]. }
  destruct (AllpassProofs.trunc_le (fmul x (fz fractional_part)) (proj1 K)) as (_ & T0 & T1).
  assert (T : (Btrunc (fmul x (fz fractional_part)) <= 65536)%Z) by (apply le_IZR; lra).
  assert (G : (Z.to_N (Z.min (Btrunc (fmul x (fz fractional_part))) (Z.of_N M32 - 1)) <= 65536)%N) by (clear - T; lia).
  unfold as_u32. destruct (fmul x (fz fractional_part)) as [s | s | | s m e b]; try (exfalso; unfold fin in B; discriminate B); exact G.
Qed.
Print Assumptions C47_offset_bound_partial.
(** A negative frequency stops the oscillator. *)
Theorem C47_negative_refuted : map integer_component (wt_run (sinwt_init (fz (-12000)) (fz 48000)) [WSample; WSample; WSample]) = [0; 0; 0]%N.
Proof. vm_compute. reflexivity. Qed.
Print Assumptions C47_negative_refuted.
(** [set_from_buffer] accepts a table that is too short, and then the unchecked lookup reads outside it. *)
Theorem C47_short_table_refuted : exists (table : list nat) p, set_from_buffer table = Some table /\
  In p (wt_run (sinwt_init (fz 12000) (fz 48000)) [WSample; WSample]) /\ table_get table p = None.
Proof. exists [1; 2; 3]%nat, (4096 * 65536)%N. vm_compute. split; [reflexivity |]. split; [right; left; reflexivity | reflexivity]. Qed.
Print Assumptions C47_short_table_refuted.

(** * C50 *)
(** From a fresh, initialised phasor: as long as every step is zero or more and at most [n] (at most 2^52) periods per sample, each
    sample is produced with at most [n+1] turns of the loop and lies in 0..1, 1 excluded. Partial: not for negative, larger or
    undefined steps (refuted below), and before the conversion of the output. *)
Theorem C50_range_partial : forall n freq sr ops, let s := phasor_init sr (phasor_new freq) in
  step_ok (INR n) (ph_step s) -> INR n <= bpow radix2 52 -> Forall (ph_op_ok (INR n) s) ops ->
  exists l, phasor_run (S n) s ops = Some l /\ Forall (fun o => fin o /\ 0 <= val o < 1) l.
Proof.
  intros n freq sr ops s Hs Hn Ho. apply phasor_run_ok; try assumption. split; [reflexivity |].
  change (ph_phase s) with (fzero : f64). rewrite (val_fzero (prec := 53) (emax := 1024)). lra.
Qed.
Print Assumptions C50_range_partial.
(** The loop computes the fractional part exactly. *)
Theorem C50_wrap_partial : forall n (x : f64), fin x -> 0 <= val x < bpow radix2 53 -> val x < INR (S n) ->
  exists y, wrap n x = Some y /\ fin y /\ 0 <= val y < 1 /\ exists k, val x = val y + IZR k.
Proof. exact wrap_ok. Qed.
Print Assumptions C50_wrap_partial.
(** Converted to f32 the output stays in 0..1, now including 1. *)
Theorem C50_f32_partial : forall x : f64, fin x -> 0 <= val x < 1 -> fin (to_f32 x) /\ 0 <= val (to_f32 x) <= 1.
Proof. intros x F V. destruct (to_f32_ok x F ltac:(lra)) as (A & _ & B). split; assumption. Qed.
Print Assumptions C50_f32_partial.
Definition bits (r : option (list f64)) := option_map (map (fun o : f64 => B2SF o)) r.
Example phasor_example : let s := phasor_init (fz 4) (phasor_new (fz 3)) in
  bits (phasor_run 2 s [PFrame; PFrame; PFrame; PFreq (fz 1); PFrame; PFrame]) = Some (map (fun o : f64 => B2SF o) [fzero; fze 3 (-2); fze 1 (-1); fze 1 (-2); fze 1 (-1)]).
Proof. vm_compute. reflexivity. Qed.
Example phasor_example_ok : let s := phasor_init (fz 4) (phasor_new (fz 3)) in step_ok (INR 1) (ph_step s) /\ INR 1 <= bpow radix2 52.
Proof.
  assert (E : B2SF (ph_step (phasor_init (fz 4) (phasor_new (fz 3)))) = B2SF (fze 3 (-2) : f64)) by (vm_compute; reflexivity). apply B2SF_inj in E.
  assert (Rn : @rnd 53 1024 (IZR 3 * bpow radix2 (-2)) = IZR 3 * bpow radix2 (-2)) by (apply rnd_grid; lia).
  destruct (fze_ok (prec := 53) (emax := 1024) 3 (-2)) as [A B]; [rewrite Rn; apply below_top with (2 + -2)%Z; [lia |]; apply grid_size; lia |].
  cbv zeta. rewrite E. split; [split; [exact B |]; rewrite A, Rn; cbn; lra |]. cbn [INR]. change 1 with (bpow radix2 0). apply bpow_le. lia.
Qed.
(** In f32 the phasor does output 1. *)
Theorem C50_one_refuted : let s := phasor_init fone (phasor_new (fze (2 ^ 30 - 1) (-30))) in
  option_map (map (fun o : f64 => B2SF (to_f32 o))) (phasor_run 2 s [PFrame; PFrame]) = Some (map (fun o : f32 => B2SF o) [fzero; fone]).
Proof. vm_compute. reflexivity. Qed.
Print Assumptions C50_one_refuted.
(** With a negative frequency the output is not in 0..1 and runs away. *)
Theorem C50_negative_refuted : let s := phasor_init (fz 4) (phasor_new (fz (-3))) in
  bits (phasor_run 2 s [PFrame; PFrame; PFrame; PFrame]) = Some (map (fun o : f64 => B2SF o) [fzero; fze (-3) (-2); fze (-3) (-1); fze (-9) (-2)]).
Proof. vm_compute. reflexivity. Qed.
Print Assumptions C50_negative_refuted.
(** With a step of 2^60 or infinity the loop never ends, whatever the number of turns. *)
Lemma stuck : forall x : f64, fleb fone x = true -> B2SF (fsub x fone) = B2SF x -> forall n, wrap n x = None.
Proof. intros x C E. apply B2SF_inj in E. induction n as [| n IH]; cbn [wrap]; rewrite C; [reflexivity | rewrite E; exact IH]. Qed.
Theorem C50_hang_refuted : forall n, phasor_step n (phasor_init fone (phasor_new (fze 1 60))) = None /\ phasor_step n (phasor_init fone (phasor_new (B754_infinity false))) = None.
Proof.
  intros n. unfold phasor_step. split.
  - rewrite stuck; [reflexivity | vm_compute; reflexivity | vm_compute; reflexivity].
  - rewrite stuck; [reflexivity | vm_compute; reflexivity | vm_compute; reflexivity].
Qed.
Print Assumptions C50_hang_refuted.
