(** C64: an allpass delay whose delay was never set; C40, C42: delays without a line. *)
From Coq Require Import Reals Lra.
From Flocq Require Import Core BinarySingleNaN.
From Verif Require Import Base FloatBase AllpassModel DelayModel FracModel FracSpec FracProofs ClearProofs.
Local Open Scope R_scope.

(** after [n] frames of [x]: reader and writer are at the same place, and the line holds the last [len] inputs *)
Definition unset (len : nat) (x : nat -> R) (n : nat) (s : line R) : Prop :=
  length (l_buf s) = len /\ l_w s = (n mod len)%nat /\ l_r s = (n mod len)%nat /\ l_clear s = 0%nat /\ l_coeff s = 1 /\ l_pin s = l_pout s /\
  forall j, (j < len)%nat -> nth_error (l_buf s) ((n + j) mod len) = Some (if (n + j <? len)%nat then 0 else x (n + j - len)%nat).
Lemma unset_step len x n s : (0 < len)%nat -> unset len x n s ->
  exists s', line_process Rfrac (x n) s = Some (s', if (n <? len)%nat then 0 else x (n - len)%nat) /\ unset len x (S n) s'.
Proof.
  intros Hl (Hb & Hw & Hr & Hc & Hq & Hp & Hj). unfold line_process, line_read. rewrite Hb, Hc, Hr.
  replace (len =? 0)%nat with false by (symmetry; apply Nat.eqb_neq; lia). cbn [Nat.ltb Nat.leb].
  pose proof (Hj 0%nat Hl) as H0. rewrite Nat.add_0_r in H0. rewrite H0. cbn [bind fst snd]. set (v := if (n <? len)%nat then 0 else x (n - len)%nat) in *.
  unfold line_write. cbn [l_buf l_w l_r l_nf l_clear l_coeff l_pin l_pout]. rewrite Hw.
  destruct (set_nth_some (l_buf s) (n mod len) (x n)) as (b & Eb); [rewrite Hb; apply Nat.mod_upper_bound; lia|]. rewrite Eb. cbn [bind fst snd].
  assert (Ho : interp Rfrac (l_coeff s) (l_pin s) (l_pout s) v = v) by (unfold interp; cbn; rewrite Hq, Hp; ring). rewrite Ho.
  eexists. split; [reflexivity|]. pose proof (set_nth_length _ _ _ _ Eb) as Lb. rewrite Hb in Lb.
  unfold unset. cbn [l_buf l_w l_r l_nf l_clear l_coeff l_pin l_pout]. rewrite Lb.
  assert (M : ((n mod len + 1) mod len = S n mod len)%nat) by (rewrite Nat.add_mod_idemp_l by lia; f_equal; lia).
  split; [reflexivity|]. split; [exact M|]. split; [exact M|]. split; [reflexivity|]. split; [exact Hq|]. split; [reflexivity|].
  intros j Hjl. rewrite (nth_error_put _ _ _ _ _ Eb). destruct (Nat.eq_dec (S j) len) as [E|E].
  - replace (S n + j)%nat with (n + 1 * len)%nat by lia. rewrite Nat.mod_add by lia. rewrite Nat.eqb_refl.
    replace (n + 1 * len <? len)%nat with false by (symmetry; apply Nat.ltb_ge; lia). f_equal. f_equal. lia.
  - replace (S n + j)%nat with (n + S j)%nat by lia. pose proof (mod_apart n 0 (S j) len ltac:(lia) ltac:(lia)) as A. rewrite Nat.add_0_r in A.
    replace ((n + S j) mod len =? n mod len)%nat with false by (symmetry; apply Nat.eqb_neq; congruence). apply Hj. lia.
Qed.
Lemma unset_after len x n : (0 < len)%nat -> exists s, line_after (line_process Rfrac) (line_init Rfrac len) x n = Some s /\ unset len x n s.
Proof.
  intros Hl. induction n as [|n (s & E & H)].
  - eexists. split; [reflexivity|]. unfold unset, line_init. cbn [l_buf l_w l_r l_nf l_clear l_coeff l_pin l_pout]. rewrite repeat_length.
    rewrite (Nat.mod_0_l len) by lia. repeat (split; [reflexivity|]). intros j Hj. rewrite Nat.add_0_l, Nat.mod_small by exact Hj.
    replace (j <? len)%nat with true by (symmetry; apply Nat.ltb_lt; exact Hj).
    destruct (nth_error (repeat (q_zero Rfrac) len) j) as [v|] eqn:Ev; [apply nth_error_In, repeat_spec in Ev; rewrite Ev; reflexivity|].
    apply nth_error_None in Ev. rewrite repeat_length in Ev. lia.
  - destruct (unset_step len x n s Hl H) as (s' & Es & H'). exists s'. split; [|exact H']. cbn [line_after]. rewrite E. cbn [bind]. rewrite Es. reflexivity.
Qed.
(** A fresh allpass delay whose delay is never set delays by the whole line, from the first frame on, in exact arithmetic
    and for every input. *)
Theorem C64_unset : forall len x n, (0 < len)%nat ->
  line_output (line_process Rfrac) (line_init Rfrac len) x n = Some (if (n <? len)%nat then 0 else x (n - len)%nat).
Proof.
  intros len x n Hl. destruct (unset_after len x n Hl) as (s & E & H). destruct (unset_step len x n s Hl H) as (s' & Es & _).
  unfold line_output. rewrite E. cbn [bind]. rewrite Es. reflexivity.
Qed.
Print Assumptions C64_unset.
Example C64_unset_case : line_output (line_process Rfrac) (line_init Rfrac 3) INR 7 = Some (INR 4).
Proof. apply C64_unset. lia. Qed.
(** In f32 it does not: after a loud sample (2^25) the next one (1) is lost, and silence comes out as 1 and then -1. *)
Notation f32 := (binary_float 24 128).
Theorem C64_unset_rounding_refuted :
  option_map (map (fun o : f32 => B2SF o)) (ap_run ap_process (ap_init 1) (map ApFrame [fz 33554432; fz 1; fz 0; fz 0; fz 0])) =
  Some (map (fun o : f32 => B2SF o) [fzero; fz 33554432; fz 0; fz 1; fz (-1)]).
Proof. vm_compute. reflexivity. Qed.
Print Assumptions C64_unset_rounding_refuted.

(** A line that is shorter than one sample is empty, and its first frame panics. *)
Theorem C42_empty_refuted : forall prec emax (I : ieee prec emax) (x fb : binary_float prec emax),
  ap_process x (ap_init 0) = None /\ fb_process fb x (ap_init 0) = None.
Proof. intros. split; reflexivity. Qed.
Print Assumptions C42_empty_refuted.
Theorem C40_empty_refuted : forall (V : Type) (zero x : V), sd_run (sd_init V zero 0) [SdFrame x] = None.
Proof. reflexivity. Qed.
Print Assumptions C40_empty_refuted.
