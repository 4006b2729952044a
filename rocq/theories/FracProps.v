(** C64: a fractional delay delays by that fraction and changes no amplitude. *)
From Coq Require Import Reals Lra.
From Flocq Require Import BinarySingleNaN.
From Coquelicot Require Import Complex.
From Verif Require Import Base FloatBase AllpassModel SvfRespSpec FracModel FracSpec FracProofs.
Local Open Scope R_scope.

(** A delay of [x] frames, set at any moment: a straight line comes out [x] frames late.  Missing: delays below 3/2 frames. *)
Theorem C64_line_partial : forall s x a b, usable s -> 3 / 2 <= x < INR (length (l_buf s)) + 3 / 2 ->
  exists s', line_set Rfrac x s = Some s' /\
  approaches (line_process Rfrac) s' (fun n => ramp a b (INR n)) (fun n => ramp a b (INR n - x)).
Proof.
  intros s x a b U Hx. destruct (ramp_steady 0 s x a b U ltac:(lra) Hx) as (s' & E & A). exists s'. split; [exact E|].
  apply approaches_plain. replace (fun n => ramp a b (INR n - x)) with (fun n => ramp a b (INR n - (1 + 0) / (1 - 0) * x)); [exact A|].
  apply FunctionalExtensionality.functional_extensionality. intros n. f_equal. field.
Qed.
Print Assumptions C64_line_partial.
(** A sinusoid of any frequency keeps its amplitude. *)
Theorem C64_amplitude_partial : forall s x sr f, usable s -> 3 / 2 <= x < INR (length (l_buf s)) + 3 / 2 ->
  exists s' h, line_set Rfrac x s = Some s' /\ Cmod h = 1 /\ forall a phi,
  approaches (line_process Rfrac) s' (sinusoid sr f a phi) (filtered h sr f a phi).
Proof.
  intros s x sr f U Hx. destruct (line_set_ok x s U Hx) as (nf & delta & E & Hd & Hn & r & Hr & Hrel & Es).
  eexists. exists (fgain 0 (2 * PI * f / sr) delta nf). split; [exact Es|]. split; [apply fgain_mod; lra|].
  intros a phi. apply approaches_plain. apply sine_at; try assumption; lra.
Qed.
Print Assumptions C64_amplitude_partial.
(** With feedback below one the delay stays stable and is an all pass too: a sinusoid of any frequency keeps its amplitude, and a
    straight line comes out [(1 + fb) / (1 - fb)] times [x] frames late. *)
Theorem C64_feedback_partial : forall s fb x sr f, usable s -> -1 < fb < 1 -> 3 / 2 <= x < INR (length (l_buf s)) + 3 / 2 ->
  exists s' h, line_set Rfrac x s = Some s' /\ Cmod h = 1 /\
  (forall a phi, approaches (feedback_process Rfrac fb) s' (sinusoid sr f a phi) (filtered h sr f a phi)) /\
  (forall a b, approaches (feedback_process Rfrac fb) s' (fun n => ramp a b (INR n)) (fun n => ramp a b (INR n - (1 + fb) / (1 - fb) * x))).
Proof.
  intros s fb x sr f U Hfb Hx. destruct (line_set_ok x s U Hx) as (nf & delta & E & Hd & Hn & r & Hr & Hrel & Es).
  eexists. exists (fgain fb (2 * PI * f / sr) delta nf). split; [exact Es|]. split; [apply fgain_mod; lra|]. split.
  - intros a phi. apply sine_at; try assumption; lra.
  - intros a b. destruct (ramp_steady fb s x a b U Hfb Hx) as (s' & E' & A). rewrite Es in E'. injection E' as <-. exact A.
Qed.
Print Assumptions C64_feedback_partial.
(** A delay below 3/2 frames is too long by the length of the whole line. *)
Theorem C64_short_refuted : forall s x a b, usable s -> 0 < x < 3 / 2 ->
  exists s', line_set Rfrac x s = Some s' /\
  approaches (line_process Rfrac) s' (fun n => ramp a b (INR n)) (fun n => ramp a b (INR n - (INR (length (l_buf s)) + x))).
Proof. exact short_ramp. Qed.
Print Assumptions C64_short_refuted.

(** The same definitions with IEEE arithmetic are those of AllpassModel.v (C42, C54). *)
Example same_model : forall (fb x : binary_float 24 128) s, option_map to_ap2 (feedback_process ieee_ops fb x s) = fb_process fb x (to_ap s) /\
  option_map to_ap2 (line_process ieee_ops x s) = ap_process x (to_ap s) /\ option_map to_ap (line_set ieee_ops x s) = ap_set x (to_ap s).
Proof. intros. split; [apply same_feedback | split; [apply same_process | apply same_set]]. Qed.
(** A delay of two and a quarter frames in a line of eight, half way through a run *)
Example usable_example : let s := mk_line [1; 2; 3; 4; 5; 6; 7; 8] 5 2 3 2 (1 / 3) 1 1 in
  usable s /\ 3 / 2 <= 9 / 4 < INR (length (l_buf s)) + 3 / 2 /\
  exists delta, line_set Rfrac (9 / 4) s = Some (mk_line [1; 2; 3; 4; 5; 6; 7; 8] 5 4 1 2 ((1 - delta) / (1 + delta)) 1 1) /\ delta = 5 / 4.
Proof.
  split; [unfold usable; cbn; lia|]. split; [cbn [l_buf length INR]; lra|].
  destruct (line_set_ok (9 / 4) (mk_line [1; 2; 3; 4; 5; 6; 7; 8] 5 2 3 2 (1 / 3) 1 1)) as (nf & delta & E & Hd & Hn & r & Hr & Hrel & Es).
  - unfold usable; cbn; lia.
  - cbn [l_buf length INR]; lra.
  - assert (nf = 1)%nat.
    { destruct nf as [|[|nf]]; [lia|reflexivity|]. exfalso. rewrite !S_INR in E. pose proof (pos_INR nf). lra. }
    subst nf. cbn [INR] in E. cbn [l_w l_buf length] in Hrel. assert (r = 4)%nat by (cbn [l_buf length] in Hr; lia). subst r.
    exists delta. split; [exact Es | lra].
Qed.
