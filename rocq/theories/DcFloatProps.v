(** C82 with rounding *)
From Coq Require Import Reals Lra Psatz.
From Flocq Require Import Core BinarySingleNaN.
From Verif Require Import Base FloatBase OscModel DcModel DcSpec DcProofs PoleFloatProofs DcFloatProofs DcProps.
Local Open Scope R_scope.

Lemma any_format : forall {prec emax : Z} {I : ieee prec emax} (factor : binary_float prec emax) k ch mem, (0 <= k <= 100)%Z -> fin factor ->
  Rabs (val factor - 999 / 1000) <= bpow radix2 (- prec) -> (0 < ch)%nat -> Forall (fun x : binary_float prec emax => fin x /\ Rabs (val x) <= bpow radix2 k) mem ->
  exists out, remove_dc fzero factor fadd fsub fmul ch mem = Some out /\ length out = length mem /\ Forall fin out /\
    forall c n, in_buffer ch c n (map val mem) -> Rabs (channel ch c (map val out) n - without (channel ch c (map val mem)) n) <= 11000 * bpow radix2 (k - prec).
Proof.
  intros prec emax I factor k ch mem Hk Ff Vf H B.
  assert (S : besides k ch (repeat (fzero : binary_float prec emax) ch, repeat fzero ch) (repeat 0 ch, repeat 0 ch)).
  { unfold besides. cbn [fst snd]. rewrite !repeat_length. repeat (split; [reflexivity |]). intros c C. exists fzero, fzero, 0, 0.
    do 4 (split; [apply nth_error_repeat; exact C |]). pose proof (bpow_gt_0 radix2 k). pose proof (bpow_gt_0 radix2 (k - prec)).
    unfold beside, drift. rewrite val_fzero, !Rminus_0_r, !Rabs_R0. repeat split; lra. }
  destruct (dc_loops factor k Hk Ff Vf ch mem 0 _ _ H S B) as (o & o' & O & O' & A).
  destruct (remove_ok ch (map val mem) H) as (o2 & E & L & V). unfold remove_dc_exact, remove_dc in E. rewrite E in O'. injection O' as ->.
  assert (Lo : length o = length o') by (clear - A; induction A as [| ? ? ? ? ? ? IH]; [reflexivity | cbn; rewrite IH; reflexivity]).
  exists o. split; [exact O |]. split; [rewrite Lo, L, map_length; reflexivity |]. split; [clear - A; induction A as [| ? ? ? ? [? ?] ? IH]; constructor; assumption |].
  intros c n Hb. rewrite <- V by exact Hb. unfold channel. destruct Hb as [_ Hb]. rewrite <- L, <- Lo in Hb. clear - A Hb. revert Hb. generalize (n * ch + c)%nat as j.
  induction A as [| y y' o o' [_ Ey] A IH]; intros j Hj; [cbn in Hj; lia |]. destruct j as [| j]; [exact Ey |]. cbn [map nth]. apply IH. cbn in Hj. lia.
Qed.
(** In f32, for every number of channels and every buffer whose samples are at most 2^k: nothing panics, every sample is finite, and within
    11000 units of rounding of what C82_channels says. *)
Theorem C82_rounding_f32 : forall k ch (mem : list f32), (0 <= k <= 100)%Z -> (0 < ch)%nat -> Forall (fun x => fin x /\ Rabs (val x) <= bpow radix2 k) mem ->
  exists out, remove_dc_f32 ch mem = Some out /\ length out = length mem /\ Forall fin out /\
    forall c n, in_buffer ch c n (map val mem) -> Rabs (channel ch c (map val out) n - without (channel ch c (map val mem)) n) <= 11000 * bpow radix2 (k - 24).
Proof.
  intros k ch mem Hk H B. assert (E : to_f32 (fdiv (fz 999) (fz 1000)) = fze 16760439 (-24)) by (apply B2SF_inj; vm_compute; reflexivity).
  unfold remove_dc_f32. rewrite E. destruct (fze_ok (prec := 24) (emax := 128) 16760439 (-24)) as [A F].
  { apply fits with 0%Z; [lia |]. change (bpow radix2 0) with 1. change (bpow radix2 (-24)) with (/ 16777216). rewrite Rabs_pos_eq; lra. }
  apply any_format; try assumption. rewrite A, rnd_format; [| apply generic_format_FLT; exists (Float radix2 16760439 (-24)); [reflexivity | cbn; lia | cbn; lia]].
  change (bpow radix2 (-24)) with (/ 16777216). change (bpow radix2 (- (24))) with (/ 16777216). apply Rabs_le. lra.
Qed.
Print Assumptions C82_rounding_f32.
Theorem C82_rounding_f64 : forall k ch (mem : list f64), (0 <= k <= 100)%Z -> (0 < ch)%nat -> Forall (fun x => fin x /\ Rabs (val x) <= bpow radix2 k) mem ->
  exists out, remove_dc_f64 ch mem = Some out /\ length out = length mem /\ Forall fin out /\
    forall c n, in_buffer ch c n (map val mem) -> Rabs (channel ch c (map val out) n - without (channel ch c (map val mem)) n) <= 11000 * bpow radix2 (k - 53).
Proof.
  intros k ch mem Hk H B. assert (E : fdiv (fz 999) (fz 1000) = (fze 8998192055486251 (-53) : f64)) by (apply B2SF_inj; vm_compute; reflexivity).
  unfold remove_dc_f64. rewrite E. destruct (fze_ok (prec := 53) (emax := 1024) 8998192055486251 (-53)) as [A F].
  { apply fits with 0%Z; [lia |]. change (bpow radix2 0) with 1. change (bpow radix2 (-53)) with (/ 9007199254740992). rewrite Rabs_pos_eq; lra. }
  apply any_format; try assumption. rewrite A, rnd_format; [| apply generic_format_FLT; exists (Float radix2 8998192055486251 (-53)); [reflexivity | cbn; lia | cbn; lia]].
  change (bpow radix2 (-53)) with (/ 9007199254740992). change (bpow radix2 (- (53))) with (/ 9007199254740992). apply Rabs_le. lra.
Qed.
Print Assumptions C82_rounding_f64.
(** Two channels of two frames in f32 *)
Example C82_rounding_case : Forall (fun x : f32 => fin x /\ Rabs (val x) <= bpow radix2 3) [fz 1; fz 5; fz 1; fz 6] /\
  exists out, remove_dc_f32 2 [fz 1; fz 5; fz 1; fz 6] = Some out /\ length out = 4%nat /\ in_buffer 2 1 1 (map val [fz 1; fz 5; fz 1; fz 6 : f32]).
Proof.
  split; [| eexists; split; [reflexivity |]; split; [reflexivity | unfold in_buffer; rewrite map_length; cbn [length]; split; lia]].
  change (bpow radix2 3) with 8. assert (G : forall z, (Z.abs z <= 8)%Z -> fin (fz z : f32) /\ Rabs (val (fz z : f32)) <= 8).
  { intros z Hz. destruct (fz_small (prec := 24) (emax := 128) z ltac:(lia)) as [A F]. split; [exact F |]. rewrite A, <- abs_IZR. apply IZR_le. exact Hz. }
  do 4 (apply Forall_cons; [apply G; lia |]). apply Forall_nil.
Qed.
