(** C54: whole delays of a cleared allpass delay, from any state. *)
From Coq Require Import Reals Lra.
From Flocq Require Import Core BinarySingleNaN.
From Verif Require Import Base FloatBase FloatMore AllpassModel AllpassSpec DelaySpec DelayProofs AllpassProofs ClearProofs ClearProps.
Local Open Scope R_scope.

Section Whole.
Context {prec emax : Z} {I : ieee prec emax}.
Notation fl := (binary_float prec emax).
Notation ap := (ap prec emax).
Notation back := (DelaySpec.back fl fzero).
(** after the inputs [xs] of a cleared delay: what is written is in the ring, the interpolator is fresh *)
Definition waiting (len nf : nat) (s : ap) (xs : list fl) : Prop :=
  length (a_buf s) = len /\ a_w s = (length xs mod len)%nat /\ a_r s = ((length xs + (len - nf)) mod len)%nat /\ a_clear s = (nf - length xs)%nat /\
  ring fzero len 0 (fun _ => fzero) (a_buf s) xs /\ silent (a_coeff s) /\ a_pin s = fone /\ a_pout s = fone /\ Forall bounded xs.
Lemma waiting_step len nf s xs x : (1 <= nf <= len)%nat -> waiting len nf s xs -> bounded x -> (length xs < nf)%nat ->
  exists s', ap_process x s = Some (s', fzero) /\ waiting len nf s' (xs ++ [x]).
Proof.
  intros Hn (W1 & W2 & W3 & W4 & W5 & W6 & W7 & W8 & W9) Hx Hl. unfold ap_process, ap_read. rewrite W1.
  replace (len =? 0)%nat with false by (symmetry; apply Nat.eqb_neq; lia).
  replace (0 <? a_clear s)%nat with true by (symmetry; apply Nat.ltb_lt; lia). cbn [bind fst snd].
  unfold ap_write. cbn [a_buf a_w a_r a_nf a_clear a_coeff a_pin a_pout]. pose proof (Nat.mod_upper_bound (length xs) len ltac:(lia)) as Bw.
  destruct (set_nth_some (a_buf s) (a_w s) x) as [buf' E]; [lia|]. rewrite E. cbn [bind]. pose proof (set_nth_length _ _ _ _ E) as Lb.
  eexists. split; [reflexivity|]. unfold waiting. cbn [a_buf a_w a_r a_nf a_clear a_coeff a_pin a_pout]. rewrite app_length. cbn [length].
  split; [lia|]. split; [rewrite Lb, W1, W2, Nat.add_mod_idemp_l by lia; reflexivity|].
  split; [rewrite W3, Nat.add_mod_idemp_l by lia; f_equal; lia|]. split; [lia|].
  split; [rewrite W2 in E; apply (ring_write fzero len 0 _ _ _ _ _ ltac:(lia) W5 E)|].
  do 3 (split; [assumption|]). apply Forall_app; split; [exact W9|constructor; [exact Hx|constructor]].
Qed.
(** the first frame that is read *)
Lemma waiting_end len nf s xs x : (1 <= nf <= len)%nat -> waiting len nf s xs -> bounded x -> length xs = nf ->
  exists s' o, ap_process x s = Some (s', o) /\ whole len nf s' (xs ++ [x]) /\ same o fone.
Proof.
  intros Hn (W1 & W2 & W3 & W4 & W5 & W6 & W7 & W8 & W9) Hx Hl. unfold ap_process, ap_read. rewrite W1.
  replace (len =? 0)%nat with false by (symmetry; apply Nat.eqb_neq; lia).
  replace (0 <? a_clear s)%nat with false by (symmetry; apply Nat.ltb_ge; lia).
  assert (R : nth_error (a_buf s) (a_r s) = Some (back xs (length xs) nf)).
  { rewrite W3. destruct W5 as [_ R]. specialize (R nf Hn). replace (0 + length xs + len - nf)%nat with (length xs + (len - nf))%nat in R by lia. exact R. }
  rewrite R. cbn [bind fst snd]. set (y := back xs (length xs) nf).
  assert (By : bounded y) by (apply bounded_back; exact W9).
  assert (B1 : bounded (a_pin s)) by (rewrite W7; apply bounded_one). assert (B2 : bounded (a_pout s)) by (rewrite W8; apply bounded_one).
  assert (So := interp_whole (a_coeff s) (a_pin s) (a_pout s) y W6 B1 B2 By).
  unfold ap_write. cbn [a_buf a_w a_r a_nf a_clear a_coeff a_pin a_pout]. pose proof (Nat.mod_upper_bound (length xs) len ltac:(lia)) as Bw.
  destruct (set_nth_some (a_buf s) (a_w s) x) as [buf' E]; [lia|]. rewrite E. cbn [bind]. pose proof (set_nth_length _ _ _ _ E) as Lb.
  eexists _, _. split; [reflexivity|]. split; [|rewrite W7 in So at 2; exact So].
  unfold whole. cbn [a_buf a_w a_r a_nf a_clear a_coeff a_pin a_pout]. rewrite app_length. cbn [length].
  split; [lia|]. split; [rewrite Lb, W1, W2, Nat.add_mod_idemp_l by lia; reflexivity|].
  split; [rewrite W3, Nat.add_mod_idemp_l by lia; f_equal; lia|]. split; [reflexivity|].
  split; [rewrite W2 in E; apply (ring_write fzero len 0 _ _ _ _ _ ltac:(lia) W5 E)|].
  split; [exact W6|]. split; [exact By|]. split; [apply (bounded_same _ _ So B1)|].
  split; [apply Forall_app; split; [exact W9|constructor; [exact Hx|constructor]]|].
  intros _. unfold y, DelaySpec.back. replace (length xs <? nf)%nat with false by (symmetry; apply Nat.ltb_ge; lia).
  replace (length xs + 1 <? nf + 1)%nat with false by (symmetry; apply Nat.ltb_ge; lia). rewrite app_nth1 by lia. f_equal. lia.
Qed.
Lemma waiting_run len nf ys : forall s xs, (1 <= nf <= len)%nat -> waiting len nf s xs -> (length xs <= nf)%nat -> Forall bounded ys ->
  exists l, ap_run ap_process s (map ApFrame ys) = Some l /\ length l = length ys /\ forall n o, nth_error l n = Some o ->
    ((length xs + n < nf)%nat -> o = fzero) /\ ((length xs + n = nf)%nat -> same o fone) /\
    ((nf < length xs + n)%nat -> same o (back (xs ++ ys) (length xs + n) (nf + 1))).
Proof.
  induction ys as [|y ys IH]; intros s xs Hn W Hl Hy.
  { exists []. split; [reflexivity|]. split; [reflexivity|]. intros [|n] o H; discriminate H. }
  inversion Hy as [|? ? Hy1 Hy2]; subst. cbn [map ap_run]. destruct (Nat.eq_dec (length xs) nf) as [E|E].
  - destruct (waiting_end len nf s xs y Hn W Hy1 E) as (s' & o & Es & W' & So). destruct (whole_run len nf ys s' _ Hn W' Hy2) as (l & El & Ll & P).
    rewrite Es. cbn [bind fst snd]. rewrite El. cbn [bind]. exists (o :: l). split; [reflexivity|]. split; [cbn; lia|].
    rewrite app_length in P. cbn [length] in P. rewrite <- app_assoc in P. cbn [app] in P.
    intros [|n] q Hq; cbn in Hq.
    + injection Hq as <-. split; [lia|]. split; [intros _; exact So|lia].
    + split; [lia|]. split; [lia|]. intros _. replace (length xs + S n)%nat with (length xs + 1 + n)%nat by lia. apply (P n q Hq). lia.
  - destruct (waiting_step len nf s xs y Hn W Hy1 ltac:(lia)) as (s' & Es & W').
    destruct (IH s' (xs ++ [y]) Hn W') as (l & El & Ll & P); [rewrite app_length; cbn; lia|exact Hy2|].
    rewrite Es. cbn [bind fst snd]. rewrite El. cbn [bind]. exists (fzero :: l). split; [reflexivity|]. split; [cbn; lia|].
    rewrite app_length in P. cbn [length] in P. rewrite <- app_assoc in P. cbn [app] in P.
    intros [|n] q Hq; cbn in Hq.
    + injection Hq as <-. split; [reflexivity|]. split; lia.
    + specialize (P n q Hq). replace (length xs + S n)%nat with (length xs + 1 + n)%nat by lia. exact P.
Qed.
End Whole.

(** An allpass delay in any state, of any precision, that is set to a whole delay of [N] frames and cleared: the output is
    exactly zero before frame [N - 1], one at that frame, and from frame [N] on the input [N] frames earlier.
    Partial: the one at frame [N - 1] should be a zero. *)
Theorem C54_cleared_partial : forall prec emax (I : ieee prec emax) (s : ap prec emax) N xs,
  (a_w s < length (a_buf s))%nat -> (2 <= N < length (a_buf s))%nat -> (Z.of_nat N <= 2 ^ 24)%Z -> Forall bounded xs ->
  exists l, ap_run ap_process s (ApSet (fz (Z.of_nat N)) :: ApClear :: map ApFrame xs) = Some l /\ length l = length xs /\
    forall n o, nth_error l n = Some o ->
      ((n < N - 1)%nat -> o = fzero) /\ ((n = N - 1)%nat -> same o fone) /\ ((N <= n)%nat -> same o (back _ fzero xs n N)).
Proof.
  intros prec emax I s N xs Hw HN HB Hx. set (len := length (a_buf s)) in *.
  destruct (set_whole (prec := prec) (emax := emax) len N ltac:(lia) HB) as (s0 & E0 & W & Ep).
  destruct (fz_small (prec := prec) (emax := emax) (Z.of_nat N)) as [V F]; [lia|].
  assert (Wi : within len (fz (Z.of_nat N) : binary_float prec emax)).
  { split; [exact F|]. rewrite V, INR_IZR_INZ. split; [split; [apply IZR_le; lia|apply IZR_lt; lia]|].
    apply Rle_trans with (IZR (2 ^ 24)); [apply IZR_le; exact HB|]. change (IZR (2 ^ 24)) with (bpow radix2 24). apply bpow_le. lia. }
  assert (Li : length (a_buf (ap_init len : ap prec emax)) = len) by apply repeat_length.
  destruct (C42_clear_forgets prec emax I (fz (Z.of_nat N)) fzero s (ap_init len) xs) as ((l & E1 & E2 & _) & _);
    [exact Hw|rewrite Li; cbn; lia|exact Wi|rewrite Li; exact Wi|rewrite V; apply Rle_trans with (IZR 2); [lra|apply IZR_le; lia]|].
  exists l. split; [exact E1|]. clear E1. cbn [ap_run] in E2. rewrite E0 in E2. cbn [bind] in E2.
  assert (Nf : a_nf s0 = (N - 1)%nat).
  { destruct (set_nf _ _ _ E0) as ((P1 & P2 & P3) & _ & Eb);
      [rewrite Li; cbn; lia|rewrite V; apply Rle_trans with (IZR 2); [lra|apply IZR_le; lia]|].
    cbn [ap_clear a_buf a_w a_r a_nf] in P1, P2, P3. destruct W as (W1 & W2 & W3 & _). rewrite W1 in *. cbn [length] in W2, W3.
    rewrite Nat.mod_0_l in W2 by lia. rewrite Nat.add_0_l, Nat.mod_small in W3 by lia. rewrite W2, W3 in P3.
    symmetry in P3. apply Nat.mod_divides in P3; [|lia]. destruct P3 as (k & Hk).
    assert (k = 1)%nat by nia. subst k. lia. }
  destruct (waiting_run len (N - 1) xs (ap_clear s0) []) as (l' & E3 & L3 & P); [lia| |cbn; lia|exact Hx|].
  { destruct W as (W1 & W2 & W3 & W4 & W5 & W6 & _). unfold waiting. cbn [ap_clear a_buf a_w a_r a_nf a_clear a_coeff a_pin a_pout].
    split; [exact W1|]. split; [exact W2|]. split; [exact W3|]. split; [rewrite Nf; cbn [length]; lia|]. split; [exact W5|]. split; [exact W6|].
    repeat (split; [reflexivity|]). constructor. }
  rewrite E2 in E3. injection E3 as <-. split; [exact L3|]. intros n o Hn. destruct (P n o Hn) as (A & B & C). cbn [length app Nat.add] in A, B, C.
  split; [exact A|]. split; [exact B|]. intros Hle. replace N with (N - 1 + 1)%nat by lia. apply C. lia.
Qed.
Print Assumptions C54_cleared_partial.
(** The used delay of C42_clear_forgets_case, set to three frames *)
Example C54_cleared_case : (a_w used1 < length (a_buf used1))%nat /\ (2 <= 3 < length (a_buf used1))%nat /\
  shown (ap_run ap_process used1 (ApSet (fz (Z.of_nat 3)) :: ApClear :: map ApFrame [fz 5; fz 6; fz 7; fz 8; fz 9])) =
  Some (map (fun o : f32 => B2SF o) [fzero; fzero; fone; fz 5; fz 6]).
Proof. split; [cbn; lia|]. split; [cbn; lia|]. vm_compute. reflexivity. Qed.
