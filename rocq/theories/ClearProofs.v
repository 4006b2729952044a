(** What an allpass delay still knows after [clear]: proofs. *)
From Coq Require Import Reals Lra.
From Flocq Require Import Core BinarySingleNaN.
From Verif Require Import Base FloatBase FloatMore AllpassModel AllpassSpec ClearModel AllpassProofs.
Local Open Scope nat_scope.

Lemma nth_error_put {A} (l : list A) : forall i x l' j, set_nth l i x = Some l' ->
  nth_error l' j = if j =? i then Some x else nth_error l j.
Proof.
  induction l as [|h t IH]; intros [|i] x l' j E; cbn in E; try discriminate.
  - injection E as <-. destruct j; reflexivity.
  - destruct (set_nth t i x) as [t'|] eqn:Et; [|discriminate]. injection E as <-.
    destruct j as [|j]; [reflexivity|]. cbn [nth_error Nat.eqb]. apply IH. exact Et.
Qed.
Lemma mod_apart w i j len : i < j -> j < i + len -> (w + i) mod len <> (w + j) mod len.
Proof.
  intros H2 H3 E.
  pose proof (Nat.div_mod (w + i) len ltac:(lia)) as A. pose proof (Nat.div_mod (w + j) len ltac:(lia)) as B.
  rewrite E in A. set (qa := (w + i) / len) in *. set (qb := (w + j) / len) in *.
  assert (D : len * qb = len * qa + (j - i)) by lia.
  destruct (le_lt_dec qb qa) as [G|G]; [|assert (qa + 1 <= qb) by lia]; nia.
Qed.

Section Clear.
Context {prec emax : Z} {I : ieee prec emax}.
Notation fl := (binary_float prec emax).
Notation ap := (ap prec emax).

(** the writer is [a_nf] frames ahead of the reader *)
Definition placed (s : ap) : Prop := 1 <= a_nf s <= length (a_buf s) /\ a_r s < length (a_buf s) /\ a_w s = (a_r s + a_nf s) mod length (a_buf s).
(** two delays that the listener cannot tell apart: what lies between the end of the cleared part and the writer agrees *)
Definition alike (s1 s2 : ap) : Prop :=
  placed s1 /\ placed s2 /\ a_nf s1 = a_nf s2 /\ a_clear s1 = a_clear s2 /\ a_coeff s1 = a_coeff s2 /\ a_pin s1 = a_pin s2 /\ a_pout s1 = a_pout s2 /\
  forall j, a_clear s1 <= j < a_nf s1 ->
    nth_error (a_buf s1) ((a_r s1 + j) mod length (a_buf s1)) = nth_error (a_buf s2) ((a_r s2 + j) mod length (a_buf s2)).

Lemma step_one (s : ap) x : placed s -> exists s1 o s', ap_read s = Some (s1, o) /\ ap_write x s1 = Some s' /\ placed s' /\
  length (a_buf s') = length (a_buf s) /\ a_nf s' = a_nf s /\ a_clear s' = a_clear s - 1 /\ a_coeff s' = a_coeff s /\
  (forall j, j < a_nf s -> nth_error (a_buf s') ((a_r s' + j) mod length (a_buf s')) =
     if S j =? a_nf s then Some x else nth_error (a_buf s) ((a_r s + S j) mod length (a_buf s))) /\
  (if 0 <? a_clear s then o = fzero /\ a_pin s' = a_pin s /\ a_pout s' = a_pout s
   else exists v, nth_error (a_buf s) (a_r s) = Some v /\ o = interp_sample (a_coeff s) (a_pin s) (a_pout s) v /\ a_pin s' = v /\ a_pout s' = o).
Proof.
  intros (Hn & Hr & Hw). set (len := length (a_buf s)) in *.
  assert (Hl : len <> 0) by lia.
  assert (Wl : a_w s < len) by (rewrite Hw; apply Nat.mod_upper_bound; exact Hl).
  destruct (set_nth_some (a_buf s) (a_w s) x Wl) as (b & Eb).
  pose proof (set_nth_length _ _ _ _ Eb) as Lb. fold len in Lb.
  assert (J : forall j, j < a_nf s -> nth_error b (((a_r s + 1) mod len + j) mod len) =
     if S j =? a_nf s then Some x else nth_error (a_buf s) ((a_r s + S j) mod len)).
  { intros j Hj. rewrite Nat.add_mod_idemp_l by exact Hl. replace (a_r s + 1 + j) with (a_r s + S j) by lia.
    rewrite (nth_error_put _ _ _ _ _ Eb). rewrite Hw. destruct (Nat.eqb_spec (S j) (a_nf s)) as [->|N].
    - rewrite Nat.eqb_refl. reflexivity.
    - replace ((a_r s + S j) mod len =? (a_r s + a_nf s) mod len) with false; [reflexivity|]. symmetry. apply Nat.eqb_neq.
      apply mod_apart; lia. }
  assert (P : (a_w s + 1) mod len = ((a_r s + 1) mod len + a_nf s) mod len).
  { rewrite Hw. rewrite !Nat.add_mod_idemp_l by exact Hl. f_equal. lia. }
  unfold ap_read. fold len. replace (len =? 0) with false by (symmetry; apply Nat.eqb_neq; exact Hl).
  destruct (0 <? a_clear s) eqn:Ec.
  - eexists _, _, _. split; [reflexivity|]. unfold ap_write. cbn [a_buf a_w a_r a_nf a_clear a_coeff a_pin a_pout]. rewrite Eb. cbn [bind].
    split; [reflexivity|]. unfold placed. cbn [a_buf a_w a_r a_nf a_clear a_coeff a_pin a_pout]. rewrite Lb.
    split; [split; [exact Hn|]; split; [apply Nat.mod_upper_bound; exact Hl|exact P]|].
    repeat (split; [reflexivity|]). split; [exact J|]. repeat split.
  - destruct (nth_error (a_buf s) (a_r s)) as [v|] eqn:Ev; [|exfalso; apply nth_error_None in Ev; fold len in Ev; lia].
    apply Nat.ltb_ge in Ec. cbn [bind].
    eexists _, _, _. split; [reflexivity|]. unfold ap_write. cbn [a_buf a_w a_r a_nf a_clear a_coeff a_pin a_pout]. rewrite Eb. cbn [bind].
    split; [reflexivity|]. unfold placed. cbn [a_buf a_w a_r a_nf a_clear a_coeff a_pin a_pout]. rewrite Lb.
    split; [split; [exact Hn|]; split; [apply Nat.mod_upper_bound; exact Hl|exact P]|].
    split; [reflexivity|]. split; [reflexivity|]. split; [lia|]. split; [reflexivity|]. split; [exact J|].
    exists v. repeat split.
Qed.
Lemma alike_step (s1 s2 : ap) x1 x2 : alike s1 s2 -> exists r1 r2 o t1 t2, ap_read s1 = Some (r1, o) /\ ap_read s2 = Some (r2, o) /\
  ap_write x1 r1 = Some t1 /\ ap_write x2 r2 = Some t2 /\ (x1 = x2 -> alike t1 t2) /\
  (0 < a_clear s1 -> o = fzero) /\ a_clear t1 = a_clear s1 - 1.
Proof.
  intros (P1 & P2 & En & Ec & Eq & Ei & Eo & A).
  destruct (step_one s1 x1 P1) as (r1 & o1 & t1 & R1 & W1 & Q1 & L1 & N1 & C1 & K1 & J1 & O1).
  destruct (step_one s2 x2 P2) as (r2 & o2 & t2 & R2 & W2 & Q2 & L2 & N2 & C2 & K2 & J2 & O2).
  assert (E : o1 = o2 /\ a_pin t1 = a_pin t2 /\ a_pout t1 = a_pout t2).
  { rewrite <- Ec in O2. destruct (0 <? a_clear s1) eqn:E0.
    - destruct O1 as (-> & -> & ->). destruct O2 as (-> & -> & ->). repeat split; assumption.
    - destruct O1 as (v1 & V1 & -> & -> & ->). destruct O2 as (v2 & V2 & -> & -> & ->). apply Nat.ltb_ge in E0.
      specialize (A 0 ltac:(destruct P1; lia)). rewrite !Nat.add_0_r in A.
      rewrite !Nat.mod_small in A by (destruct P1 as (? & ? & ?), P2 as (? & ? & ?); assumption).
      rewrite V1, V2 in A. injection A as <-. rewrite Eq, Ei, Eo. repeat split. }
  destruct E as (<- & E1 & E2).
  exists r1, r2, o1, t1, t2. do 4 (split; [assumption|]). split; [|split; [|exact C1]].
  - intros <-. split; [exact Q1|]. split; [exact Q2|]. do 5 (split; [congruence|]). intros j Hj. rewrite C1, N1 in Hj.
    rewrite J1 by lia. rewrite J2 by lia. rewrite <- En. destruct (S j =? a_nf s1) eqn:Es; [reflexivity|].
    apply Nat.eqb_neq in Es. apply A. lia.
  - intros H. replace (0 <? a_clear s1) with true in O1 by (symmetry; apply Nat.ltb_lt; exact H). apply O1.
Qed.
Lemma alike_process (s1 s2 : ap) xs : alike s1 s2 ->
  ap_run ap_process s1 (map ApFrame xs) = ap_run ap_process s2 (map ApFrame xs) /\
  exists l, ap_run ap_process s1 (map ApFrame xs) = Some l /\ length l = length xs /\ forall n o, n < a_clear s1 -> nth_error l n = Some o -> o = fzero.
Proof.
  revert s1 s2. induction xs as [|x xs IH]; intros s1 s2 H.
  { split; [reflexivity|]. exists []. split; [reflexivity|]. split; [reflexivity|]. intros [|n] o _ E; discriminate E. }
  destruct (alike_step s1 s2 x x H) as (r1 & r2 & o & t1 & t2 & R1 & R2 & W1 & W2 & A & Z & C). specialize (A eq_refl).
  destruct (IH t1 t2 A) as (E & l & El & Ll & Zl). cbn [map ap_run]. unfold ap_process at 1 3 5. rewrite R1, R2. cbn [bind fst snd]. rewrite W1, W2.
  cbn [bind fst snd]. rewrite <- E, El. cbn [bind]. split; [reflexivity|]. exists (o :: l). split; [reflexivity|]. split; [cbn; rewrite Ll; reflexivity|].
  intros [|n] y Hn Hy; cbn in Hy; [injection Hy as <-; apply Z; lia|]. apply (Zl n); [lia|exact Hy].
Qed.
Lemma alike_feedback fb (s1 s2 : ap) xs : alike s1 s2 ->
  ap_run (fb_process fb) s1 (map ApFrame xs) = ap_run (fb_process fb) s2 (map ApFrame xs) /\ exists l, ap_run (fb_process fb) s1 (map ApFrame xs) = Some l.
Proof.
  revert s1 s2. induction xs as [|x xs IH]; intros s1 s2 H.
  { split; [reflexivity|]. exists []. reflexivity. }
  destruct (alike_step s1 s2 fzero fzero H) as (r1' & r2' & o & _ & _ & R1 & R2 & _).
  destruct (alike_step s1 s2 (fadd (fmul o fb) x) (fadd (fmul o fb) x) H) as (r1 & r2 & o' & t1 & t2 & R1' & R2' & W1 & W2 & A & _). specialize (A eq_refl).
  rewrite R1 in R1'. injection R1' as <- <-. rewrite R2 in R2'. injection R2' as <-.
  destruct (IH t1 t2 A) as (E & l & El). cbn [map ap_run]. unfold fb_process at 1 3 5. rewrite R1, R2. cbn [bind fst snd]. rewrite W1, W2.
  cbn [bind fst snd]. rewrite <- E, El. cbn [bind]. split; [reflexivity|]. eexists. reflexivity.
Qed.

Lemma set_nf (x : fl) (s s' : ap) : ap_set x s = Some s' -> a_w s < length (a_buf s) -> (3 / 2 <= val x)%R ->
  placed (ap_clear s') /\ (val x < INR (a_nf s') + 2)%R /\ a_buf s' = a_buf s.
Proof.
  intros E Hw Hx. destruct (trunc_le x ltac:(lra)) as (_ & T0 & T1).
  assert (T2 : (1 <= Btrunc x)%Z) by (assert (L : (IZR 1 < IZR (Btrunc x + 1))%R) by (rewrite plus_IZR; lra); apply lt_IZR in L; lia).
  unfold ap_set in E. destruct (floor_usize x) as [n|] eqn:En; [|discriminate]. cbn [bind] in E.
  assert (Hn : n = Z.to_nat (Btrunc x)).
  { unfold floor_usize in En. destruct (is_finite x); [|discriminate]. destruct (fleb fzero x); [|discriminate]. congruence. }
  match type of E with bind ?a _ = _ => destruct a as [[nf d]|] eqn:Ed; [|discriminate] end. cbn [bind fst snd] in E.
  assert (Hf : n - 1 <= nf).
  { destruct (_ && _)%bool; [destruct (n =? 0); [discriminate|]|]; injection Ed as <- <-; lia. }
  assert (F : (val x < INR nf + 2)%R).
  { rewrite INR_IZR_INZ. assert (G : (IZR (Btrunc x) <= IZR (Z.of_nat nf + 1))%R) by (apply IZR_le; lia). rewrite plus_IZR in G. lra. }
  assert (N1 : 1 <= nf).
  { destruct (Z.eq_dec (Btrunc x) 1) as [B1|B1]; [|lia]. rewrite B1 in *. change (Z.to_nat 1) with 1 in Hn. subst n.
    assert (Fx : fin x) by (unfold floor_usize in En; unfold fin; destruct (is_finite x); [reflexivity|discriminate]).
    destruct (fz_small (prec := prec) (emax := emax) 1 ltac:(lia)) as [V1 F1]. pose proof (ieee_emax (prec := prec) (emax := emax)).
    destruct (fsub_ok x (fz 1) Fx F1) as [C1 C2].
    { rewrite V1. apply fits with 0%Z; [lia|]. change (bpow radix2 0) with 1%R. rewrite Rabs_pos_eq; lra. }
    destruct (half_ok (prec := prec) (emax := emax)) as [Hf2 Hv].
    assert (G : fltb (fsub x (fz (Z.of_nat 1))) (fze 1 (-1)) = false).
    { change (Z.of_nat 1) with 1%Z. rewrite fltb_ok by assumption. apply Rlt_bool_false. rewrite Hv, C1, V1.
      change (/ 2)%R with (bpow radix2 (-1)). rewrite <- (rnd_bpow (prec := prec) (emax := emax) (-1)) by lia. apply rnd_le. change (bpow radix2 (-1)) with (/ 2)%R. lra. }
    rewrite G, andb_false_r in Ed. injection Ed as <- _. lia. }
  clear Ed En T0 T1 T2 Hn Hf.
  destruct (nf <=? a_w s) eqn:E1.
  - cbn [bind] in E. injection E as <-. apply Nat.leb_le in E1. cbn. split; [|split; [exact F|reflexivity]]. unfold placed; cbn.
    split; [lia|]. split; [lia|]. replace (a_w s - nf + nf) with (a_w s) by lia. symmetry. apply Nat.mod_small. exact Hw.
  - destruct (nf <=? length (a_buf s)) eqn:E2; [|discriminate]. cbn [bind] in E. injection E as <-. apply Nat.leb_gt in E1. apply Nat.leb_le in E2.
    cbn. split; [|split; [exact F|reflexivity]]. unfold placed; cbn. split; [lia|]. split; [lia|].
    replace (length (a_buf s) - nf + a_w s + nf) with (a_w s + 1 * length (a_buf s)) by lia. rewrite Nat.mod_add by lia. symmetry. apply Nat.mod_small. exact Hw.
Qed.
Lemma set_same (x : fl) (s1 s2 t1 t2 : ap) : ap_set x s1 = Some t1 -> ap_set x s2 = Some t2 -> a_nf t1 = a_nf t2 /\ a_coeff t1 = a_coeff t2.
Proof.
  unfold ap_set. intros E1 E2. destruct (floor_usize x) as [n|]; [|discriminate]. cbn [bind] in E1, E2.
  match type of E1 with bind ?a _ = _ => destruct a as [[nf d]|]; [|discriminate] end. cbn [bind fst snd] in E1, E2.
  match type of E1 with bind ?a _ = _ => destruct a; [|discriminate] end.
  match type of E2 with bind ?a _ = _ => destruct a; [|discriminate] end.
  injection E1 as <-. injection E2 as <-. split; reflexivity.
Qed.
Lemma cleared_alike (x : fl) (s1 s2 t1 t2 : ap) : ap_set x s1 = Some t1 -> ap_set x s2 = Some t2 ->
  a_w s1 < length (a_buf s1) -> a_w s2 < length (a_buf s2) -> (3 / 2 <= val x)%R -> alike (ap_clear t1) (ap_clear t2).
Proof.
  intros E1 E2 H1 H2 Hx. destruct (set_nf x s1 t1 E1 H1 Hx) as (P1 & _). destruct (set_nf x s2 t2 E2 H2 Hx) as (P2 & _).
  destruct (set_same x s1 s2 t1 t2 E1 E2) as (En & Ec). split; [exact P1|]. split; [exact P2|].
  cbn. repeat (split; [assumption || reflexivity|]). intros j Hj. lia.
Qed.
Lemma set_keeps (x : fl) (s t : ap) : ap_set x s = Some t -> a_buf t = a_buf s /\ a_pin t = a_pin s /\ a_pout t = a_pout s /\ a_clear t = a_clear s.
Proof.
  unfold ap_set. intros E. destruct (floor_usize x) as [n|]; [|discriminate]. cbn [bind] in E.
  match type of E with bind ?a _ = _ => destruct a as [[nf d]|]; [|discriminate] end. cbn [bind fst snd] in E.
  match type of E with bind ?a _ = _ => destruct a; [|discriminate] end. injection E as <-. repeat split.
Qed.
Lemma nth_error_zeros n i : i < n -> nth_error (repeat (fzero : fl) n) i = Some fzero.
Proof. revert i. induction n as [|n IH]; intros [|i] H; try lia; [reflexivity|]. cbn. apply IH. lia. Qed.
Lemma reset_alike (x : fl) (s1 s2 : ap) : a_w s1 < length (a_buf s1) -> a_w s2 < length (a_buf s2) ->
  within (length (a_buf s1)) x -> within (length (a_buf s2)) x -> (3 / 2 <= val x)%R ->
  a_pin s1 = a_pin s2 -> a_pout s1 = a_pout s2 -> a_clear s1 = a_clear s2 ->
  exists t1 t2, ap_reset x s1 = Some t1 /\ ap_reset x s2 = Some t2 /\ alike t1 t2.
Proof.
  intros H1 H2 W1 W2 Hx Ei Eo Ec. unfold ap_reset.
  set (z := fun s : ap => mk_ap (repeat fzero (length (a_buf s))) (a_w s) (a_r s) (a_nf s) (a_clear s) (a_coeff s) (a_pin s) (a_pout s)).
  change (exists t1 t2, ap_set x (z s1) = Some t1 /\ ap_set x (z s2) = Some t2 /\ alike t1 t2).
  assert (L : forall s, length (a_buf (z s)) = length (a_buf s)) by (intros s; apply repeat_length).
  destruct (ap_set_ok x (z s1)) as (t1 & E1 & _); [rewrite L; exact W1|rewrite L; exact H1|].
  destruct (ap_set_ok x (z s2)) as (t2 & E2 & _); [rewrite L; exact W2|rewrite L; exact H2|].
  exists t1, t2. split; [exact E1|]. split; [exact E2|].
  destruct (set_nf x (z s1) t1 E1) as (P1 & _); [rewrite L; exact H1|exact Hx|].
  destruct (set_nf x (z s2) t2 E2) as (P2 & _); [rewrite L; exact H2|exact Hx|].
  destruct (set_same x _ _ t1 t2 E1 E2) as (En & Eq).
  destruct (set_keeps x _ t1 E1) as (B1 & I1 & O1 & C1). destruct (set_keeps x _ t2 E2) as (B2 & I2 & O2 & C2).
  split; [exact P1|]. split; [exact P2|]. split; [exact En|]. split; [rewrite C1, C2; exact Ec|]. split; [exact Eq|].
  split; [rewrite I1, I2; exact Ei|]. split; [rewrite O1, O2; exact Eo|]. intros j _. rewrite B1, B2, !L. cbn [z a_buf].
  rewrite !nth_error_zeros by (apply Nat.mod_upper_bound; lia). reflexivity.
Qed.
End Clear.
