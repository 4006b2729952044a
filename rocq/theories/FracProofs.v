From Coq Require Import Reals Lra Psatz.
From Flocq Require Import Core BinarySingleNaN.
From Coquelicot Require Import Complex.
From Verif Require Import Base FloatBase AllpassModel SvfRespSpec FracModel FracSpec.
Local Open Scope R_scope.

(** * With IEEE arithmetic this is AllpassModel.v *)
Section Same.
Context {prec emax : Z} {I : ieee prec emax}.
Notation fl := (binary_float prec emax).
Definition ieee_ops : frac_ops fl :=
  mk_frac_ops fl fzero fone (fze 1 (-1)) fadd fsub fmul fdiv fltb (fun n => fz (Z.of_nat n)) floor_usize.
Definition to_ap (s : line fl) : ap prec emax :=
  mk_ap (l_buf s) (l_w s) (l_r s) (l_nf s) (l_clear s) (l_coeff s) (l_pin s) (l_pout s).
Definition to_ap2 (p : line fl * fl) : ap prec emax * fl := (to_ap (fst p), snd p).
Lemma same_init len : to_ap (line_init ieee_ops len) = ap_init len.
Proof. reflexivity. Qed.
Lemma same_read s : option_map to_ap2 (line_read ieee_ops s) = ap_read (to_ap s).
Proof.
  unfold line_read, ap_read. cbn [to_ap a_buf a_r a_clear]. destruct (length (l_buf s) =? 0)%nat; [reflexivity|].
  destruct (0 <? l_clear s)%nat; [reflexivity|]. destruct (nth_error (l_buf s) (l_r s)); reflexivity.
Qed.
Lemma same_write x s : option_map to_ap (line_write x s) = ap_write x (to_ap s).
Proof. unfold line_write, ap_write. cbn [to_ap a_buf a_w]. destruct (set_nth (l_buf s) (l_w s) x); reflexivity. Qed.
Lemma same_set x s : option_map to_ap (line_set ieee_ops x s) = ap_set x (to_ap s).
Proof.
  unfold line_set, ap_set. cbn [to_ap a_buf a_w q_floor q_half q_one q_sub q_add q_ltb q_nat ieee_ops].
  destruct (floor_usize x) as [n|]; [|reflexivity]. cbn [bind].
  destruct (_ && _) eqn:E; [destruct (n =? 0)%nat; [reflexivity|]|]; cbn [bind fst snd];
    (destruct (_ <=? l_w s)%nat; [reflexivity|]; destruct (_ <=? _)%nat; reflexivity).
Qed.
Lemma same_clear s : to_ap (line_clear ieee_ops s) = ap_clear (to_ap s).
Proof. reflexivity. Qed.
Lemma same_process x s : option_map to_ap2 (line_process ieee_ops x s) = ap_process x (to_ap s).
Proof.
  unfold line_process, ap_process. rewrite <- same_read. destruct (line_read ieee_ops s) as [[s1 o]|]; [|reflexivity].
  cbn [bind option_map to_ap2 fst snd]. rewrite <- same_write. destruct (line_write x s1); reflexivity.
Qed.
Lemma same_feedback fb x s : option_map to_ap2 (feedback_process ieee_ops fb x s) = fb_process fb x (to_ap s).
Proof.
  unfold feedback_process, fb_process. rewrite <- same_read. destruct (line_read ieee_ops s) as [[s1 o]|]; [|reflexivity].
  cbn [bind option_map to_ap2 fst snd]. rewrite <- same_write. cbn [q_add q_mul ieee_ops].
  destruct (line_write (fadd (fmul o fb) x) s1); reflexivity.
Qed.
End Same.

(** * Setting the delay *)
Lemma line_set_ok x s : usable s -> 3 / 2 <= x < INR (length (l_buf s)) + 3 / 2 ->
  exists nf delta, INR nf + delta = x /\ 1 / 2 <= delta < 3 / 2 /\ (1 <= nf <= length (l_buf s))%nat /\
  exists r, (r < length (l_buf s))%nat /\ ((r + nf = l_w s) \/ (r + nf = l_w s + length (l_buf s)))%nat /\
  line_set Rfrac x s = Some (mk_line (l_buf s) (l_w s) r nf (l_clear s) ((1 - delta) / (1 + delta)) (l_pin s) (l_pout s)).
Proof.
  intros U [H1 H2]. unfold usable in U. set (len := length (l_buf s)) in *.
  assert (Hf : q_floor Rfrac x = Some (Z.to_nat (Zfloor x))).
  { cbn. rewrite Rle_bool_true by lra. reflexivity. }
  pose proof (Zfloor_lb x) as L1. pose proof (Zfloor_ub x) as L2.
  assert (Z1 : (1 <= Zfloor x)%Z). { apply Zfloor_lub. cbn. lra. }
  set (n := Z.to_nat (Zfloor x)) in *.
  assert (En : INR n = IZR (Zfloor x)) by (unfold n; rewrite INR_IZR_INZ, Z2Nat.id by lia; reflexivity).
  assert (Hn : (1 <= n)%nat) by (unfold n; lia).
  rewrite <- En in L1, L2.
  assert (K : exists nf delta, INR nf + delta = x /\ 1 / 2 <= delta < 3 / 2 /\ (1 <= nf)%nat /\
    (if q_ltb Rfrac (q_half Rfrac) x && q_ltb Rfrac (q_sub Rfrac x (q_nat Rfrac n)) (q_half Rfrac)
     then if (n =? 0)%nat then None else Some ((n - 1)%nat, q_add Rfrac (q_sub Rfrac x (q_nat Rfrac n)) (q_one Rfrac))
     else Some (n, q_sub Rfrac x (q_nat Rfrac n))) = Some (nf, delta)).
  { cbn [q_ltb q_half q_sub q_nat q_add q_one Rfrac]. rewrite Rlt_bool_true by lra. cbn [andb].
    destruct (Rlt_bool_spec (x - INR n) (1 / 2)) as [D|D].
    - assert (2 <= n)%nat. { destruct (Nat.eq_dec n 1) as [->|]; [|lia]. exfalso. cbn in D. lra. }
      destruct (Nat.eqb_spec n 0); [lia|]. exists (n - 1)%nat, (x - INR n + 1).
      rewrite minus_INR by lia. cbn [INR]. split; [lra|]. split; [lra|]. split; [lia|reflexivity].
    - exists n, (x - INR n). split; [lra|]. split; [lra|]. split; [lia|reflexivity]. }
  destruct K as (nf & delta & E & D & N1 & K). exists nf, delta. split; [exact E|]. split; [exact D|].
  assert (N2 : (nf <= len)%nat).
  { destruct (le_lt_dec nf len) as [G|G]; [exact G|]. exfalso. apply le_INR in G. rewrite S_INR in G. lra. }
  split; [lia|]. unfold line_set. rewrite Hf. cbn [bind]. cbv zeta. rewrite K. cbn [bind fst snd]. fold len.
  destruct (Nat.leb_spec nf (l_w s)) as [G|G]; cbn [bind].
  - exists (l_w s - nf)%nat. split; [lia|]. split; [lia|reflexivity].
  - destruct (Nat.leb_spec nf len); [|lia]. cbn [bind]. exists (len - nf + l_w s)%nat. split; [lia|]. split; [lia|reflexivity].
Qed.

(** * The run as sequences *)
Lemma nth_error_set_nth {A} (l : list A) : forall i x l' j, set_nth l i x = Some l' ->
  nth_error l' j = if (j =? i)%nat then Some x else nth_error l j.
Proof.
  induction l as [|h t IH]; intros [|i] x l' j E; cbn in E; try discriminate.
  - injection E as <-. destruct j; reflexivity.
  - destruct (set_nth t i x) as [t'|] eqn:Et; [|discriminate]. injection E as <-.
    destruct j as [|j]; [reflexivity|]. cbn [nth_error Nat.eqb]. apply IH. exact Et.
Qed.
Lemma mod_shift_neq w0 i j len : (0 < len)%nat -> (i < j)%nat -> (j < i + len)%nat -> ((w0 + i) mod len <> (w0 + j) mod len)%nat.
Proof.
  intros H1 H2 H3 E.
  pose proof (Nat.div_mod (w0 + i) len ltac:(lia)) as A. pose proof (Nat.div_mod (w0 + j) len ltac:(lia)) as B.
  rewrite E in A. set (qa := ((w0 + i) / len)%nat) in *. set (qb := ((w0 + j) / len)%nat) in *.
  assert (D : (len * qb = len * qa + (j - i))%nat) by lia.
  destruct (le_lt_dec qb qa) as [G|G]; [|assert (qa + 1 <= qb)%nat by lia]; nia.
Qed.
Lemma mod_S k len : (0 < len)%nat -> ((k mod len + 1) mod len = (k + 1) mod len)%nat.
Proof. intros H. rewrite Nat.add_mod_idemp_l by lia. reflexivity. Qed.

Section Run.
Variables (fb c : R) (x : nat -> R) (len nf w0 r0 clear0 : nat) (s0 : line R).
Hypothesis (Hlen : (0 < len)%nat) (Hb : length (l_buf s0) = len) (Hnf : (1 <= nf <= len)%nat).
Hypothesis (Hw0 : l_w s0 = w0) (Hw : (w0 < len)%nat) (Hr0 : l_r s0 = r0) (Hr : (r0 < len)%nat).
Hypothesis (Hrel : (r0 + nf = w0 \/ r0 + nf = w0 + len)%nat) (Hcl : l_clear s0 = clear0) (Hc : l_coeff s0 = c).
Notation proc := (feedback_process Rfrac fb).
Definition st (n : nat) : line R := match line_after proc s0 x n with Some s => s | None => s0 end.
Definition dd (n : nat) : R := match line_read Rfrac (st n) with Some p => snd p | None => 0 end.
Definition ww (n : nat) : R := dd n * fb + x n.
Record inv (n : nat) (s : line R) : Prop := {
  i_len : length (l_buf s) = len; i_w : l_w s = ((w0 + n) mod len)%nat; i_r : l_r s = ((r0 + n) mod len)%nat;
  i_c : l_coeff s = c; i_clear : l_clear s = (clear0 - n)%nat;
  i_buf : forall j, (j < n)%nat -> (n <= j + len)%nat -> nth_error (l_buf s) ((w0 + j) mod len) = Some (ww j);
  i_pin : (clear0 < n)%nat -> (nf < n)%nat -> l_pin s = ww (n - 1 - nf);
  i_pout : (clear0 < n)%nat -> l_pout s = dd (n - 1) }.
Lemma read_index n : (nf <= n)%nat -> ((r0 + n) mod len = (w0 + (n - nf)) mod len)%nat.
Proof.
  intros H. destruct Hrel as [E|E].
  - f_equal. lia.
  - replace (r0 + n)%nat with (w0 + (n - nf) + 1 * len)%nat by lia. apply Nat.mod_add. lia.
Qed.
Lemma inv_read n s : inv n s -> exists s1 v, line_read Rfrac s = Some (s1, v) /\
  l_buf s1 = l_buf s /\ l_w s1 = l_w s /\ l_r s1 = ((r0 + S n) mod len)%nat /\ l_coeff s1 = c /\ l_clear s1 = (clear0 - S n)%nat /\
  ((clear0 <= n)%nat -> l_pout s1 = v) /\ ((clear0 <= n)%nat -> (nf <= n)%nat -> l_pin s1 = ww (n - nf)) /\
  ((clear0 < n)%nat -> (nf < n)%nat -> v = c * (ww (n - nf) - dd (n - 1)) + ww (n - 1 - nf)).
Proof.
  intros Iv. unfold line_read. rewrite (i_len _ _ Iv). destruct (Nat.eqb_spec len 0); [lia|].
  assert (Er : ((l_r s + 1) mod len = (r0 + S n) mod len)%nat).
  { rewrite (i_r _ _ Iv), mod_S by exact Hlen. f_equal. lia. }
  rewrite (i_clear _ _ Iv). destruct (Nat.ltb_spec 0 (clear0 - n)) as [G|G].
  - eexists. eexists. split; [reflexivity|]. cbn [l_buf l_w l_r l_coeff l_clear l_pin l_pout].
    rewrite (i_c _ _ Iv). repeat split; try reflexivity; try exact Er; lia.
  - assert (Hi : (l_r s < length (l_buf s))%nat) by (rewrite (i_r _ _ Iv), (i_len _ _ Iv); apply Nat.mod_upper_bound; lia).
    destruct (nth_error (l_buf s) (l_r s)) as [v|] eqn:En; [|apply nth_error_None in En; lia].
    cbn [bind]. eexists. eexists. split; [reflexivity|]. cbn [l_buf l_w l_r l_coeff l_clear l_pin l_pout].
    rewrite (i_c _ _ Iv).
    assert (Ev : (nf <= n)%nat -> v = ww (n - nf)).
    { intros Hn. rewrite (i_r _ _ Iv), read_index in En by exact Hn.
      rewrite (i_buf _ _ Iv) in En by lia. congruence. }
    repeat split; try reflexivity; try exact Er; try lia.
    + intros _ Hn. apply Ev, Hn.
    + intros H1 H2. unfold interp. cbn [q_add q_mul q_sub Rfrac].
      rewrite (i_pout _ _ Iv) by exact H1. rewrite (i_pin _ _ Iv) by assumption. rewrite Ev by lia. reflexivity.
Qed.
Lemma inv_step n : line_after proc s0 x n = Some (st n) -> inv n (st n) ->
  line_output proc s0 x n = Some (dd n - fb * ww n) /\ line_after proc s0 x (S n) = Some (st (S n)) /\ inv (S n) (st (S n)).
Proof.
  intros Ea Iv. destruct (inv_read n (st n) Iv) as (s1 & v & Er & B1 & B2 & B3 & B4 & B5 & B6 & B7 & _).
  assert (Ed : dd n = v) by (unfold dd; rewrite Er; reflexivity).
  destruct (set_nth_some (l_buf s1) (l_w s1) (v * fb + x n)) as [buf Eb].
  { rewrite B1, B2, (i_w _ _ Iv), (i_len _ _ Iv). apply Nat.mod_upper_bound. lia. }
  pose proof (set_nth_length _ _ _ _ Eb) as Lb. rewrite B1, (i_len _ _ Iv) in Lb.
  assert (Ep : proc (x n) (st n) = Some (mk_line buf ((l_w s1 + 1) mod length buf) (l_r s1) (l_nf s1) (l_clear s1) (l_coeff s1) (l_pin s1) (l_pout s1),
                v - fb * (v * fb + x n))).
  { unfold feedback_process. rewrite Er. cbn [bind fst snd]. unfold line_write. cbn [q_add q_mul q_sub Rfrac]. rewrite Eb. reflexivity. }
  assert (EaS : line_after proc s0 x (S n) = Some (mk_line buf ((l_w s1 + 1) mod length buf) (l_r s1) (l_nf s1) (l_clear s1) (l_coeff s1) (l_pin s1) (l_pout s1))).
  { cbn [line_after]. rewrite Ea. cbn [bind]. rewrite Ep. reflexivity. }
  assert (Es : st (S n) = mk_line buf ((l_w s1 + 1) mod length buf) (l_r s1) (l_nf s1) (l_clear s1) (l_coeff s1) (l_pin s1) (l_pout s1)).
  { unfold st. rewrite EaS. reflexivity. }
  split; [|split].
  - unfold line_output. rewrite Ea. cbn [bind]. rewrite Ep. cbn [bind snd]. unfold ww. rewrite Ed. reflexivity.
  - rewrite Es. exact EaS.
  - rewrite Es. constructor; cbn [l_buf l_w l_r l_coeff l_clear l_pin l_pout].
    + exact Lb.
    + rewrite Lb, B2, (i_w _ _ Iv), mod_S by exact Hlen. f_equal. lia.
    + exact B3.
    + exact B4.
    + exact B5.
    + intros j Hj1 Hj2. rewrite (nth_error_set_nth _ _ _ _ _ Eb), B2, (i_w _ _ Iv).
      destruct (Nat.eq_dec j n) as [->|Hne].
      * rewrite Nat.eqb_refl. unfold ww. rewrite Ed. reflexivity.
      * destruct (Nat.eqb_spec ((w0 + j) mod len) ((w0 + n) mod len)) as [E|E].
        -- exfalso. apply (mod_shift_neq w0 j n len); try lia. 
        -- rewrite B1. apply (i_buf _ _ Iv); lia.
    + intros H1 H2. rewrite B7 by lia. f_equal. lia.
    + intros H1. rewrite B6 by lia. rewrite <- Ed. f_equal. lia.
Qed.
Lemma inv_all n : line_after proc s0 x n = Some (st n) /\ inv n (st n).
Proof.
  induction n as [|n [E Iv]].
  - split; [reflexivity|]. unfold st. cbn [line_after]. constructor; rewrite ?Nat.add_0_r, ?Nat.sub_0_r; try lia; try assumption.
    + rewrite Nat.mod_small; assumption.
    + rewrite Nat.mod_small; assumption.
  - destruct (inv_step n E Iv) as (_ & E2 & I2). split; assumption.
Qed.
Lemma run_output n : line_output proc s0 x n = Some (dd n - fb * ww n).
Proof. destruct (inv_all n) as [E Iv]. apply (inv_step n E Iv). Qed.
Lemma run_rec n : (clear0 < n)%nat -> (nf < n)%nat -> dd n = c * (ww (n - nf) - dd (n - 1)) + ww (n - 1 - nf).
Proof.
  intros H1 H2. destruct (inv_all n) as [E Iv]. destruct (inv_read n (st n) Iv) as (s1 & v & Er & _ & _ & _ & _ & _ & _ & _ & Ev).
  transitivity v; [unfold dd; rewrite Er; reflexivity | apply Ev; assumption].
Qed.
End Run.

(** * The difference of two runs dies out: the delay line is lossless, so its energy drops by [(1 - fb^2) d^2] per frame *)
Section Decay.
Variables (fb c : R) (N T : nat) (d w : nat -> R).
Hypothesis (Hfb : -1 < fb < 1) (Hc : -1 < c < 1) (HT : (N < T)%nat).
Hypothesis (Hwd : forall n, (T <= n)%nat -> w n = fb * d n).
Hypothesis (Hd : forall n, (T <= n)%nat -> d n = c * (w (n - N)%nat - d (n - 1)%nat) + w (n - 1 - N)%nat).
Fixpoint wsum (k n : nat) : R := match k with O => 0 | S k' => wsum k' n + w (n - 1 - k')%nat * w (n - 1 - k')%nat end.
Lemma wsum_step k n : (k <= n)%nat -> wsum k (S n) = wsum k n + w n * w n - w (n - k)%nat * w (n - k)%nat.
Proof.
  induction k as [|k IH]; intros H; cbn [wsum].
  - rewrite Nat.sub_0_r. ring.
  - rewrite IH by lia. replace (S n - 1 - k)%nat with (n - k)%nat by lia. replace (n - S k)%nat with (n - 1 - k)%nat by lia. ring.
Qed.
Lemma wsum_pos k n : 0 <= wsum k n.
Proof. induction k as [|k IH]; cbn [wsum]; [lra|]. pose proof (Rle_0_sqr (w (n - 1 - k)%nat)). unfold Rsqr in *. lra. Qed.
Definition vv (n : nat) : R := w (n - N)%nat - c * d n.
Definition stored (n : nat) : R := wsum N n + vv (n - 1) * vv (n - 1) / (1 - c * c).
Lemma one_c : 0 < 1 - c * c.
Proof. nra. Qed.
Lemma stored_pos n : 0 <= stored n.
Proof.
  unfold stored. pose proof (wsum_pos N n). pose proof one_c.
  assert (0 <= vv (n - 1) * vv (n - 1) / (1 - c * c)); [|lra].
  apply Rmult_le_pos; [apply Rle_0_sqr | apply Rlt_le, Rinv_0_lt_compat; lra].
Qed.
Lemma stored_step n : (T <= n)%nat -> stored (S n) = stored n - (1 - fb * fb) * (d n * d n).
Proof.
  intros H. unfold stored. rewrite wsum_step by lia.
  assert (E : d n = c * w (n - N)%nat + vv (n - 1)).
  { rewrite (Hd n H) at 1. unfold vv. replace (n - 1 - N)%nat with (n - 1 - N)%nat by lia. ring. }
  replace (S n - 1)%nat with n by lia. rewrite (Hwd n H). unfold vv at 1 2.
  set (v := vv (n - 1)) in *. clearbody v. set (u := w (n - N)%nat) in *. clearbody u.
  rewrite E. pose proof one_c. field. lra.
Qed.
Lemma decay : Un_cv d 0.
Proof.
  pose (U := fun k => stored (T + k)).
  assert (F : 0 < 1 - fb * fb) by nra.
  assert (St : forall k, U (S k) = U k - (1 - fb * fb) * (d (T + k)%nat * d (T + k)%nat)).
  { intros k. unfold U. replace (T + S k)%nat with (S (T + k)) by lia. apply stored_step. lia. }
  destruct (decreasing_cv U) as [l Hl].
  - intros k. rewrite St. pose proof (Rle_0_sqr (d (T + k)%nat)). unfold Rsqr in *. nra.
  - exists 0. intros y [k ->]. unfold opp_seq. pose proof (stored_pos (T + k)). unfold U. lra.
  - intros eps He.
    destruct (Hl ((1 - fb * fb) * (eps * eps) / 2)) as [M HM].
    { assert (0 < eps * eps) by nra. apply Rdiv_lt_0_compat; [|lra]. apply Rmult_lt_0_compat; lra. }
    exists (T + M)%nat. intros n Hn. unfold R_dist. rewrite Rminus_0_r.
    replace n with (T + (n - T))%nat by lia. set (k := (n - T)%nat).
    pose proof (HM k ltac:(unfold k; lia)) as A. pose proof (HM (S k) ltac:(unfold k; lia)) as B.
    unfold R_dist in A, B. apply Rabs_def2 in A. apply Rabs_def2 in B. rewrite St in B.
    set (q := d (T + k)%nat) in *.
    assert ((1 - fb * fb) * (q * q) < (1 - fb * fb) * (eps * eps)) by lra.
    assert (q * q < eps * eps) by (apply Rmult_lt_reg_l with (1 - fb * fb); assumption).
    apply Rsqr_lt_abs_0 in H0. rewrite (Rabs_right eps) in H0 by lra. exact H0.
Qed.
End Decay.

(** Any run approaches any steady one. *)
Lemma approach_steady k fb x s nf delta r (ws ds : nat -> R) : usable s -> -1 < fb < 1 -> 0 < delta ->
  (1 <= nf <= length (l_buf s))%nat -> (r < length (l_buf s))%nat -> ((r + nf = l_w s) \/ (r + nf = l_w s + length (l_buf s)))%nat ->
  (forall n, ws n = ds n * fb + x n) ->
  (forall n, (nf < n)%nat -> ds n = (1 - delta) / (1 + delta) * (ws (n - nf)%nat - ds (n - 1)%nat) + ws (n - 1 - nf)%nat) ->
  approaches (feedback_process Rfrac fb)
    (mk_line (l_buf s) (l_w s) r k (l_clear s) ((1 - delta) / (1 + delta)) (l_pin s) (l_pout s)) x (fun n => ds n - fb * ws n).
Proof.
  intros U Hfb Hdl Hnf Hr Hrel Hws Hds. unfold usable in U. set (c := (1 - delta) / (1 + delta)) in *.
  assert (Hc : -1 < c < 1).
  { unfold c. split; apply Rmult_lt_reg_r with (1 + delta); try lra; unfold Rdiv; rewrite Rmult_assoc, Rinv_l by lra; lra. }
  set (s0 := mk_line (l_buf s) (l_w s) r k (l_clear s) c (l_pin s) (l_pout s)).
  set (len := length (l_buf s)) in *.
  assert (Hl : (0 < len)%nat) by lia.
  pose proof (run_output fb c x len nf (l_w s) r (l_clear s) s0 Hl eq_refl Hnf eq_refl U eq_refl Hr Hrel eq_refl eq_refl) as Ro.
  pose proof (run_rec fb c x len nf (l_w s) r (l_clear s) s0 Hl eq_refl Hnf eq_refl U eq_refl Hr Hrel eq_refl eq_refl) as Rr.
  set (D := dd fb x s0) in *. set (W := ww fb x s0) in *.
  exists (fun n => D n - fb * W n). split; [exact Ro|].
  assert (Z : Un_cv (fun n => D n - ds n) 0).
  { apply (decay fb c nf (S (Nat.max nf (l_clear s))) (fun n => D n - ds n) (fun n => W n - ws n) Hfb Hc).
    - lia.
    - intros n Hn. change (W n) with (D n * fb + x n). rewrite Hws. ring.
    - intros n Hn. rewrite Rr by lia. rewrite Hds by lia. ring. }
  intros eps He. destruct (Z eps He) as [M HM]. exists M. intros n Hn. specialize (HM n Hn).
  unfold R_dist in *. rewrite Rminus_0_r in *.
  replace (D n - fb * W n - (ds n - fb * ws n)) with ((1 - fb * fb) * (D n - ds n)).
  - rewrite Rabs_mult. rewrite (Rabs_right (1 - fb * fb)) by nra.
    pose proof (Rabs_pos (D n - ds n)). nra.
  - change (W n) with (D n * fb + x n). rewrite Hws. ring.
Qed.

(** * A straight line *)
Lemma ramp_steady fb s x a b : usable s -> -1 < fb < 1 -> 3 / 2 <= x < INR (length (l_buf s)) + 3 / 2 ->
  exists s', line_set Rfrac x s = Some s' /\
  approaches (feedback_process Rfrac fb) s' (fun n => ramp a b (INR n)) (fun n => ramp a b (INR n - (1 + fb) / (1 - fb) * x)).
Proof.
  intros U Hfb Hx. destruct (line_set_ok x s U Hx) as (nf & delta & E & Hd & Hn & r & Hr & Hrel & Es).
  eexists. split; [exact Es|].
  pose (B := b / (1 - fb)). pose (A := (a - fb * B * x) / (1 - fb)).
  destruct (approach_steady nf fb (fun n => ramp a b (INR n)) s nf delta r
              (fun n => A + B * INR n) (fun n => A + B * (INR n - x)) U Hfb ltac:(lra) Hn Hr Hrel) as (o & Ho & Hcv).
  - intros n. unfold ramp, A, B. field. lra.
  - intros n H. rewrite !minus_INR by lia. cbn [INR]. rewrite <- E. field. lra.
  - exists o. split; [exact Ho|]. intros eps He. destruct (Hcv eps He) as [M HM]. exists M. intros n Hn'. specialize (HM n Hn').
    replace (ramp a b (INR n - (1 + fb) / (1 - fb) * x)) with (A + B * (INR n - x) - fb * (A + B * INR n)); [exact HM|].
    unfold ramp, A, B. field. lra.
Qed.
(** Without feedback the feedback delay is the plain one. *)
Lemma line_process_feedback x s : line_process Rfrac x s = feedback_process Rfrac 0 x s.
Proof.
  unfold line_process, feedback_process. destruct (line_read Rfrac s) as [[s1 v]|]; [|reflexivity]. cbn [bind fst snd q_add q_mul q_sub Rfrac].
  replace (v * 0 + x) with x by ring. destruct (line_write x s1); [|reflexivity]. cbn [bind]. do 2 f_equal. ring.
Qed.
Lemma line_after_feedback s x n : line_after (line_process Rfrac) s x n = line_after (feedback_process Rfrac 0) s x n.
Proof.
  induction n as [|n IH]; [reflexivity|]. cbn [line_after]. rewrite IH. destruct (line_after (feedback_process Rfrac 0) s x n) as [s1|]; [|reflexivity].
  cbn [bind]. rewrite line_process_feedback. reflexivity.
Qed.
Lemma approaches_plain s x y : approaches (feedback_process Rfrac 0) s x y -> approaches (line_process Rfrac) s x y.
Proof.
  intros (o & Ho & Hc). exists o. split; [|exact Hc]. intros n. rewrite <- Ho. unfold line_output.
  rewrite line_after_feedback. destruct (line_after (feedback_process Rfrac 0) s x n) as [s1|]; [|reflexivity]. cbn [bind]. rewrite line_process_feedback. reflexivity.
Qed.

(** * A sinusoid *)
Definition cis (t : R) : C := (cos t, sin t).
Lemma cis_plus s t : cis (s + t) = (cis s * cis t)%C.
Proof. unfold cis, Cmult; cbn [fst snd]. rewrite cos_plus, sin_plus. f_equal; ring. Qed.
Lemma Cmod_sq (z : C) : Cmod z = sqrt (fst z * fst z + snd z * snd z).
Proof. unfold Cmod. f_equal. ring. Qed.
Lemma cis_mod t : Cmod (cis t) = 1.
Proof.
  rewrite Cmod_sq. cbn [cis fst snd]. pose proof (sin2_cos2 t) as E. unfold Rsqr in E.
  replace (cos t * cos t + sin t * sin t) with 1 by lra. apply sqrt_1.
Qed.
Lemma unit_sq (u : C) : Cmod u = 1 -> fst u * fst u + snd u * snd u = 1.
Proof.
  intros H. rewrite Cmod_sq in H. assert (0 <= fst u * fst u + snd u * snd u) by nra.
  rewrite <- (sqrt_sqrt (fst u * fst u + snd u * snd u)) by assumption. rewrite H. ring.
Qed.
(** [c + u] and [1 + c u] have the same modulus for [u] on the unit circle. *)
Lemma mirror (c : R) (u : C) : Cmod u = 1 -> Cmod (RtoC c + u)%C = Cmod (RtoC 1 + RtoC c * u)%C.
Proof.
  intros H. apply unit_sq in H. rewrite !Cmod_sq. f_equal. unfold RtoC, Cplus, Cmult; cbn [fst snd].
  set (p := fst u) in *. set (q := snd u) in *. clearbody p q.
  assert (E : q * q = 1 - p * p) by lra.
  transitivity (c * c + 2 * c * p + p * p + q * q); [ring|]. rewrite E.
  transitivity (1 + 2 * c * p + c * c * (p * p + q * q)); [rewrite E; ring | ring].
Qed.
Lemma away (c : R) (u : C) : Cmod u = 1 -> -1 < c < 1 -> (RtoC 1 + RtoC c * u)%C <> RtoC 0.
Proof.
  intros H Hc E. apply unit_sq in H. unfold RtoC, Cplus, Cmult in E; cbn [fst snd] in E.
  injection E as E1 E2. set (p := fst u) in *. set (q := snd u) in *. clearbody p q.
  assert (c * p = -1) by lra. assert (p * p <= 1) by nra. nra.
Qed.
Lemma unit_div (x y : C) : y <> RtoC 0 -> Cmod x = Cmod y -> Cmod (x / y)%C = 1.
Proof.
  intros Hy E. rewrite Cmod_div by exact Hy. rewrite E. field. intros Z. apply Hy. apply Cmod_eq_0. exact Z.
Qed.
(** The complex gain of the delay and of the delay with feedback *)
Definition dgain (theta delta : R) (nf : nat) : C :=
  let c := RtoC ((1 - delta) / (1 + delta)) in let z := cis (- theta) in
  (cis (- (theta * INR nf)) * ((c + z) / (RtoC 1 + c * z)))%C.
Lemma dgain_mod theta delta nf : 0 < delta -> Cmod (dgain theta delta nf) = 1.
Proof.
  intros H. unfold dgain. cbv zeta. rewrite Cmod_mult, cis_mod, Rmult_1_l.
  apply unit_div; [apply away | apply mirror]; try apply cis_mod.
  split; apply Rmult_lt_reg_r with (1 + delta); try lra; unfold Rdiv; rewrite Rmult_assoc, Rinv_l by lra; lra.
Qed.
Definition fgain (fb theta delta : R) (nf : nat) : C :=
  let D := dgain theta delta nf in ((RtoC (- fb) + D) / (RtoC 1 + RtoC (- fb) * D))%C.
Lemma fgain_mod fb theta delta nf : 0 < delta -> -1 < fb < 1 -> Cmod (fgain fb theta delta nf) = 1.
Proof.
  intros H Hf. unfold fgain. cbv zeta. apply unit_div; [apply away | apply mirror]; try apply dgain_mod; try assumption. lra.
Qed.
Lemma filtered_re (h : C) sr f a phi n : filtered h sr f a phi n = a * fst (h * cis (angle sr f phi n))%C.
Proof. unfold filtered, Re, Im, cis, Cmult. cbn [fst snd]. ring. Qed.
Lemma sinusoid_re sr f a phi n : sinusoid sr f a phi n = a * fst (RtoC 1 * cis (angle sr f phi n))%C.
Proof. unfold sinusoid, cis, Cmult, RtoC. cbn [fst snd]. ring. Qed.
Lemma angle_back sr f phi n k : (k <= n)%nat ->
  cis (angle sr f phi (n - k)) = (cis (angle sr f phi n) * cis (- (2 * PI * f / sr * INR k)))%C.
Proof. intros H. rewrite <- cis_plus. f_equal. unfold angle. rewrite minus_INR by exact H. ring. Qed.
Lemma sine_at fb s nf delta r sr f a phi : usable s -> -1 < fb < 1 -> 1 / 2 <= delta < 3 / 2 ->
  (1 <= nf <= length (l_buf s))%nat -> (r < length (l_buf s))%nat -> ((r + nf = l_w s) \/ (r + nf = l_w s + length (l_buf s)))%nat ->
  approaches (feedback_process Rfrac fb)
    (mk_line (l_buf s) (l_w s) r nf (l_clear s) ((1 - delta) / (1 + delta)) (l_pin s) (l_pout s)) (sinusoid sr f a phi)
    (filtered (fgain fb (2 * PI * f / sr) delta nf) sr f a phi).
Proof.
  intros U Hfb Hd Hn Hr Hrel.
  set (theta := 2 * PI * f / sr). set (c := (1 - delta) / (1 + delta)) in *.
  set (D := dgain theta delta nf).
  assert (HD : (RtoC 1 + RtoC (- fb) * D)%C <> RtoC 0) by (apply away; [apply dgain_mod; lra | lra]).
  set (W := (RtoC 1 / (RtoC 1 + RtoC (- fb) * D))%C).
  assert (Hc : -1 < c < 1).
  { unfold c. split; apply Rmult_lt_reg_r with (1 + delta); try lra; unfold Rdiv; rewrite Rmult_assoc, Rinv_l by lra; lra. }
  assert (Hz : (RtoC 1 + RtoC c * cis (- theta))%C <> RtoC 0) by (apply away; [apply cis_mod | exact Hc]).
  destruct (approach_steady nf fb (sinusoid sr f a phi) s nf delta r
              (filtered W sr f a phi) (filtered (D * W)%C sr f a phi) U Hfb ltac:(lra) Hn Hr Hrel) as (o & Ho & Hcv).
  - intros n. rewrite sinusoid_re, !filtered_re. set (e := cis (angle sr f phi n)).
    transitivity (a * fst (RtoC fb * (D * W * e) + RtoC 1 * e)%C); [|unfold Cplus, Cmult, RtoC; cbn [fst snd]; ring].
    f_equal. f_equal. unfold W. rewrite RtoC_opp. rewrite RtoC_opp in HD. field. exact HD.
  - intros n Hn'. rewrite !filtered_re. fold c.
    rewrite (angle_back sr f phi n nf), (angle_back sr f phi n 1) by lia.
    replace (n - 1 - nf)%nat with (n - S nf)%nat by lia. rewrite (angle_back sr f phi n (S nf)) by lia.
    fold theta. set (e := cis (angle sr f phi n)).
    replace (- (theta * INR 1)) with (- theta) by (cbn [INR]; ring).
    replace (- (theta * INR (S nf))) with (- (theta * INR nf) + - theta) by (rewrite S_INR; ring).
    rewrite cis_plus. set (z := cis (- theta)) in *. set (zn := cis (- (theta * INR nf))).
    transitivity (a * fst (RtoC c * (W * (e * zn) - D * W * (e * z)) + W * (e * (zn * z)))%C);
      [|unfold Cplus, Cminus, Copp, Cplus, Cmult, RtoC; cbn [fst snd]; ring].
    f_equal. f_equal. unfold D, dgain. cbv zeta. fold c z zn. field. exact Hz.
  - exists o. split; [exact Ho|]. intros eps He. destruct (Hcv eps He) as [M HM]. exists M. intros n Hn'. specialize (HM n Hn').
    replace (filtered (fgain fb theta delta nf) sr f a phi n) with (filtered (D * W)%C sr f a phi n - fb * filtered W sr f a phi n); [exact HM|].
    rewrite !filtered_re. set (e := cis (angle sr f phi n)).
    transitivity (a * fst (D * W * e - RtoC fb * (W * e))%C); [unfold Cplus, Cminus, Copp, Cplus, Cmult, RtoC; cbn [fst snd]; ring|].
    f_equal. f_equal. unfold fgain. cbv zeta. fold D. unfold W. rewrite RtoC_opp. rewrite RtoC_opp in HD. field. exact HD.
Qed.

(** * Short delays *)
Lemma short_ramp s x a b : usable s -> 0 < x < 3 / 2 ->
  exists s', line_set Rfrac x s = Some s' /\
  approaches (line_process Rfrac) s' (fun n => ramp a b (INR n)) (fun n => ramp a b (INR n - (INR (length (l_buf s)) + x))).
Proof.
  intros U Hx. set (len := length (l_buf s)).
  assert (K : exists k, line_set Rfrac x s = Some (mk_line (l_buf s) (l_w s) (l_w s) k (l_clear s) ((1 - x) / (1 + x)) (l_pin s) (l_pout s))).
  { unfold line_set. pose proof (Zfloor_lb x) as L1. pose proof (Zfloor_ub x) as L2.
    cbn [q_floor Rfrac]. rewrite Rle_bool_true by lra. cbn [bind]. cbv zeta.
    cbn [q_ltb q_half q_sub q_nat q_add q_one Rfrac].
    assert (C : Zfloor x = 0%Z \/ Zfloor x = 1%Z).
    { assert (0 <= Zfloor x)%Z by (apply Zfloor_lub; cbn; lra).
      assert (Zfloor x < 2)%Z by (apply lt_IZR; lra). lia. }
    exists 0%nat. destruct C as [C|C]; rewrite C in *; cbn [Z.to_nat Pos.to_nat Pos.iter_op INR].
    - destruct (Rlt_bool_spec (1 / 2) x) as [A|A]; cbn [andb].
      + rewrite Rlt_bool_false by lra. cbn [bind fst snd]. cbn [Nat.leb]. cbn [bind]. rewrite Nat.sub_0_r, Rminus_0_r. reflexivity.
      + cbn [bind fst snd]. cbn [Nat.leb bind]. rewrite Nat.sub_0_r, Rminus_0_r. reflexivity.
    - change (Pos.to_nat 1) with 1%nat. cbn [INR]. rewrite !Rlt_bool_true by lra. cbn [andb Nat.eqb]. change (1 - 1)%nat with 0%nat.
      cbn [bind fst snd Nat.leb]. rewrite Nat.sub_0_r.
      replace (x - 1 + 1) with x by ring. reflexivity. }
  destruct K as [k K]. eexists. split; [exact K|]. apply approaches_plain. unfold usable in U. fold len in U.
  destruct (approach_steady k 0 (fun n => ramp a b (INR n)) s len x (l_w s)
              (fun n => ramp a b (INR n)) (fun n => ramp a b (INR n - (INR len + x))) U ltac:(lra) ltac:(lra) ltac:(lia) U ltac:(lia)) as (o & Ho & Hcv).
  - intros n. ring.
  - intros n H. rewrite !minus_INR by lia. cbn [INR]. unfold ramp. field. lra.
  - exists o. split; [exact Ho|]. intros eps He. destruct (Hcv eps He) as [M HM]. exists M. intros n Hn'. specialize (HM n Hn').
    rewrite Rmult_0_l, Rminus_0_r in HM. exact HM.
Qed.
