(** From the first frame on: the outputs are bounded by the inputs. *)
From Coq Require Import Reals Lra Lia.
From Flocq Require Import Core.
From Verif Require Import Base DelayModel RngModel RngProofs ReverbModel ReverbSpec ReverbProofs ReverbBounds.
Local Open Scope R_scope.

Lemma Forall_set : forall {A} (P : A -> Prop) l i x l', set_nth l i x = Some l' -> Forall P l -> P x -> Forall P l'.
Proof.
  intros A P. induction l as [| h t IH]; intros i x l' H F Px; [destruct i; discriminate H |]. inversion F; subst. destruct i as [| i]; cbn [set_nth] in H.
  - injection H as <-. constructor; assumption.
  - destruct (set_nth t i x) as [t' |] eqn:E; [| discriminate]. injection H as <-. constructor; [assumption | eapply IH; eassumption].
Qed.
Lemma Forall_at : forall {A} (P : A -> Prop) l i x, Forall P l -> nth_error l i = Some x -> P x.
Proof. intros A P l i x F H. apply nth_error_In in H. rewrite Forall_forall in F. exact (F x H). Qed.
(** * The detuning line *)
Definition under (b : R) (l : ssd R) : Prop := line_ok l /\ Forall (fun c => Rabs c <= b) (ss_buf l).
Lemma under_write : forall b x l, under b l -> Rabs x <= b -> exists l', ssd_write x l = Some l' /\ under b l'.
Proof.
  intros b x l [O F] Hx. destruct (line_step 2 ltac:(lra) x l O) as (l' & y & W & _ & O' & _). exists l'. split; [exact W |]. split; [exact O' |].
  unfold ssd_write in W. apply bind_some in W as (buf & E & W). apply bind_some in W as (p & _ & W). injection W as <-. cbn. eapply Forall_set; eassumption.
Qed.
Lemma under_read : forall b l x, under b l -> 0 <= x -> exists v, read_at_lin x l = Some v /\ Rabs v <= b.
Proof.
  intros b l x [[[L0 L1] L2] F] Hx. unfold read_at_lin. set (n := length (ss_buf l)) in *. destruct (Nat.eqb_spec n 0) as [Z | NZ]; [lia |].
  set (low := Z.to_nat (Zfloor x)). set (high := Z.to_nat (Zceil x)).
  assert (F0 : (0 <= Zfloor x)%Z) by (apply Zfloor_lub; exact Hx).
  assert (LH : (low <= high <= low + 1)%nat).
  { assert (C : (Zfloor x <= Zceil x <= Zfloor x + 1)%Z).
    { split; [apply le_IZR; pose proof (Zfloor_lb x); pose proof (Zceil_ub x); lra |]. apply Zceil_glb. rewrite plus_IZR. left. apply Zfloor_ub. }
    unfold low, high. lia. }
  pose proof (Nat.div_mod low n NZ) as D. pose proof (Nat.mod_upper_bound low n NZ) as U. set (q := (low / n)%nat) in *. rewrite (Nat.mul_comm n q) in D.
  assert (I1 : (low - q * n < n)%nat) by lia.
  set (hi := if (n <=? high - q * n)%nat then (high - q * n - n)%nat else (high - q * n)%nat).
  assert (I2 : (hi < n)%nat) by (unfold hi; destruct (Nat.leb_spec n (high - q * n)); lia).
  destruct (nth_error (ss_buf l) (low - q * n)) as [c |] eqn:C; [| apply nth_error_None in C; unfold n in *; lia].
  destruct (nth_error (ss_buf l) hi) as [d |] eqn:E; [| apply nth_error_None in E; unfold n in *; lia]. cbn [bind].
  eexists. split; [reflexivity |]. pose proof (Forall_at _ _ _ _ F C) as B1. pose proof (Forall_at _ _ _ _ F E) as B2. cbv beta in *.
  pose proof (Zfloor_lb x). pose proof (Zfloor_ub x). set (f := x - IZR (Zfloor x)) in *. assert (Hf : 0 <= f < 1) by (unfold f; lra).
  replace (c + (d - c) * f) with ((1 - f) * c + f * d) by ring. apply Rle_trans with (1 := Rabs_triang _ _). rewrite !Rabs_mult, (Rabs_pos_eq (1 - f)), (Rabs_pos_eq f) by lra.
  assert ((1 - f) * Rabs c <= (1 - f) * b) by (apply Rmult_le_compat_l; lra). assert (f * Rabs d <= f * b) by (apply Rmult_le_compat_l; lra). lra.
Qed.
(** * The one pole filters *)
Definition reach (lp : R) : R := lp / (1 - Rabs (1 - lp)).
Lemma reach_pos : forall lp, 0 < lp < 2 -> 0 < reach lp.
Proof. intros lp H. unfold reach. apply Rmult_lt_0_compat; [lra |]. apply Rinv_0_lt_compat. assert (Rabs (1 - lp) < 1) by (apply Rabs_lt; lra). lra. Qed.
Lemma smooth_under : forall lp b x s, 0 < lp < 2 -> Rabs x <= b -> Rabs s <= reach lp * b -> Rabs (smooth lp x s) <= reach lp * b.
Proof.
  intros lp b x s H Hx Hs. unfold smooth. apply Rle_trans with (1 := Rabs_triang _ _). rewrite !Rabs_mult. rewrite (Rabs_pos_eq lp) by lra.
  assert (Q : Rabs (1 - lp) < 1) by (apply Rabs_lt; lra). pose proof (Rabs_pos (1 - lp)).
  assert (A : Rabs s * Rabs (1 - lp) <= reach lp * b * Rabs (1 - lp)) by (apply Rmult_le_compat_r; assumption).
  assert (B : Rabs x * lp <= b * lp) by (apply Rmult_le_compat_r; lra).
  assert (E : reach lp * b * Rabs (1 - lp) + b * lp = reach lp * b) by (unfold reach; field; lra). lra.
Qed.
Lemma lowpass_range : forall p sr, 0 <= p_bright p <= 1 -> (11026 <= sr)%N -> 0 < lowpass p (1 / 44100 * IZR (Z.of_N sr)) < 2.
Proof.
  intros p sr Hb Hs. unfold lowpass. set (s := 1 / 44100 * IZR (Z.of_N sr)). assert (S : 11026 / 44100 <= s).
  { unfold s. assert (11026 <= IZR (Z.of_N sr)) by (apply IZR_le; lia). lra. }
  assert (Q : 500012 / 1000000 < sqrt s).
  { rewrite <- (sqrt_Rsqr (500012 / 1000000)) by lra. apply sqrt_lt_1; unfold Rsqr; lra. }
  set (c := 100001 / 100000 - (1 - p_bright p)). assert (Hc : 0 < c <= 100001 / 100000) by (unfold c; lra). assert (C2 : 0 < c ^ 2 <= 100001 / 100000 * (100001 / 100000)) by (cbn [pow]; nra).
  split; [apply Rmult_lt_0_compat; [lra | apply Rinv_0_lt_compat; lra] |]. apply Rmult_lt_reg_r with (sqrt s); [lra |]. replace (c ^ 2 / sqrt s * sqrt s) with (c ^ 2) by (field; lra). lra.
Qed.
(** * Small parts *)
Lemma heard_under : forall f x X, (f < M32)%N -> Rabs x <= X -> Rabs (heard f x) <= X + 1 / 10 ^ 7.
Proof.
  intros f x X Hf Hx. pose proof (Rabs_pos x). unfold heard. assert (P : 0 <= IZR (Z.of_N f) <= 4294967296).
  { split; apply IZR_le; unfold M32 in Hf; lia. }
  destruct (Rlt_dec _ _); [| lra]. rewrite Rabs_pos_eq; [lra |]. apply Rmult_le_pos; [apply P | lra].
Qed.
Lemma attenuate_range : forall p, 0 <= p_replace p <= 1 -> 0 <= attenuate p <= 1.
Proof. intros p H. unfold attenuate, regen. lra. Qed.
Lemma regen_range : forall p, 0 < p_replace p <= 1 -> 0 <= regen p < / 8.
Proof. intros p H. unfold regen. lra. Qed.
Lemma dithered_under : forall f s b, (f < M32)%N -> Rabs s <= b -> exists o, dithered false f s = Some (rng_next f, o) /\ Rabs o <= b + 2 / 10 ^ 7.
Proof.
  intros f s b Hf Hs. unfold dithered. assert (D : exists d, pow_u64 false (exponent s) = Some d /\ 0 <= d <= bpow radix2 63).
  { unfold pow_u64. destruct (Z.ltb_spec (exponent s + 62) 64) as [L | L].
    - eexists. split; [reflexivity |]. split; [apply bpow_ge_0 | apply bpow_le; lia].
    - exists 0. split; [reflexivity |]. pose proof (bpow_ge_0 radix2 63). lra. }
  destruct D as (d & -> & D). cbn [bind]. eexists. split; [reflexivity |]. pose proof (next_small f Hf) as N1. unfold M32 in N1.
  assert (P : -2147483647 <= IZR (Z.of_N (rng_next f)) - 2147483647 <= 2147483648).
  { assert (0 <= IZR (Z.of_N (rng_next f)) <= 4294967295) by (split; apply IZR_le; lia). lra. }
  apply Rle_trans with (1 := Rabs_triang _ _). apply Rplus_le_compat; [exact Hs |]. set (r := IZR (Z.of_N (rng_next f)) - 2147483647) in *.
  rewrite !Rabs_mult, (Rabs_pos_eq (55 / 10 ^ 37)), (Rabs_pos_eq d) by lra. assert (R1 : Rabs r <= 2147483648) by (apply Rabs_le; lra).
  change (bpow radix2 63) with (IZR 9223372036854775808) in D. apply Rle_trans with (2147483648 * (55 / 10 ^ 37) * 9223372036854775808); [| lra].
  apply Rmult_le_compat; [apply Rmult_le_pos; [apply Rabs_pos | lra] | lra | apply Rmult_le_compat_r; [lra | exact R1] | lra].
Qed.
Lemma wet_range : forall p, 0 <= p_wet p <= 1 -> 0 <= wetness p <= 1.
Proof.
  intros p H. unfold wetness. set (a := 1 - p_wet p). assert (A : 0 <= a <= 1) by (unfold a; lra). assert (0 <= a ^ 3) by (apply pow_le; lra).
  assert (a ^ 3 <= 1 ^ 3) by (apply pow_incr; exact A). rewrite pow1 in H1. lra.
Qed.
Lemma root_under : forall a x y, 0 <= y -> 0 < a -> a * (x * x) <= a * (y * y) -> Rabs x <= y.
Proof.
  intros a x y Hy Ha H. apply Rmult_le_reg_l in H; [| exact Ha]. rewrite <- (Rabs_pos_eq y) by exact Hy. apply Rsqr_le_abs_0. exact H.
Qed.
(** * One frame *)
Section Gain.
Variables (rho : R) (M : nat) (p : params) (scale X : R).
Hypothesis Hr : 1 < rho.
Hypothesis HX : 0 <= X.
Hypothesis Hp : unit_params p.
Hypothesis Hg : 64 * (regen p * regen p) * rho ^ (3 * M + 2) <= 1.
Hypothesis Hl : 0 < lowpass p scale < 2.
Definition B : R := X + 1 / 10 ^ 7.
Definition h : R := reach (lowpass p scale).
Definition c1 : R := 4 * (rho / (rho - 1)).
Definition c2 : R := c1 * (2 * (h * h)) * (rho / (rho - 1)).
Definition k3 : R := kappa rho M * kappa rho M * kappa rho M.
Definition K1 : R := sqrt (c2 / k3).
Record inv (g : galactic) : Prop := {
  i_fl : (g_fpd_l g < M32)%N; i_fr : (g_fpd_r g < M32)%N; i_dl : under B (g_dl g); i_dr : under B (g_dr g);
  i_al : Rabs (g_al g) <= h * B; i_ar : Rabs (g_ar g) <= h * B; i_tank : tank_short M (g_tank g); i_level : level rho M (g_tank g) <= c2 * (B * B);
  i_bl : Rabs (g_bl g) <= h * (K1 * B); i_br : Rabs (g_br g) <= h * (K1 * B); i_scale : g_scale g = scale; i_par : g_par g = p }.
Lemma B_pos : 0 < B. Proof using HX. unfold B. lra. Qed.
Lemma h_pos : 0 < h. Proof using Hl. apply reach_pos. exact Hl. Qed.
Lemma k3_pos : 0 < k3. Proof using Hr. pose proof (kappa_pos rho Hr M). unfold k3. repeat apply Rmult_lt_0_compat; assumption. Qed.
Lemma ratio_pos : 0 < rho / (rho - 1). Proof using Hr. apply Rmult_lt_0_compat; [lra | apply Rinv_0_lt_compat; lra]. Qed.
Lemma c2_pos : 0 < c2.
Proof using Hr Hl. pose proof h_pos as H0. pose proof ratio_pos as H1. unfold c2, c1. set (r := rho / (rho - 1)) in *. clearbody r. pose proof (Rmult_lt_0_compat _ _ H0 H0) as H2. apply Rmult_lt_0_compat; [apply Rmult_lt_0_compat; lra | exact H1]. Qed.
Lemma K1_ok : 0 <= K1 /\ k3 * (K1 * K1) = c2.
Proof using Hr Hl.
  pose proof c2_pos. pose proof k3_pos. split; [apply sqrt_pos |]. unfold K1. rewrite sqrt_def; [field; lra |]. apply Rmult_le_pos; [lra | left; apply Rinv_0_lt_compat; assumption].
Qed.
Lemma square_le : forall x y, Rabs x <= y -> x * x <= y * y.
Proof. intros x y H. pose proof (Rabs_pos x). replace (x * x) with (Rabs x * Rabs x) by (rewrite <- Rabs_mult; apply Rabs_pos_eq, Rle_0_sqr). apply Rmult_le_compat; assumption. Qed.
Lemma inv_step : forall x g, within X x -> inv g -> exists g' o, frame false x g = Some (g', o) /\ inv g' /\ within ((h * K1 + 3) * B) o.
Proof using Hr HX Hp Hg Hl.
  intros [xl xr] g [X1 X2] I. cbn [fst snd] in X1, X2. destruct I as [FL FR DL DR AL AR TK LV BL BR SC PA]. destruct Hp as (P1 & P2 & P3 & P4 & P5).
  pose proof B_pos as B0. pose proof h_pos as H0. destruct K1_ok as [K0 K2]. pose proof k3_pos as KK. pose proof c2_pos as C0.
  unfold frame, signal_frame. cbn [fst snd]. rewrite PA, SC. set (dl := heard (g_fpd_l g) xl). set (dr := heard (g_fpd_r g) xr).
  pose proof (heard_under _ _ _ FL X1 : Rabs dl <= B) as HL. pose proof (heard_under _ _ _ FR X2 : Rabs dr <= B) as HR.
  destruct (vibrate p (g_fpd_l g) (g_oldfpd g) (g_vib g)) as [vib old].
  pose proof (attenuate_range p P1) as AT. assert (AM : forall d, Rabs d <= B -> Rabs (d * attenuate p) <= B).
  { intros d Hd. rewrite Rabs_mult, (Rabs_pos_eq (attenuate p)) by lra. pose proof (Rabs_pos d). nra. }
  destruct (under_write _ _ _ DL (AM _ HL)) as (ml & -> & DL'). cbn [bind]. destruct (under_write _ _ _ DR (AM _ HR)) as (mr & -> & DR'). cbn [bind].
  assert (SN : forall (l : ssd R) a, 0 <= INR (ss_pos l) + (sin a + 1) * 127) by (intros l a; pose proof (pos_INR (ss_pos l)); pose proof (SIN_bound a); lra).
  destruct (under_read _ _ _ DL' (SN ml vib)) as (il & -> & IL). cbn [bind]. destruct (under_read _ _ _ DR' (SN mr (vib + PI / 2))) as (ir & -> & IR). cbn [bind].
  set (lp := lowpass p scale) in *. pose proof (smooth_under lp B il (g_al g) Hl IL AL) as AL'. pose proof (smooth_under lp B ir (g_ar g) Hl IR AR) as AR'. change (reach lp) with h in AL', AR'.
  set (al := smooth lp il (g_al g)) in *. set (ar := smooth lp ir (g_ar g)) in *.
  destruct (tank_step rho Hr M (regen p) al ar (g_tank g) TK Hg) as (tk & [ol or] & -> & TK' & _ & _ & LV' & O). cbn [bind fst snd] in *. fold k3 in O. fold c1 in LV'.
  assert (LV2 : level rho M tk <= c2 * (B * B)).
  { apply Rle_trans with (1 := LV'). pose proof (square_le _ _ AL') as Q1. pose proof (square_le _ _ AR') as Q2.
    assert (Z1 : 0 < c1) by (unfold c1; pose proof ratio_pos; lra).
    assert (T1 : level rho M (g_tank g) / rho <= c2 * (B * B) / rho) by (apply Rmult_le_compat_r; [left; apply Rinv_0_lt_compat; lra | exact LV]).
    assert (T2 : c1 * (al * al + ar * ar) <= c1 * (2 * (h * B * (h * B)))) by (apply Rmult_le_compat_l; lra).
    assert (E : c2 * (B * B) / rho + c1 * (2 * (h * B * (h * B))) = c2 * (B * B)) by (unfold c2; field; lra). lra. }
  assert (OB : Rabs ol <= K1 * B /\ Rabs or <= K1 * B).
  { assert (KB : 0 <= K1 * B) by (apply Rmult_le_pos; lra). assert (E : k3 * (K1 * B * (K1 * B)) = c2 * (B * B)) by (rewrite <- K2; ring).
    pose proof (Rle_0_sqr ol) as S1. pose proof (Rle_0_sqr or) as S2. unfold Rsqr in S1, S2.
    assert (0 <= k3 * (ol * ol)) by (apply Rmult_le_pos; lra). assert (0 <= k3 * (or * or)) by (apply Rmult_le_pos; lra).
    split; apply (root_under k3); try assumption; rewrite E; lra. }
  destruct OB as [OL OR]. pose proof (smooth_under lp _ ol (g_bl g) Hl OL BL) as BL'. pose proof (smooth_under lp _ or (g_br g) Hl OR BR) as BR'. change (reach lp) with h in BL', BR'.
  set (bl := smooth lp ol (g_bl g)) in *. set (br := smooth lp or (g_br g)) in *. pose proof (wet_range p P5) as W. set (w := wetness p) in *.
  assert (MX : forall b d, Rabs b <= h * (K1 * B) -> Rabs d <= B -> Rabs (b * w + d * (1 - w)) <= h * (K1 * B) + B).
  { intros b d Q1 Q2. apply Rle_trans with (1 := Rabs_triang _ _). rewrite !Rabs_mult, (Rabs_pos_eq w), (Rabs_pos_eq (1 - w)) by lra. pose proof (Rabs_pos b). pose proof (Rabs_pos d). nra. }
  assert (OUT : exists vl vr, (if Rlt_dec w 1 then (bl * w + dl * (1 - w), br * w + dr * (1 - w)) else (bl, br)) = (vl, vr) /\ Rabs vl <= h * (K1 * B) + B /\ Rabs vr <= h * (K1 * B) + B).
  { destruct (Rlt_dec w 1); eexists; eexists; (split; [reflexivity |]); split; try (apply MX; assumption); lra. }
  destruct OUT as (vl & vr & -> & VL & VR). cbn [g_fpd_l g_fpd_r].
  destruct (dithered_under _ _ _ FL VL) as (zl & -> & ZL). cbn [bind]. destruct (dithered_under _ _ _ FR VR) as (zr & -> & ZR). cbn [bind fst snd].
  eexists. eexists. split; [reflexivity |]. split.
  - constructor; cbn; try assumption; try reflexivity; apply next_small; assumption.
  - assert (E : 2 / 10 ^ 7 <= 2 * B) by (unfold B; lra). split; cbn [fst snd]; replace ((h * K1 + 3) * B) with (h * (K1 * B) + B + 2 * B) by ring; lra.
Qed.
Lemma inv_frames : forall xs g, Forall (within X) xs -> inv g -> exists g' os, frames false xs g = Some (g', os) /\ inv g' /\ Forall (within ((h * K1 + 3) * B)) os.
Proof using Hr HX Hp Hg Hl.
  induction xs as [| x xs IH]; intros g F I; [exists g, []; split; [reflexivity |]; split; [exact I | constructor] |]. inversion F; subst.
  destruct (inv_step x g ltac:(assumption) I) as (g1 & o1 & E1 & I1 & O1). destruct (IH g1 ltac:(assumption) I1) as (g2 & o2 & E2 & I2 & O2).
  exists g2, (o1 :: o2). cbn [frames]. rewrite E1. cbn [bind fst snd]. rewrite E2. split; [reflexivity |]. split; [exact I2 | constructor; assumption].
Qed.
Lemma inv_blocks : forall bs g, Forall (Forall (within X)) bs -> inv g -> g_sized g -> exists g' os, blocks false bs g = Some (g', os) /\ Forall (Forall (within ((h * K1 + 3) * B))) os.
Proof using Hr HX Hp Hg Hl.
  induction bs as [| b bs IH]; intros g F I Z; [exists g, []; repeat split; constructor |]. inversion F; subst.
  destruct (inv_frames b g ltac:(assumption) I) as (g1 & o1 & E1 & I1 & O1). destruct (IH g1 ltac:(assumption) I1 (frames_sized _ _ _ _ _ E1 Z)) as (g2 & o2 & E2 & O2).
  exists g2, (o1 :: o2). cbn [blocks]. rewrite (process_same _ _ _ Z), E1. cbn [bind fst snd]. rewrite E2. split; [reflexivity | constructor; assumption].
Qed.
End Gain.

(** * The start *)
Definition fresh (sr : N) (l : ssd R) : Prop := exists n, l = mk_ssd (repeat 0 n) 0 n /\ (170 <= n <= N.to_nat sr)%nat.
Lemma line_new_fresh : forall sr t, (11026 <= sr)%N -> (680 <= t <= 15220)%Z -> exists l, line_new sr t = Some l /\ fresh sr l.
Proof.
  intros sr t Hs Ht. unfold line_new. set (x := IZR t / 44100 * IZR (Z.of_N sr)). assert (S : 11026 <= IZR (Z.of_N sr)) by (apply IZR_le; lia).
  assert (T : 680 <= IZR t <= 15220) by (split; apply IZR_le; lia). assert (XB : 170 <= x <= IZR (Z.of_N sr)) by (unfold x; nra).
  rewrite Ztrunc_floor by lra. assert (Z1 : (170 <= Zfloor x)%Z) by (apply Zfloor_lub; lra). assert (Z2 : (Zfloor x <= Z.of_N sr)%Z) by (apply le_IZR; pose proof (Zfloor_lb x); lra).
  unfold ssd_new. destruct (Nat.eqb_spec (Z.to_nat (Zfloor x)) 0) as [Q | _]; [lia |]. eexists. split; [reflexivity |]. eexists. split; [reflexivity |]. lia.
Qed.
Lemma each_fresh : forall sr ts, (11026 <= sr)%N -> Forall (fun t => (680 <= t <= 15220)%Z) ts -> exists ls, each (line_new sr) ts = Some ls /\ Forall (fresh sr) ls /\ length ls = length ts.
Proof.
  intros sr ts Hs F. induction F as [| t ts Ht _ IH]; [exists []; repeat split; constructor |]. destruct IH as (ls & E & F & L). destruct (line_new_fresh sr t Hs Ht) as (l & E1 & F1).
  exists (l :: ls). cbn [each]. rewrite E1. cbn [bind]. rewrite E. split; [reflexivity |]. split; [constructor; assumption | cbn; congruence].
Qed.
Definition quiet (l : ssd R) : Prop := Forall (fun x => x = 0) (ss_buf l).
Lemma quiet_en : forall rho l, quiet l -> en rho l = 0.
Proof.
  intros rho l Q. unfold en, wsum. assert (C : forall k, cell l k = 0).
  { intros k. unfold cell. destruct (nth_in_or_default ((ss_pos l + k) mod ss_len l) (ss_buf l) 0) as [I | I]; [| exact I]. unfold quiet in Q. rewrite Forall_forall in Q. exact (Q _ I). }
  rewrite (sumn_ext _ _ (fun _ => 0)) by (intros; rewrite C; ring). assert (Z : forall n, sumn n (fun _ => 0) = 0) by (induction n as [| n IH]; cbn [sumn]; [reflexivity | rewrite IH; ring]).
  rewrite Z. unfold Rdiv. ring.
Qed.
Lemma fresh_resized : forall sr x l, fresh sr l -> 1 / 10 <= x <= 1 -> exists l', set_fraction x l = Some l' /\ short (N.to_nat sr) l' /\ quiet l'.
Proof.
  intros sr x l (n & -> & Hn) Hx. unfold set_fraction. cbn [ss_buf ss_pos]. rewrite repeat_length. assert (N0 : 170 <= INR n) by (replace 170 with (INR 170) by (rewrite INR_IZR_INZ; reflexivity); apply le_INR; lia).
  assert (XB : 17 <= INR n * x <= INR n) by nra. destruct (Rlt_dec (-1) (INR n * x)) as [_ | Q]; [| lra]. eexists. split; [reflexivity |].
  rewrite Ztrunc_floor by lra. assert (Z1 : (17 <= Zfloor (INR n * x))%Z) by (apply Zfloor_lub; lra).
  assert (Z2 : (Zfloor (INR n * x) <= Z.of_nat n)%Z) by (apply le_IZR; rewrite <- INR_IZR_INZ; pose proof (Zfloor_lb (INR n * x)); lra).
  split.
  - split; [split |]; cbn [ss_len ss_buf ss_pos]; rewrite ?repeat_length; lia.
  - unfold quiet. cbn [ss_buf]. apply Forall_forall. intros y Hy. exact (repeat_spec _ _ _ Hy).
Qed.
Lemma each_resized : forall sr x ls, Forall (fresh sr) ls -> 1 / 10 <= x <= 1 -> exists ls', each (set_fraction x) ls = Some ls' /\ Forall (short (N.to_nat sr)) ls' /\ Forall quiet ls' /\ length ls' = length ls.
Proof.
  intros sr x ls F Hx. induction F as [| l ls Fl _ IH]; [exists []; repeat split; constructor |]. destruct IH as (r & E & S & Q & L). destruct (fresh_resized sr x l Fl Hx) as (l' & E1 & S1 & Q1).
  exists (l' :: r). cbn [each]. rewrite E1. cbn [bind]. rewrite E. split; [reflexivity |]. split; [constructor; assumption |]. split; [constructor; assumption | cbn; congruence].
Qed.
Definition side_quiet (s : side) : Prop := Forall quiet (stage0 s) /\ Forall quiet (stage1 s) /\ Forall quiet (stage2 s).
Lemma total_quiet : forall rho ls, Forall quiet ls -> total (map (en rho) ls) = 0.
Proof. intros rho ls F. induction F as [| l ls Q _ IH]; [reflexivity |]. cbn [map total]. rewrite IH, (quiet_en rho l Q). ring. Qed.
Lemma side_start : forall sr x, (11026 <= sr)%N -> 1 / 10 <= x <= 1 -> exists s s', side_new sr = Some s /\ resize x s = Some s' /\ side_short (N.to_nat sr) s' /\ side_quiet s'.
Proof.
  intros sr x Hs Hx. assert (T : forall ts, (ts = times0 \/ ts = times1 \/ ts = times2) -> Forall (fun t => (680 <= t <= 15220)%Z) ts) by (intros ts [-> | [-> | ->]]; repeat constructor; lia).
  destruct (each_fresh sr times0 Hs ltac:(apply T; auto)) as (a & A1 & A2 & A3). destruct (each_fresh sr times1 Hs ltac:(apply T; auto)) as (b & B1 & B2 & B3).
  destruct (each_fresh sr times2 Hs ltac:(apply T; auto)) as (c & C1 & C2 & C3).
  destruct (each_resized sr x a A2 Hx) as (a' & D1 & D2 & D3 & D4). destruct (each_resized sr x b B2 Hx) as (b' & E1 & E2 & E3 & E4). destruct (each_resized sr x c C2 Hx) as (c' & F1 & F2 & F3 & F4).
  exists (mk_side a b c), (mk_side a' b' c'). unfold side_new, resize. cbn [stage0 stage1 stage2]. rewrite A1. cbn [bind]. rewrite B1. cbn [bind]. rewrite C1. split; [reflexivity |].
  rewrite D1. cbn [bind]. rewrite E1. cbn [bind]. rewrite F1. split; [reflexivity |]. split; [| repeat split; assumption].
  split; [| repeat split; assumption]. unfold fours. cbn [stage0 stage1 stage2]. rewrite D4, E4, F4, A3, B3, C3. repeat split; reflexivity.
Qed.
Theorem bounded : forall sr p, (11026 <= sr)%N -> unit_params p -> 0 < p_replace p ->
  exists K, forall fl fr, (fl < M32)%N -> (fr < M32)%N -> exists g, galactic_init sr fl fr p = Some g /\
  forall X bs, 0 <= X -> Forall (Forall (within X)) bs -> exists g' os, blocks false bs g = Some (g', os) /\ Forall (Forall (within (K * (X + 1 / 10 ^ 7)))) os.
Proof.
  intros sr p Hs Hp Hrep. set (M := N.to_nat sr). assert (Hrr : 0 < p_replace p <= 1) by (destruct Hp; lra).
  destruct (rate_regen (regen p) M (regen_range p Hrr)) as (rho & Hr & G). set (scale := 1 / 44100 * IZR (Z.of_N sr)).
  assert (Hl : 0 < lowpass p scale < 2) by (apply lowpass_range; [apply Hp | exact Hs]).
  assert (Hz : 1 / 10 <= size p <= 1) by (destruct Hp as (_ & _ & _ & Q & _); unfold size; lra).
  exists (h p scale * K1 rho M p scale + 3). intros fl fr Hfl Hfr. destruct (side_start sr (size p) Hs Hz) as (s & s' & S1 & S2 & S3 & S4).
  unfold galactic_init. rewrite S1. cbn [bind]. assert (D : exists d, ssd_new R 0 256 = Some d /\ forall b, 0 <= b -> under b d).
  { eexists. split; [reflexivity |]. intros b Hb. split; [split; cbn [ss_len ss_buf ss_pos]; rewrite ?repeat_length; lia |]. cbn [ss_buf]. apply Forall_forall. intros y Hy. rewrite (repeat_spec _ _ _ Hy), Rabs_R0. exact Hb. }
  destruct D as (d & -> & D). cbn [bind]. eexists. split; [reflexivity |]. intros X bs HX F. destruct bs as [| b bs]; [eexists; exists []; split; [reflexivity | constructor] |].
  set (g1 := mk_galactic (mk_tank s' s' [0; 0; 0; 0] [0; 0; 0; 0]) d d fl fr (4294967295 / 10000) 3 0 0 0 0 scale p).
  assert (Z : g_sized g1) by (split; apply (resize_sized _ _ _ S2)).
  assert (I : inv rho M p scale X g1).
  { pose proof (B_pos X HX) as B0. pose proof (h_pos p scale Hl) as H0. destruct (K1_ok rho M p scale Hr Hl) as [K0 _]. pose proof (c2_pos rho p scale Hr Hl) as C0.
    constructor; cbn [g1 g_fpd_l g_fpd_r g_dl g_dr g_al g_ar g_bl g_br g_tank g_scale g_par]; try assumption; try reflexivity; try (apply D; lra); try (rewrite Rabs_R0; apply Rmult_le_pos; [lra |]; try apply Rmult_le_pos; lra).
    - split; [exact S3 |]. split; [exact S3 |]. split; reflexivity.
    - unfold level, side_en. cbn [t_left t_right t_fb0 t_fb1]. destruct S4 as (Q0 & Q1 & Q2). rewrite (total_quiet rho _ Q0), (total_quiet rho _ Q1), (total_quiet rho _ Q2). unfold squares. cbn [map total].
      match goal with |- ?a <= _ => replace a with 0 by ring end. apply Rmult_le_pos; [lra |]. apply Rmult_le_pos; lra. }
  assert (E : blocks false (b :: bs) (mk_galactic (mk_tank s s [0; 0; 0; 0] [0; 0; 0; 0]) d d fl fr (4294967295 / 10000) 3 0 0 0 0 scale p) = blocks false (b :: bs) g1).
  { cbn [blocks]. rewrite (process_same _ _ _ Z). unfold process. cbn [g_par g_tank t_left t_right]. rewrite S2. reflexivity. }
  fold scale. rewrite E. exact (inv_blocks rho M p scale X Hr HX Hp G Hl (b :: bs) g1 F I Z).
Qed.
