(** Playing a section of a buffer. *)
From Coq Require Import Reals Lra.
From Flocq Require Import Core BinarySingleNaN.
From Verif Require Import Base FloatBase FloatMore AllpassSpec AllpassProofs NoiseSpec NoiseProofs OscModel BufferModel BufferSpec BufferProofs EnvJumpProofs PlayModel PlaySpec PlayProofs.
Local Open Scope R_scope.

(** * Whole seconds *)
Lemma whole_secs : forall A : N, (A < 2 ^ 32)%N -> from_secs (fz (Z.of_N A)) = (A, 0%N).
Proof.
  intros A H. assert (A53 : (Z.abs (Z.of_N A) <= 2 ^ 53)%Z) by lia. destruct (fz_int (Z.of_N A) A53) as [F V].
  assert (P : 0 <= IZR (Z.of_N A)) by (apply IZR_le; lia).
  assert (T : Btrunc (fz (Z.of_N A) : f64) = Z.of_N A) by (apply trunc_is; rewrite V; lra).
  unfold from_secs. rewrite (as_u32_fin _ F), T. f_equal; [unfold M32; lia |].
  assert (Z0 : AllpassSpec.silent (fract (fz (Z.of_N A)) : f64)).
  { unfold fract. rewrite F, T. destruct (fsub_ok (fz (Z.of_N A) : f64) (fz (Z.of_N A)) F F) as [Va Fa];
      [rewrite Rminus_diag_eq by reflexivity; rewrite rnd_0, Rabs_R0; apply top_pos |].
    split; [exact Fa |]. rewrite Va, Rminus_diag_eq by reflexivity. apply rnd_0. }
  destruct (fz_int tes ltac:(unfold tes; lia)) as [Ft Vt].
  destruct (mul_zero_l _ (fz tes) Z0 Ft) as [Fm Vm]. rewrite (as_u32_fin _ Fm).
  rewrite (trunc_is _ 0) by (rewrite Vm; lra). unfold M32. reflexivity.
Qed.
Lemma whole_samples : forall (A sr : N), (A < 2 ^ 32)%N -> (1 <= sr <= 2 ^ 24)%N -> (A * sr <= 2 ^ 53)%N ->
  let x := to_samples (fz (Z.of_N sr)) (from_secs (fz (Z.of_N A))) in fin x /\ val x = INR (N.to_nat (A * sr)).
Proof.
  intros A sr HA Hs Hm x. unfold x. rewrite (whole_secs A HA). unfold to_samples. cbn [fst snd].
  assert (A53 : (Z.abs (Z.of_N A) <= 2 ^ 53)%Z) by lia. assert (S53 : (Z.abs (Z.of_N sr) <= 2 ^ 53)%Z) by lia.
  destruct (fz_int _ A53) as [F V]. destruct (fz_int _ S53) as [FS VS].
  assert (P53 : (Z.abs (Z.of_N (A * sr)) <= 2 ^ 53)%Z) by lia.
  destruct (fmul_ok (fz (Z.of_N A) : f64) (fz (Z.of_N sr)) F FS) as [Vp Fp]; [rewrite V, VS, <- mult_IZR, <- N2Z.inj_mul, rnd_z by exact P53; apply z_top; exact P53 |].
  rewrite V, VS, <- mult_IZR, <- N2Z.inj_mul, rnd_z in Vp by exact P53.
  assert (Z0 : AllpassSpec.silent (fdiv (fmul (fz 0) (fz (Z.of_N sr))) (fz tes) : f64)).
  { change (fz 0 : f64) with (fzero : f64).
    assert (M : AllpassSpec.silent (fmul (fzero : f64) (fz (Z.of_N sr)))) by (apply mul_zero_l; [apply silent_zero | exact FS]).
    destruct (fz_int tes ltac:(unfold tes; lia)) as [Ft Vt]. change (IZR tes) with 282240000 in Vt.
    destruct M as [MF MV]. destruct (fdiv_ok (fmul (fzero : f64) (fz (Z.of_N sr))) (fz tes) MF) as [Va B]; [rewrite Vt; lra | rewrite MV; unfold Rdiv; rewrite Rmult_0_l, rnd_0, Rabs_R0; apply top_pos |].
    split; [exact B |]. rewrite Va, MV. unfold Rdiv. rewrite Rmult_0_l. apply rnd_0. }
  change (Z.of_N 0) with 0%Z. destruct Z0 as [Fz Vz].
  destruct (fadd_ok _ _ Fp Fz) as [Va Fa]; [rewrite Vp, Vz, Rplus_0_r, rnd_z by exact P53; apply z_top; exact P53 |].
  split; [exact Fa |]. rewrite Va, Vp, Vz, Rplus_0_r, rnd_z by exact P53. rewrite INR_IZR_INZ. f_equal. lia.
Qed.

Section Sect.
Context {prec emax : Z} {I : ieee prec emax}.
Local Notation fl := (binary_float prec emax).
Variables (b : buffer) (mem : list fl) (channels ch n a d : nat).
Hypothesis Hch : b_ch b = N.of_nat ch.
Hypothesis Hlen : b_len b = N.of_nat (n * ch).
Hypothesis Hmem : length mem = (n * ch)%nat.
Hypothesis n53 : (Z.of_nat n <= 2 ^ 53)%Z.
Hypothesis Hc : (channels <= ch)%nat.
Hypothesis d0 : (0 < d)%nat.
Hypothesis ad : (a + d <= n)%nat.
(** The player is at frame [k] of the section of [d] frames from frame [a] *)
Definition sect (s : player) (k : nat) : Prop :=
  pl_fin s = false /\ fin (pl_rp s) /\ val (pl_rp s) = INR (a + k) /\ fin (step_of s) /\ val (step_of s) = 1
  /\ fin (pl_end s) /\ val (pl_end s) = INR (a + d) /\ fin (pl_start s) /\ val (pl_start s) = INR a.
Lemma sect_next : forall s k, sect s k -> (k < d)%nat -> let s' := fst (player_step b channels s) in pl_loop s' = pl_loop s /\
  (if Nat.ltb (S k) d then sect s' (S k) else if pl_loop s then sect s' 0 else pl_fin s' = true).
Proof using Hch Hlen Hmem n53 Hc d0 ad.
  intros s k (E & F & V & FS & VS & FE & VE & ZF & ZV) Hk.
  assert (RT : rnd (INR (a + S k)) = INR (a + S k) /\ Rabs (INR (a + S k)) < @top 1024) by (rewrite INR_IZR_INZ; split; [apply rnd_z | apply z_top]; lia).
  destruct RT as [R T].
  assert (ES : INR (a + k) + 1 = INR (a + S k)) by (rewrite <- S_INR; f_equal; lia).
  destruct (fadd_ok (pl_rp s) (step_of s) F FS) as [Va Fa]; [rewrite V, VS, ES, R; exact T |]. rewrite V, VS, ES, R in Va.
  unfold player_step. rewrite E. cbv zeta. cbn [pl_end pl_rp pl_loop pl_start pl_dur pl_rate pl_base pl_fin]. fold (step_of s).
  rewrite fleb_ok by assumption. rewrite Va, VE. destruct (Nat.ltb_spec (S k) d) as [L | L].
  - rewrite Rle_bool_false by (apply lt_INR; lia). cbn [fst pl_loop]. split; [reflexivity |].
    repeat (split; [first [reflexivity | exact Fa | exact Va | exact FS | exact VS | exact FE | exact VE | exact ZF] |]). exact ZV.
  - rewrite Rle_bool_true by (apply le_INR; lia). cbn [fst]. destruct (pl_loop s) eqn:Lp; cbn [pl_loop reset pl_fin]; split; try reflexivity; try exact Lp.
    unfold sect, reset. cbn [pl_fin pl_rp pl_end pl_start]. rewrite Nat.add_0_r.
    repeat (split; [first [reflexivity | exact ZF | exact ZV | exact FS | exact VS | exact FE | exact VE] |]). exact ZV.
Qed.
Lemma sect_frames : forall ds s k, all_fin mem -> sect s k -> (k < d)%nat ->
  (forall i c, (i < length ds)%nat -> (c < channels)%nat -> shows (out_at (snd (fst (play_frames b mem channels ds s))) i c)
    (if pl_loop s then val (stored mem ch c (a + (k + i) mod d)) else if Nat.ltb (k + i) d then val (stored mem ch c (a + (k + i))) else 0)) /\
  snd (play_frames b mem channels ds s) = if pl_loop s then map (fun _ => None) ds else reports (d - 1 - k) ds.
Proof using Hch Hlen Hmem n53 Hc d0 ad.
  induction ds as [| dn ds IH]; intros s k Hf O Hk.
  - split; [intros i c H; cbn [length] in H; lia |]. cbn [play_frames snd map reports]. destruct (pl_loop s); reflexivity.
  - pose proof O as (E & F & V & _). destruct (sect_next s k O Hk) as [Lp Nx]. destruct (frames_next b mem channels dn ds s E) as [N1 N2]. set (s' := fst (player_step b channels s)) in *.
    assert (First : forall c, (c < channels)%nat -> shows (interp b mem (pl_rp s) (N.of_nat c)) (val (stored mem ch c (a + k)))).
    { intros c H. apply interp_whole with n; try assumption; lia. }
    assert (Z : forall c, (c < channels)%nat -> out_at (snd (fst (play_frames b mem channels (dn :: ds) s))) 0 c = interp b mem (pl_rp s) (N.of_nat c)) by (intros c H; apply out_first; assumption).
    assert (S1 : forall i c, out_at (snd (fst (play_frames b mem channels (dn :: ds) s))) (S i) c = out_at (snd (fst (play_frames b mem channels ds s'))) i c) by (intros i c; rewrite N1; reflexivity).
    rewrite N2. destruct (Nat.ltb_spec (S k) d) as [L | L].
    + destruct (IH s' (S k) Hf Nx L) as [A B]. pose proof Nx as (E' & _). split.
      * intros [| i] c Hi H.
        -- rewrite (Z c H), Nat.add_0_r. rewrite Nat.mod_small by exact Hk. replace (k <? d)%nat with true by (symmetry; apply Nat.ltb_lt; exact Hk). destruct (pl_loop s); apply First; exact H.
        -- rewrite S1. cbn [length] in Hi. specialize (A i c ltac:(lia) H). rewrite Lp in A. replace (k + S i)%nat with (S k + i)%nat by lia. exact A.
      * rewrite E', B, Lp. cbn [map reports]. destruct (pl_loop s); [reflexivity |]. replace (d - 1 - k)%nat with (S (d - 1 - S k)) by lia. reflexivity.
    + assert (Kn : k = (d - 1)%nat) by lia. destruct (pl_loop s) eqn:Lo.
      * destruct (IH s' 0%nat Hf Nx d0) as [A B]. pose proof Nx as (E' & _). rewrite Lp in A, B. split.
        -- intros [| i] c Hi H.
           ++ rewrite (Z c H), Nat.add_0_r. rewrite Nat.mod_small by exact Hk. apply First; exact H.
           ++ rewrite S1. cbn [length] in Hi. specialize (A i c ltac:(lia) H). replace (k + S i)%nat with (i + 1 * d)%nat by lia. rewrite Nat.mod_add by lia. exact A.
        -- rewrite E', B. reflexivity.
      * rewrite (fin_frames b mem channels ds s' Nx) in *. cbn [fst snd] in *. split.
        -- intros [| i] c Hi H.
           ++ rewrite (Z c H), Nat.add_0_r. replace (k <? d)%nat with true by (symmetry; apply Nat.ltb_lt; exact Hk). apply First; exact H.
           ++ rewrite S1. replace (k + S i <? d)%nat with false by (symmetry; apply Nat.ltb_ge; lia). cbn [length] in Hi. apply out_zero; [exact H | lia].
        -- rewrite Nx. replace (d - 1 - k)%nat with 0%nat by lia. reflexivity.
Qed.
End Sect.

(** No operation changes the rate of the buffer relative to the server. *)
Lemma block_base b channels : forall n s, pl_base (fst (player_block b channels n s)) = pl_base s.
Proof.
  assert (St : forall s, pl_base (fst (player_step b channels s)) = pl_base s).
  { intros s. unfold player_step. destruct (pl_fin s); [reflexivity |]. cbv zeta. destruct (fleb _ _); [| reflexivity]. destruct (pl_loop _); reflexivity. }
  induction n as [| n IH]; intros s; cbn [player_block]; [reflexivity |]. destruct (pl_fin s); [reflexivity |]. cbn [fst]. rewrite IH. apply St.
Qed.
Lemma pop_base b channels s o : pl_base (fst (pop_step b channels s o)) = pl_base s.
Proof.
  destruct o; cbn [pop_step fst]; try reflexivity.
  - unfold player_step. destruct (pl_fin s); [reflexivity |]. cbv zeta. destruct (fleb _ _); [| reflexivity]. destruct (pl_loop _); reflexivity.
  - apply block_base.
Qed.

Definition pops b channels (s : player) (ops : list pop) : player := fold_left (fun s o => fst (pop_step b channels s o)) ops s.
Lemma pops_base b channels : forall ops s, pl_base (pops b channels s ops) = pl_base s.
Proof. induction ops as [| o ops IH]; intros s; [reflexivity |]. unfold pops in *. cbn [fold_left]. rewrite IH. apply pop_base. Qed.

Section Results.
Context {prec emax : Z} {I : ieee prec emax}.
Local Notation fl := (binary_float prec emax).
Variables (b : buffer) (mem : list fl) (n ch channels : nat) (sr : N).
Hypothesis Hb : from_vec_interleaved (N.of_nat (n * ch)) (N.of_nat ch) (fz (Z.of_N sr)) = Some b.
Hypothesis Hmem : length mem = (n * ch)%nat.
Hypothesis sr_ok : (1 <= sr <= 2 ^ 24)%N.
Hypothesis n_ok : (N.of_nat n < 2 ^ 24 * sr)%N.
Hypothesis Hc : (channels <= ch)%nat.
Lemma sect_plays : forall rate l0 ops looping (A D : N) last, all_fin mem -> (1 <= D)%N -> ((A + D) * sr <= N.of_nat n)%N ->
  last = PDur (fz (Z.of_N D)) \/ last = PEnd (fz (Z.of_N (A + D))) -> forall sizes,
  let s := pops b channels (player_init b sr (player_new b rate l0)) (ops ++ [PRate fone; PLoop looping; PStart (fz (Z.of_N A)); last; PRestart]) in
  let r := play_blocks b mem channels sizes s in
  let a := N.to_nat (A * sr) in let d := N.to_nat (D * sr) in
  (forall i c, (i < length (ends_of sizes))%nat -> (c < channels)%nat -> shows (out_at (snd (fst r)) i c)
    (if looping then val (stored mem ch c (a + i mod d)) else if Nat.ltb i d then val (stored mem ch c (a + i)) else 0)) /\
  snd r = if looping then map (fun _ => None) (ends_of sizes) else reports (d - 1) (ends_of sizes).
Proof using Hb Hmem sr_ok n_ok Hc.
  intros rate l0 ops looping A D lst Hf HD HA Hl sizes s r a d. unfold r. rewrite blocks_frames.
  destruct (buffer_facts b n ch sr Hb sr_ok n_ok) as (C0 & Ec & El & Ef & Es & N53).
  destruct (base_own sr sr_ok) as [FB VB].
  assert (AD : (A + D < 2 ^ 24)%N) by nia.
  assert (B53 : ((A + D) * sr <= 2 ^ 53)%N) by lia.
  destruct (whole_samples A sr ltac:(lia) sr_ok ltac:(nia)) as [FA VA]. fold a in VA.
  destruct (whole_samples D sr ltac:(lia) sr_ok ltac:(nia)) as [FD VD]. fold d in VD.
  destruct (whole_samples (A + D) sr ltac:(lia) sr_ok ltac:(nia)) as [FE VE].
  assert (Ead : N.to_nat ((A + D) * sr) = (a + d)%nat) by (unfold a, d; lia). rewrite Ead in VE.
  assert (d0 : (0 < d)%nat) by (unfold d; nia). assert (ad : (a + d <= n)%nat) by (unfold a, d; lia).
  assert (RT : rnd (INR (a + d)) = INR (a + d) /\ Rabs (INR (a + d)) < @top 1024) by (rewrite INR_IZR_INZ; split; [apply rnd_z | apply z_top]; lia).
  destruct RT as [Rr Tt].
  set (s0 := pops b channels (player_init b sr (player_new b rate l0)) ops).
  assert (Bs : pl_base s0 = fdiv (fz (Z.of_N sr)) (fz (Z.of_N sr))).
  { unfold s0. rewrite pops_base. unfold player_init, reset, buf_rate_scale. cbn [pl_base]. rewrite Es. reflexivity. }
  assert (Eq : s = pops b channels s0 [PRate fone; PLoop looping; PStart (fz (Z.of_N A)); lst; PRestart]) by (unfold s, pops, s0; apply fold_left_app).
  clearbody s0. clearbody s. subst s.
  destruct (fmul_ok (fdiv (fz (Z.of_N sr)) (fz (Z.of_N sr))) fone FB fin_fone) as [Vm Fm];
    [rewrite VB, val_fone, Rmult_1_l, rnd_1, Rabs_R1; change 1 with (bpow radix2 0); apply bpow_lt; lia |].
  rewrite VB, val_fone, Rmult_1_l, rnd_1 in Vm.
  match goal with |- context [play_frames b mem channels (ends_of sizes) ?x] => set (s := x) end.
  assert (O : sect a d s 0 /\ pl_loop s = looping).
  { unfold s, pops. destruct Hl as [-> | ->]; cbn [fold_left pop_step fst reset pl_rp pl_rate pl_base pl_fin pl_loop pl_start pl_dur pl_end];
      (split; [| reflexivity]); unfold sect, step_of, reset; cbn [pl_rp pl_rate pl_base pl_fin pl_loop pl_start pl_dur pl_end]; rewrite Bs, Es, ?Nat.add_0_r.
    - destruct (fadd_ok _ _ FA FD) as [Va Fa]; [rewrite VA, VD, <- plus_INR, Rr; exact Tt |]. rewrite VA, VD, <- plus_INR, Rr in Va.
      repeat (split; [first [reflexivity | assumption] |]). assumption.
    - repeat (split; [first [reflexivity | assumption] |]). assumption. }
  destruct O as [O Lp]. clearbody s.
  destruct (sect_frames b mem channels ch n a d Ec El Hmem N53 Hc d0 ad (ends_of sizes) s 0 Hf O d0) as [P Q].
  rewrite Lp in P, Q. rewrite Nat.sub_0_r in Q. split; [exact P | exact Q].
Qed.
End Results.
