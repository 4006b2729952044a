From Verif Require Import Base DeviceModel DeviceSpec.
Local Open Scope nat_scope.

Section Device.
Variable P S D : Type.
Variable process : P -> list (list S) -> P * list (list S).
Variable out_conv : S -> D.
Variable bs channels : nat.
Hypothesis bs_pos : 0 < bs.
Variable p0 : P.
Hypothesis blocks : forall n, shaped S bs channels (nth_block P S process p0 n).

Lemma read_frame_ok : forall w (b : list (list S)) c i, shaped S bs channels b -> i < bs -> c + w <= channels ->
  exists f, read_frame S D out_conv b w c i = Some f /\ length f = w /\
    forall k, k < w -> exists ch x, nth_error b (c + k) = Some ch /\ nth_error ch i = Some x /\ nth_error f k = Some (out_conv x).
Proof.
  induction w as [| w IH]; intros b c i B Hi Hc; cbn [read_frame].
  - exists []. split; [reflexivity |]. split; [reflexivity |]. intros k Hk. lia.
  - destruct B as [B1 B2]. destruct (nth_error b c) as [ch |] eqn:Ec; [| apply nth_error_None in Ec; lia].
    pose proof (B2 ch (nth_error_In _ _ Ec)) as L. destruct (nth_error ch i) as [x |] eqn:Ex; [| apply nth_error_None in Ex; lia].
    unfold read. rewrite Ec. cbn [bind]. rewrite Ex. cbn [bind]. destruct (IH b (Datatypes.S c) i (conj B1 B2) Hi ltac:(lia)) as (f & E & Lf & F). rewrite E. cbn [bind].
    exists (out_conv x :: f). split; [reflexivity |]. split; [cbn [length]; lia |]. intros [| k] Hk.
    + exists ch, x. rewrite Nat.add_0_r. auto.
    + destruct (F k ltac:(lia)) as (ch' & x' & A & A2 & A3). exists ch', x'. replace (c + Datatypes.S k) with (Datatypes.S c + k) by lia. auto.
Qed.
(** After [n] frames: [r] blocks were made *)
Definition at_frame (n : nat) (st : cpal P S) : Prop := exists r, c_proc _ _ st = after P S process p0 r /\ n + bs = r * bs + c_counter _ _ st /\ 0 < c_counter _ _ st <= bs /\
  (0 < r -> c_block _ _ st = nth_block P S process p0 (r - 1)).
Lemma frame_ok n st : at_frame n st -> exists st' f, cpal_frame P S D process out_conv bs 0 st channels = Some (st', f) /\ at_frame (Datatypes.S n) st' /\ is_frame P S D process bs channels p0 out_conv n f.
Proof.
  intros (r & Ep & En & Hc & Eb). unfold cpal_frame. destruct (Nat.leb_spec bs (c_counter _ _ st)) as [L | L].
  - assert (Ec : c_counter _ _ st = bs) by lia. cbn [run_without_inputs Nat.eqb bind fst snd c_block c_counter c_proc]. rewrite Ep. change (snd (process (after P S process p0 r) [])) with (nth_block P S process p0 r).
    destruct (read_frame_ok channels (nth_block P S process p0 r) 0 0 (blocks r) bs_pos ltac:(lia)) as (f & E & Lf & F). rewrite E. cbn [bind]. eexists. exists f. split; [reflexivity |].
    assert (Nr : n = bs * r) by nia.
    split.
    + exists (Datatypes.S r). cbn [c_proc c_counter c_block]. split; [reflexivity |]. split; [nia |]. split; [lia |]. intros _. f_equal. lia.
    + split; [exact Lf |]. intros c Hcc. rewrite Nr, (Nat.mul_comm bs r), Nat.div_mul, Nat.mod_mul by lia. exact (F c Hcc).
  - cbn [bind]. assert (Hr : 0 < r) by (destruct r; [cbn in En; lia | lia]). rewrite (Eb Hr).
    destruct (read_frame_ok channels (nth_block P S process p0 (r - 1)) 0 (c_counter _ _ st) (blocks _) L ltac:(lia)) as (f & E & Lf & F). rewrite E. cbn [bind]. eexists. exists f. split; [reflexivity |].
    assert (Nr : n = bs * (r - 1) + c_counter _ _ st) by nia.
    split.
    + exists r. cbn [c_proc c_counter c_block]. split; [exact Ep |]. split; [lia |]. split; [lia |]. intros _. reflexivity.
    + split; [exact Lf |]. intros c Hcc. rewrite <- (Nat.div_unique n bs (r - 1) (c_counter _ _ st) L Nr), <- (Nat.mod_unique n bs (r - 1) (c_counter _ _ st) L Nr). exact (F c Hcc).
Qed.
Lemma frames_ok : forall m n st, at_frame n st -> exists st' fs, cpal_frames P S D process out_conv bs 0 st (repeat channels m) = Some (st', fs) /\ at_frame (n + m) st' /\
  length fs = m /\ forall i f, nth_error fs i = Some f -> is_frame P S D process bs channels p0 out_conv (n + i) f.
Proof.
  induction m as [| m IH]; intros n st A; cbn [repeat cpal_frames].
  - exists st, []. rewrite Nat.add_0_r. split; [reflexivity |]. split; [exact A |]. split; [reflexivity |]. intros [| i] f; discriminate.
  - destruct (frame_ok n st A) as (st1 & f & E1 & A1 & F1). rewrite E1. cbn [bind fst snd]. destruct (IH _ _ A1) as (st2 & fs & E2 & A2 & L2 & F2). rewrite E2. cbn [bind fst snd].
    exists st2, (f :: fs). split; [reflexivity |]. replace (n + Datatypes.S m) with (Datatypes.S n + m) by lia. split; [exact A2 |]. split; [cbn [length]; lia |].
    intros [| i] g Hg; cbn [nth_error] in Hg; [injection Hg as <-; rewrite Nat.add_0_r; exact F1 |]. replace (n + Datatypes.S i) with (Datatypes.S n + i) by lia. apply F2. exact Hg.
Qed.
Lemma run_ok : 0 < channels -> forall ms n st, at_frame n st -> exists st' outs fs, cpal_run P S D process out_conv bs 0 channels st (map (fun m => m * channels) ms) = Some (st', outs) /\ at_frame (n + list_sum ms) st' /\
  concat outs = concat fs /\ map (@length D) outs = map (fun m => m * channels) ms /\ length fs = list_sum ms /\ forall i f, nth_error fs i = Some f -> is_frame P S D process bs channels p0 out_conv (n + i) f.
Proof.
  intros Hch. induction ms as [| m ms IH]; intros n st A; cbn [map cpal_run].
  - exists st, [], []. change (list_sum []) with 0. rewrite Nat.add_0_r. split; [reflexivity |]. split; [exact A |]. split; [reflexivity |]. split; [reflexivity |]. split; [reflexivity |]. intros [| i] f; discriminate.
  - unfold cpal_callback, chunk_widths. replace (channels =? 0) with false by (symmetry; apply Nat.eqb_neq; lia). cbn [bind]. rewrite Nat.div_mul, Nat.mod_mul by lia. cbn [Nat.eqb]. rewrite app_nil_r.
    destruct (frames_ok m n st A) as (st1 & fs1 & E1 & A1 & L1 & F1). rewrite E1. cbn [bind fst snd]. destruct (IH _ _ A1) as (st2 & outs & fs2 & E2 & A2 & C2 & M2 & L2 & F2). rewrite E2. cbn [bind fst snd].
    exists st2, (concat fs1 :: outs), (fs1 ++ fs2). change (list_sum (m :: ms)) with (m + list_sum ms). split; [reflexivity |]. rewrite Nat.add_assoc. split; [exact A2 |]. split; [cbn [concat]; rewrite C2, concat_app; reflexivity |].
    split; [| split; [rewrite app_length; lia |]].
    + cbn [map]. f_equal; [| exact M2]. clear - L1 F1. subst m. revert n F1. induction fs1 as [| f fs IHf]; intros n F1; [reflexivity |]. cbn [concat length Nat.mul]. rewrite app_length, (IHf (Datatypes.S n)).
      * rewrite (proj1 (F1 0 f eq_refl)). reflexivity.
      * intros i g Hg. replace (Datatypes.S n + i) with (n + Datatypes.S i) by lia. apply F1. exact Hg.
    + intros i f Hf. destruct (Nat.lt_ge_cases i (length fs1)) as [L | L].
      * rewrite nth_error_app1 in Hf by exact L. apply F1. exact Hf.
      * rewrite nth_error_app2 in Hf by exact L. replace (n + i) with (n + m + (i - length fs1)) by lia. apply F2. exact Hf.
Qed.
Lemma new_at initial : at_frame 0 (cpal_new P S bs p0 initial).
Proof. exists 0. cbn [cpal_new c_proc c_counter c_block after]. split; [reflexivity |]. split; [lia |]. split; [lia | lia]. Qed.
End Device.

(** ** jack *)
Lemma zip_copy_full {A B} (f : A -> B) : forall from to, length from = length to -> zip_copy f from to = map f from.
Proof. induction from as [| a from IH]; intros [| b to] H; try discriminate; [reflexivity |]. cbn [zip_copy map]. rewrite IH by (injection H; auto). reflexivity. Qed.
Lemma copy_ports_full {A B} (f : A -> B) : forall from to, length from = length to -> Forall2 (fun a b => length a = length b) from to -> copy_ports f from to = map (map f) from.
Proof.
  intros from to _ H. induction H as [| a b from to Hab _ IH]; [reflexivity |]. cbn [copy_ports map]. rewrite zip_copy_full by exact Hab. rewrite IH. reflexivity.
Qed.
