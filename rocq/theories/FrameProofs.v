(** Proofs about the samples of blocks *)
From Verif Require Import Base BlockModel BlockSpec BlockProofs PreciseModel PreciseSpec FrameSpec.
Local Open Scope nat_scope.

Section P.
Context {F V St : Type}.
Variable zero : F.
Variable u : ugen F V St.
Lemma read_ok : forall n ib iv x f, shows ib iv x -> n <= b_channels ib -> f < v_size ib iv ->
  exists y, read_frame zero ib iv f n = Some y /\ forall c, c < n -> y c = x c f.
Proof.
  induction n as [| n IH]; intros ib iv x f Hx Hn Hf; cbn [read_frame]; [eexists; split; [reflexivity | intros c H; lia] |].
  destruct (IH ib iv x f Hx ltac:(lia) Hf) as (y & -> & Hy). cbn [bind]. rewrite (Hx n f ltac:(lia) Hf). cbn [bind]. eexists. split; [reflexivity |].
  intros c Hc. cbv beta. destruct (Nat.eqb_spec c n) as [-> | N]; [reflexivity | apply Hy; lia].
Qed.
Lemma shows_ext : forall (b : block F) v g g', (forall c f, c < b_channels b -> f < v_size b v -> g c f = g' c f) -> shows b v g -> shows b v g'.
Proof. intros b v g g' E H c f Hc Hf. rewrite <- E by assumption. apply H; assumption. Qed.
Lemma write_frame_ok : forall n (ob : block F) ov g f y, block_wf ob -> view_ok ob ov -> shows ob [] g -> n <= b_channels ob -> f < v_size ob ov ->
  exists ob', write_frame ob ov f n y = Some ob' /\ block_wf ob' /\ same_shape ob ob' /\
    shows ob' [] (fun c f' => if (c <? n) && (f' =? origin ov + f) then y c else g c f').
Proof.
  induction n as [| n IH]; intros ob ov g f y W Hv Hg Hn Hf; cbn [write_frame]; [exists ob; repeat split; assumption |].
  destruct (IH ob ov g f y W Hv Hg ltac:(lia) Hf) as (b1 & -> & W1 & S1 & G1). cbn [bind]. destruct (same_shape_view ob b1 ov S1) as [Hsz Hvo].
  destruct (write_ok b1 ov _ n f (y n) W1 (Hvo Hv) G1) as (b2 & E & W2 & S2 & G2).
  { destruct S1 as (-> & _). lia. }
  { rewrite Hsz. exact Hf. }
  rewrite E. exists b2. split; [reflexivity |]. split; [exact W2 |]. split; [destruct S1 as (? & ? & ?), S2 as (? & ? & ?); repeat split; congruence |].
  eapply shows_ext; [| exact G2]. intros c f' _ _. unfold upd.
  destruct (Nat.eqb_spec c n) as [-> | N].
  - replace (n <? S n) with true by (symmetry; apply Nat.ltb_lt; lia). replace (n <? n) with false by (symmetry; apply Nat.ltb_ge; lia). cbn [andb].
    destruct (f' =? origin ov + f); reflexivity.
  - cbn [andb]. replace (c <? S n) with (c <? n); [reflexivity |]. destruct (Nat.ltb_spec c n), (Nat.ltb_spec c (S n)); (reflexivity || lia).
Qed.
Lemma room_shape : forall n ib iv ob ov ob', room u n ib iv ob ov -> block_wf ob' -> same_shape ob ob' -> room u n ib iv ob' ov.
Proof.
  intros n ib iv ob ov ob' (A & B & C & D & E & G) W S. destruct (same_shape_view ob ob' ov S) as [Hsz Hvo]. destruct S as (Sc & _).
  repeat split; try assumption; [apply Hvo; exact D | rewrite Sc; exact E | rewrite Hsz; exact G].
Qed.
Lemma timed_samples : own_inputs u -> forall l x st0 n t ib iv ob ov g, shows ib iv x -> room u (t + n) ib iv ob ov -> shows ob [] g ->
  exists ob', timed zero u n t l (state_at u l x st0 t) ib iv ob ov = Some (state_at u l x st0 (t + n), ob') /\ block_wf ob' /\ same_shape ob ob' /\
    shows ob' [] (placed u (origin ov + t) n (fun c f => out_at u l x st0 c (t + f)) g).
Proof.
  intros Hu l x st0. induction n as [| n IH]; intros t ib iv ob ov g Hx Hr Hg.
  - exists ob. rewrite Nat.add_0_r. cbn [timed]. destruct Hr as (_ & _ & W & _). split; [reflexivity |]. split; [exact W |]. split; [repeat split |].
    eapply shows_ext; [| exact Hg]. intros c f _ _. unfold placed. rewrite Nat.add_0_r.
    replace ((origin ov + t <=? f) && (f <? origin ov + t)) with false; [rewrite Bool.andb_false_r; reflexivity |].
    destruct (Nat.leb_spec (origin ov + t) f), (Nat.ltb_spec f (origin ov + t)); (reflexivity || lia).
  - pose proof Hr as (A & B & W & D & E & G). cbn [timed]. destruct (read_ok (u_ins u) ib iv x t Hx A ltac:(lia)) as (y & -> & Hy). cbn [bind].
    destruct (Hu (apply_all u (due t l) (state_at u l x st0 t)) y (fun c => x c t) Hy) as [U1 U2].
    set (r := u_process u (apply_all u (due t l) (state_at u l x st0 t)) y) in *.
    destruct (write_frame_ok (u_outs u) ob ov g t (snd r) W D Hg E ltac:(lia)) as (b1 & -> & W1 & S1 & G1). cbn [bind].
    assert (Es : fst r = state_at u l x st0 (t + 1)) by (rewrite Nat.add_1_r; exact U1). rewrite Es.
    destruct (IH (t + 1) ib iv b1 ov _ Hx ltac:(replace (t + 1 + n) with (t + S n) by lia; eapply room_shape; eassumption) G1) as (b2 & E2 & W2 & S2 & G2).
    exists b2. rewrite E2. replace (t + 1 + n) with (t + S n) by lia. split; [reflexivity |]. split; [exact W2 |].
    split; [destruct S1 as (? & ? & ?), S2 as (? & ? & ?); repeat split; congruence |].
    eapply shows_ext; [| exact G2]. intros c f _ _. unfold placed. destruct (Nat.ltb_spec c (u_outs u)) as [Hc | Hc]; cbn [andb]; [| reflexivity].
    destruct (Nat.eq_dec f (origin ov + t)) as [-> | N].
    + replace (origin ov + (t + 1) <=? origin ov + t) with false by (symmetry; apply Nat.leb_gt; lia). cbn [andb]. rewrite Nat.eqb_refl, Nat.leb_refl.
      replace (origin ov + t <? origin ov + t + S n) with true by (symmetry; apply Nat.ltb_lt; lia). cbn [andb]. rewrite Nat.sub_diag, Nat.add_0_r. apply U2. exact Hc.
    + replace (f =? origin ov + t) with false by (symmetry; apply Nat.eqb_neq; exact N).
      replace ((origin ov + t <=? f) && (f <? origin ov + t + S n)) with ((origin ov + (t + 1) <=? f) && (f <? origin ov + (t + 1) + n)).
      * destruct (Nat.leb_spec (origin ov + (t + 1)) f); cbn [andb]; [| reflexivity]. destruct (f <? origin ov + (t + 1) + n); [| reflexivity]. f_equal. lia.
      * destruct (Nat.leb_spec (origin ov + (t + 1)) f), (Nat.leb_spec (origin ov + t) f), (Nat.ltb_spec f (origin ov + (t + 1) + n)), (Nat.ltb_spec f (origin ov + t + S n)); (reflexivity || lia).
Qed.
Lemma frames_timed : forall n t st ib iv ob ov, frames zero u n t st ib iv ob ov = timed zero u n t [] st ib iv ob ov.
Proof.
  induction n as [| n IH]; intros; cbn [frames timed]; [reflexivity |]. unfold apply_all. cbn [due filter fold_left].
  destruct (read_frame zero ib iv t (u_ins u)); [| reflexivity]. cbn [bind]. destruct (write_frame ob ov t (u_outs u) _); [| reflexivity]. cbn [bind]. apply IH.
Qed.
End P.
