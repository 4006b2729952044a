From Verif Require Import Base MathModel MathSpec.
Open Scope nat_scope.
Section Proofs.
Context {F P : Type}.
Variable zero : F.
Notation frames := (frames zero). Notation agrees := (agrees (P := P) zero). Notation frame_ok := (@frame_ok F P).

Lemma upd_length : forall A (l : list A) i g, length (upd l i g) = length l.
Proof. induction l as [| x l IH]; intros [| i] g; cbn; auto. Qed.
Lemma upd_nth : forall A (l : list A) i g j d, i < length l -> nth j (upd l i g) d = if j =? i then g (nth i l d) else nth j l d.
Proof.
  induction l as [| x l IH]; intros [| i] g j d H; cbn [length] in H; try lia; destruct j as [| j]; cbn [upd nth Nat.eqb]; try reflexivity. apply IH. lia.
Qed.
Lemma shape_nth : forall c n (b : list (list F)) k, shape c n b -> k < c -> length (nth k b []) = n.
Proof. intros c n b k [L A] H. rewrite Forall_forall in A. apply A. apply nth_In. lia. Qed.
Lemma shape_intro : forall c n (b : list (list F)), length b = c -> (forall k, k < c -> length (nth k b []) = n) -> shape c n b.
Proof. intros c n b L A. split; [exact L |]. apply Forall_forall. intros ch H. destruct (In_nth _ _ [] H) as (k & Hk & <-). apply A. lia. Qed.
Lemma frames_length : forall c n b, length (frames c n b) = n. Proof. intros. unfold MathSpec.frames. rewrite map_length, seq_length. reflexivity. Qed.
Lemma frames_nth : forall c n b k, k < n -> nth k (frames c n b) [] = map (fun ch => nth k (nth ch b []) zero) (seq 0 c).
Proof.
  intros c n b k H. unfold MathSpec.frames. rewrite (nth_indep _ [] (map (fun ch => nth 0 (nth ch b []) zero) (seq 0 c))) by (rewrite map_length, seq_length; exact H).
  rewrite (map_nth (fun f => map (fun ch => nth f (nth ch b []) zero) (seq 0 c))). rewrite seq_nth by exact H. reflexivity.
Qed.
Lemma map_nth_in : forall A B (f : A -> B) l k d e, k < length l -> nth k (map f l) e = f (nth k l d).
Proof. intros A B f l k d e H. rewrite (nth_indep _ e (f d)) by (rewrite map_length; exact H). apply map_nth. Qed.
Lemma nth_seq_map : forall B (f : nat -> B) n k e, k < n -> nth k (map f (seq 0 n)) e = f k.
Proof. intros B f n k e H. rewrite (map_nth_in _ _ f _ k 0) by (rewrite seq_length; exact H). rewrite seq_nth by exact H. reflexivity. Qed.
Lemma eq_nth : forall A (l m : list A) d, length l = length m -> (forall k, k < length l -> nth k l d = nth k m d) -> l = m.
Proof. intros A l m d L H. apply (nth_ext l m d d); assumption. Qed.

(** The default block processing *)
Lemma write_chans_shape : forall (y : list F) (o : list (list F)) c f, length (write_chans o y c f) = length o /\ forall k, length (nth k (write_chans o y c f) []) = length (nth k o []).
Proof.
  induction y as [| x y IH]; intros o c f; cbn [write_chans]; [split; reflexivity |]. destruct (IH (bwrite o x c f) (S c) f) as [A B]. unfold bwrite in *.
  split; [rewrite A; apply upd_length |]. intros k. rewrite B. destruct (le_lt_dec (length o) c) as [H | H].
  - assert (E : forall A (l : list A) i g, length l <= i -> upd l i g = l) by (induction l as [| z l IHl]; intros [| i] g Hi; cbn in *; try reflexivity; try lia; f_equal; apply IHl; lia).
    rewrite E by exact H. reflexivity.
  - rewrite upd_nth by exact H. destruct (Nat.eqb_spec k c) as [-> | N]; [apply upd_length | reflexivity].
Qed.
Lemma write_chans_nth : forall (y : list F) (o : list (list F)) c f n, c + length y <= length o -> (forall k, k < length o -> length (nth k o []) = n) -> f < n ->
  forall k j, nth j (nth k (write_chans o y c f) []) zero = if (c <=? k) && (k <? c + length y) && (j =? f) then nth (k - c) y zero else nth j (nth k o []) zero.
Proof.
  induction y as [| x y IH]; intros o c f n Hl Hs Hf k j; cbn [write_chans length] in *.
  - replace ((c <=? k) && (k <? c + 0)) with false; [reflexivity |]. destruct (Nat.leb_spec c k); destruct (Nat.ltb_spec k (c + 0)); cbn [andb]; lia || reflexivity.
  - unfold bwrite. rewrite (IH _ (S c) f n); [| rewrite upd_length; lia | intros q Hq; rewrite upd_length in Hq; rewrite upd_nth by lia; destruct (q =? c) eqn:E; [rewrite upd_length; apply Hs; lia | apply Hs; lia] | exact Hf].
    rewrite upd_nth by lia. destruct (Nat.eqb_spec k c) as [-> | N].
    + replace (S c <=? c) with false by (symmetry; apply Nat.leb_gt; lia). rewrite Nat.leb_refl. replace (c <? c + S (length y)) with true by (symmetry; apply Nat.ltb_lt; lia).
      cbn [andb]. rewrite upd_nth by (rewrite Hs by lia; exact Hf). rewrite Nat.sub_diag. reflexivity.
    + destruct (Nat.leb_spec (S c) k); destruct (Nat.leb_spec c k); try lia; cbn [andb]; [| reflexivity].
      replace (k <? S c + length y) with (k <? c + S (length y)) by (f_equal; lia). destruct (k <? c + S (length y)); [| reflexivity]. destruct (j =? f); [| reflexivity]. cbn [andb].
      replace (k - c) with (S (k - S c)) by lia. reflexivity.
Qed.
Lemma default_ok : forall S (proc : S -> list F -> S * list F) ins outs i m n f s o, (forall s x, length x = ins -> length (snd (proc s x)) = outs) -> f + n = m -> shape outs m o ->
  let r := default_block zero proc ins n f s i o in let q := by_frame proc s (map (bframe zero ins i) (seq f n)) in
  fst r = fst q /\ shape outs m (snd r) /\ forall k j, k < outs -> nth j (nth k (snd r) []) zero = if (f <=? j) && (j <? m) then nth k (nth (j - f) (snd q) []) zero else nth j (nth k o []) zero.
Proof.
  intros S proc ins outs i m. induction n as [| n IH]; intros f s o Hp Hm Ho; cbn [default_block seq map by_frame fst snd].
  - split; [reflexivity |]. split; [exact Ho |]. intros k j Hk. replace ((f <=? j) && (j <? m)) with false; [reflexivity |]. destruct (Nat.leb_spec f j); destruct (Nat.ltb_spec j m); cbn [andb]; lia || reflexivity.
  - set (r := proc s (bframe zero ins i f)). assert (Lr : length (snd r) = outs) by (apply Hp; unfold bframe; rewrite map_length, seq_length; reflexivity).
    assert (So : forall k, k < length o -> length (nth k o []) = m) by (intros k Hk; apply (shape_nth outs m); [exact Ho | destruct Ho; lia]).
    destruct (write_chans_shape (snd r) o 0 f) as [W1 W2].
    assert (Ho' : shape outs m (write_chans o (snd r) 0 f)) by (apply shape_intro; [rewrite W1; apply Ho | intros k Hk; rewrite W2; apply So; destruct Ho; lia]).
    destruct (IH (Datatypes.S f) (fst r) _ Hp ltac:(lia) Ho') as (A & B & C). split; [exact A |]. split; [exact B |].
    intros k j Hk. rewrite C by exact Hk. destruct Ho as [Lo _]. rewrite (write_chans_nth (snd r) o 0 f m) by (lia || assumption).
    rewrite Nat.sub_0_r. replace (k <? 0 + length (snd r)) with true by (symmetry; apply Nat.ltb_lt; lia). change (0 <=? k) with true. cbn [andb].
    destruct (Nat.eqb_spec j f) as [-> | N].
    + replace (Datatypes.S f <=? f) with false by (symmetry; apply Nat.leb_gt; lia). rewrite Nat.leb_refl, Nat.sub_diag. replace (f <? m) with true by (symmetry; apply Nat.ltb_lt; lia). cbn [andb]. reflexivity.
    + destruct (Nat.leb_spec (Datatypes.S f) j); destruct (Nat.leb_spec f j); try lia; cbn [andb]; [| reflexivity].
      destruct (j <? m); [| reflexivity]. replace (j - f) with (Datatypes.S (j - Datatypes.S f)) by lia. reflexivity.
Qed.
Lemma by_frame_ok : forall S (proc : S -> list F -> S * list F) ins outs xs s, (forall s x, length x = ins -> length (snd (proc s x)) = outs) -> Forall (fun x => length x = ins) xs ->
  length (snd (by_frame proc s xs)) = length xs /\ Forall (fun y => length y = outs) (snd (by_frame proc s xs)).
Proof.
  induction xs as [| x xs IH]; intros s Hp Hx; cbn [by_frame snd length]; [split; [reflexivity | constructor] |]. inversion Hx; subst. destruct (IH (fst (proc s x)) Hp H2) as [A B].
  split; [f_equal; exact A | constructor; [apply Hp; reflexivity || assumption | exact B]].
Qed.
(** To show agreement: the frames as lists *)
Lemma frames_rows : forall ins n i, Forall (fun x => length x = ins) (frames ins n i).
Proof. intros. unfold MathSpec.frames. apply Forall_forall. intros x H. apply in_map_iff in H as (f & <- & _). rewrite map_length, seq_length. reflexivity. Qed.
Lemma agree_frames : forall c n (b : list (list F)) l, length l = n -> Forall (fun y => length y = c) l -> (forall k j, k < c -> j < n -> nth j (nth k b []) zero = nth k (nth j l []) zero) -> frames c n b = l.
Proof.
  intros c n b l Ll Lc H. apply (eq_nth _ _ _ []); [rewrite frames_length; lia |]. intros j Hj. rewrite frames_length in Hj. rewrite frames_nth by exact Hj.
  assert (Lj : length (nth j l []) = c) by (rewrite Forall_forall in Lc; apply Lc; apply nth_In; lia).
  apply (eq_nth _ _ _ zero); [rewrite map_length, seq_length; lia |]. intros k Hk. rewrite map_length, seq_length in Hk. rewrite nth_seq_map by exact Hk. apply H; assumption.
Qed.
Lemma plain_agrees : forall S ins outs (proc : S -> list F -> S * list F) (param : S -> P -> S), (forall s x, length x = ins -> length (snd (proc s x)) = outs) -> agrees (plain_gen zero ins outs proc param).
Proof.
  intros S ins outs proc param Hp s n i o Hi Ho. cbn [plain_gen g_block g_process g_ins g_outs g_state] in *.
  destruct (default_ok S proc ins outs i n n 0 s o Hp eq_refl Ho) as (A & B & C).
  change (frames ins n i) with (map (bframe zero ins i) (seq 0 n)). set (q := by_frame proc s (map (bframe zero ins i) (seq 0 n))) in *.
  destruct (by_frame_ok S proc ins outs (map (bframe zero ins i) (seq 0 n)) s Hp) as [L1 L2]; [apply (frames_rows ins n i) |]. fold q in L1, L2. rewrite map_length, seq_length in L1.
  split; [exact A |]. split; [exact B |]. apply agree_frames; [exact L1 | exact L2 |]. intros k j Hk Hj. rewrite C by exact Hk.
  replace (j <? n) with true by (symmetry; apply Nat.ltb_lt; exact Hj). cbn [Nat.leb andb]. rewrite Nat.sub_0_r. reflexivity.
Qed.

(** Stateless generators *)
Lemma by_frame_pure : forall (h : list F -> list F) xs, by_frame (fun (s : unit) x => (s, h x)) tt xs = (tt, map h xs).
Proof. induction xs as [| x xs IH]; cbn [by_frame map fst snd]; [reflexivity |]. rewrite IH. reflexivity. Qed.
Lemma apply2_length : forall op (a b o : list F), length (apply2 op a b o) = length o.
Proof. induction a as [| x a IH]; intros [| y b] [| z o]; cbn; auto. Qed.
Lemma apply2_nth : forall op (a b o : list F) j, length a = length o -> length b = length o -> j < length o -> nth j (apply2 op a b o) zero = op (nth j a zero) (nth j b zero).
Proof. induction a as [| x a IH]; intros [| y b] [| z o] j La Lb Hj; cbn [length] in *; try lia. destruct j as [| j]; cbn [apply2 nth]; [reflexivity | apply IH; lia]. Qed.
Lemma math_channels_ok : forall op channels n i k c o, c + k = channels -> shape (2 * channels) n i -> shape channels n o ->
  let r := math_channels op channels k c i o in shape channels n r /\
  forall q j, q < channels -> j < n -> nth j (nth q r []) zero = if c <=? q then op (nth j (nth q i []) zero) (nth j (nth (q + channels) i []) zero) else nth j (nth q o []) zero.
Proof.
  intros op channels n i. induction k as [| k IH]; intros c o Hc Hi Ho; cbn [math_channels].
  - split; [exact Ho |]. intros q j Hq Hj. replace (c <=? q) with false by (symmetry; apply Nat.leb_gt; lia). reflexivity.
  - set (o' := upd o c _). assert (Lo : length o = channels) by apply Ho.
    assert (N' : forall q, nth q o' [] = if q =? c then apply2 op (nth c i []) (nth (c + channels) i []) (nth c o []) else nth q o []) by (intros q; unfold o'; apply upd_nth; lia).
    assert (Ho' : shape channels n o').
    { apply shape_intro; [unfold o'; rewrite upd_length; exact Lo |]. intros q Hq. rewrite N'. destruct (q =? c); [rewrite apply2_length |]; apply (shape_nth channels n o); assumption || lia. }
    destruct (IH (S c) o' ltac:(lia) Hi Ho') as [A B]. split; [exact A |]. intros q j Hq Hj. rewrite B by assumption. rewrite N'.
    destruct (Nat.eqb_spec q c) as [-> | Nq].
    + replace (S c <=? c) with false by (symmetry; apply Nat.leb_gt; lia). rewrite Nat.leb_refl.
      assert (L0 : length (nth c o []) = n) by (apply (shape_nth channels n o); assumption || lia).
      apply apply2_nth; rewrite ?L0; try exact Hj; apply (shape_nth (2 * channels) n i); assumption || lia.
    + change (match q with 0 => false | S m' => c <=? m' end) with (S c <=? q). destruct (Nat.leb_spec (S c) q); destruct (Nat.leb_spec c q); try lia; reflexivity.
Qed.
Lemma math_agrees : forall op channels, agrees (math_gen zero op channels).
Proof.
  intros op channels s n i o Hi Ho. cbn [math_gen g_block g_process g_ins g_outs g_state fst snd] in *.
  destruct (math_channels_ok op channels n i channels 0 o eq_refl Hi Ho) as [A B]. destruct s. rewrite by_frame_pure. cbn [fst snd].
  split; [reflexivity |]. split; [exact A |]. unfold math_process. apply agree_frames.
  - rewrite map_length, frames_length. reflexivity.
  - apply Forall_forall. intros y H. apply in_map_iff in H as (x & <- & _). rewrite map_length, seq_length. reflexivity.
  - intros k j Hk Hj. rewrite B by assumption. cbn [Nat.leb]. rewrite (map_nth_in _ _ _ _ j []) by (rewrite frames_length; exact Hj).
    rewrite nth_seq_map by exact Hk. cbn [apply2 hd]. rewrite frames_nth by exact Hj. rewrite !nth_seq_map by lia. reflexivity.
Qed.
Lemma apply1_ok : forall op (a o : list F), length a = length o -> apply1 op a o = map op a.
Proof. induction a as [| x a IH]; intros [| z o] H; cbn in *; try reflexivity; try lia. rewrite IH by lia. reflexivity. Qed.
Lemma math1_agrees : forall op, agrees (math1_gen zero op).
Proof.
  intros op s n i o Hi Ho. cbn [math1_gen g_block g_process g_ins g_outs g_state fst snd] in *.
  destruct Hi as [Li Ai], Ho as [Lo Ao]. destruct i as [| a [| a' i]]; try discriminate Li. destruct o as [| b [| b' o]]; try discriminate Lo.
  inversion_clear Ai as [| ? ? Ha _]. inversion_clear Ao as [| ? ? Hb _]. cbn [upd nth]. rewrite apply1_ok by congruence. destruct s.
  rewrite (by_frame_pure (fun x => [hd zero (apply1 op [nth 0 x zero] [zero])])). cbn [fst snd]. split; [reflexivity |].
  assert (Sh : shape 1 n [map op a]) by (split; [reflexivity | repeat constructor; rewrite map_length; exact Ha]).
  split; [exact Sh |]. apply agree_frames.
  - rewrite map_length, frames_length. reflexivity.
  - apply Forall_forall. intros y H. apply in_map_iff in H as (x & <- & _). reflexivity.
  - intros k j Hk Hj. destruct k; [| lia]. rewrite (map_nth_in _ _ _ _ j []) by (rewrite frames_length; exact Hj). rewrite frames_nth by exact Hj. cbn [nth seq map hd apply1].
    rewrite (map_nth_in _ _ op _ j zero) by lia. reflexivity.
Qed.

(** Wrappers *)
Lemma frames_map : forall (h : F -> F) c n b, shape c n b -> frames c n (map (map h) b) = map (map h) (frames c n b).
Proof.
  intros h c n b Hb. unfold MathSpec.frames. rewrite map_map. apply map_ext_in. intros f Hf. apply in_seq in Hf. rewrite map_map. apply map_ext_in. intros ch Hc. apply in_seq in Hc.
  rewrite (map_nth_in _ _ (map h) b ch []) by (destruct Hb; lia). rewrite (map_nth_in _ _ h _ f zero); [reflexivity |]. rewrite (shape_nth c n b) by (assumption || lia). lia.
Qed.
Lemma shape_map : forall (h : F -> F) c n b, shape c n b -> shape c n (map (map h) b).
Proof. intros h c n b [A B]. split; [rewrite map_length; exact A |]. apply Forall_map. eapply Forall_impl; [| exact B]. intros ch H. cbn beta. rewrite map_length. exact H. Qed.
Lemma wr_op_agrees : forall V (op : V -> F -> F) set g, agrees g -> agrees (wr_op op set g).
Proof.
  intros V op set g Hg s n i o Hi Ho. cbn [wr_op g_block g_process g_ins g_outs g_state fst snd] in *. destruct s as [v s]. cbn [fst snd].
  destruct (Hg s n i o Hi Ho) as (A & B & C).
  assert (E : forall xs s, by_frame (fun (s0 : V * g_state g) x => ((fst s0, fst (g_process g (snd s0) x)), map (op (fst s0)) (snd (g_process g (snd s0) x)))) (v, s) xs =
    ((v, fst (by_frame (g_process g) s xs)), map (map (op v)) (snd (by_frame (g_process g) s xs)))).
  { induction xs as [| x xs IH]; intros s0; cbn [by_frame map fst snd]; [reflexivity |]. rewrite IH. reflexivity. }
  rewrite E. cbn [fst snd]. split; [f_equal; exact A |]. split; [apply shape_map; exact B |]. rewrite frames_map by exact B. rewrite C. reflexivity.
Qed.
Lemma map_state_pure : forall C (c : C) (h : F -> F) l, map_state (fun c x => (c, h x)) c l = (c, map h l).
Proof. induction l as [| x l IH]; cbn [map_state map fst snd]; [reflexivity |]. rewrite IH. reflexivity. Qed.
Lemma wr_pure_agrees : forall C (h : F -> F) g, agrees g -> agrees (wr_closure (C := C) (fun c x => (c, h x)) g).
Proof.
  intros C h g Hg s n i o Hi Ho. destruct s as [c s]. pose proof (wr_op_agrees C (fun _ => h) (fun _ => None) g Hg (c, s) n i o Hi Ho) as H.
  cbn [wr_op wr_closure g_block g_process g_ins g_outs g_state fst snd] in *.
  assert (E1 : forall b, map_channels (fun (c : C) x => (c, h x)) c b = (c, map (map h) b)) by (induction b as [| ch b IH]; cbn [map_channels map]; [reflexivity |]; rewrite map_state_pure; cbn [fst snd]; rewrite IH; reflexivity).
  rewrite E1. cbn [fst snd].
  assert (E2 : forall xs s, by_frame (fun (s0 : C * g_state g) x => let r := g_process g (snd s0) x in let q := map_state (fun c x => (c, h x)) (fst s0) (snd r) in ((fst q, fst r), snd q)) s xs =
     by_frame (fun (s0 : C * g_state g) x => let r := g_process g (snd s0) x in ((fst s0, fst r), map h (snd r))) s xs).
  { induction xs as [| x xs IH]; intros s0; cbn [by_frame]; [reflexivity |]. rewrite map_state_pure. cbv zeta. cbn [fst snd]. rewrite IH. reflexivity. }
  rewrite E2. exact H.
Qed.
Lemma map_state_length : forall C (f : C -> F -> C * F) l c, length (snd (map_state f c l)) = length l.
Proof. induction l as [| x l IH]; intros c; cbn; auto. Qed.
Lemma mono_frames : forall n (ch : list F), length ch = n -> frames 1 n [ch] = map (fun x => [x]) ch.
Proof.
  intros n ch H. apply agree_frames.
  - rewrite map_length. exact H.
  - apply Forall_forall. intros y Hy. apply in_map_iff in Hy as (x & <- & _). reflexivity.
  - intros k j Hk Hj. destruct k; [| lia]. cbn [nth]. rewrite (map_nth_in _ _ (fun x => [x]) _ j zero) by lia. reflexivity.
Qed.
Lemma wr_mono_agrees : forall C (f : C -> F -> C * F) g, g_outs g = 1 -> frame_ok g -> agrees g -> agrees (wr_closure f g).
Proof.
  intros C f g G1 Hf Hg s n i o Hi Ho. cbn [wr_closure g_block g_process g_ins g_outs g_state fst snd] in *. destruct s as [c s]. cbn [fst snd].
  destruct (Hg s n i o Hi Ho) as (A & B & E). rewrite G1 in *. destruct (snd (g_block g s n i o)) as [| ch [| ch' b]]; try (destruct B as [B _]; discriminate B).
  destruct B as [_ B]. inversion_clear B as [| ? ? Lch _]. rewrite (mono_frames n ch Lch) in E. rewrite A. clear A Ho.
  cbn [map_channels fst snd].
  assert (G : forall xs s c ch, map (fun x => [x]) ch = snd (by_frame (g_process g) s xs) ->
    by_frame (fun (s0 : C * g_state g) x => let r := g_process g (snd s0) x in let q := map_state f (fst s0) (snd r) in ((fst q, fst r), snd q)) (c, s) xs =
    ((fst (map_state f c ch), fst (by_frame (g_process g) s xs)), map (fun x => [x]) (snd (map_state f c ch)))).
  { induction xs as [| x xs IH]; intros s0 c0 ch0 H0; cbn [by_frame fst snd] in *.
    - destruct ch0; [reflexivity | discriminate H0].
    - destruct ch0 as [| y ch0]; [discriminate H0 |]. cbn [map] in H0. injection H0 as H1 H2. rewrite <- H1. cbv zeta. cbn [map_state fst snd map]. rewrite (IH _ _ ch0 H2). reflexivity. }
  rewrite (G _ _ _ _ E). cbn [fst snd]. split; [reflexivity |].
  assert (L : length (snd (map_state f c ch)) = n) by (rewrite map_state_length; exact Lch).
  split; [split; [reflexivity | repeat constructor; exact L] |]. apply mono_frames. exact L.
Qed.
Lemma run_agrees : forall g l s, agrees g -> Forall (hop_ok g) l -> blocks_run zero g s l = frames_run zero g s l.
Proof.
  intros g. induction l as [| h l IH]; intros s Hg Hl; [reflexivity |]. inversion_clear Hl as [| ? ? H1 H2]. destruct h as [p | n i o]; cbn [blocks_run frames_run].
  - apply IH; assumption.
  - destruct H1 as [Hi Ho]. destruct (Hg s n i o Hi Ho) as (A & _ & B). cbv zeta in A, B. rewrite B, A. f_equal. apply IH; assumption.
Qed.
End Proofs.
