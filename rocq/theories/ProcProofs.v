From Verif Require Import Base ProcModel ProcSpec.
Local Open Scope nat_scope.

Section Proofs.
Variable F : Type.
Variable zero : F.
Notation world := (world F).

Lemma set_at_length : forall A (l : list A) i x, length (set_at l i x) = length l.
Proof. induction l as [| y l IH]; intros [| i] x; cbn; try reflexivity. f_equal. apply IH. Qed.
Lemma set_at_same : forall A (l : list A) i x, i < length l -> nth_error (set_at l i x) i = Some x.
Proof. induction l as [| y l IH]; intros [| i] x H; cbn in *; try lia; [reflexivity | apply IH; lia]. Qed.
Lemma set_at_other : forall A (l : list A) i j x, i <> j -> nth_error (set_at l i x) j = nth_error l j.
Proof. induction l as [| y l IH]; intros [| i] [| j] x H; cbn in *; try reflexivity; try lia. apply IH. lia. Qed.
Lemma alloc_lt : forall (h : list (option (list F))) a l, alloc_at h a = Some l -> a < length h.
Proof. intros h a l H. unfold alloc_at in H. apply nth_error_Some. destruct (nth_error h a); discriminate. Qed.
Lemma alloc_set : forall h a b (v : option (list F)), a < length h -> alloc_at (set_at h a v) b = if a =? b then v else alloc_at h b.
Proof.
  intros h a b v H. unfold alloc_at. destruct (Nat.eqb_spec a b) as [<- | N]; [rewrite set_at_same by exact H; destruct v; reflexivity | rewrite set_at_other by exact N; reflexivity].
Qed.
Lemma live_lt : forall (w : world) i p, live w i = Some p -> i < length (w_procs w).
Proof. intros w i p H. unfold live in H. apply nth_error_Some. destruct (nth_error (w_procs w) i); discriminate. Qed.

(** Every processor owns the memory that its block points to, alone *)
Definition owned (h : list (option (list F))) (p : proc) : Prop :=
  exists l, b_mem (pr_block p) = pr_own p /\ b_size (pr_block p) = pr_bs p /\ alloc_at h (pr_own p) = Some l /\ length l = pr_bs p * b_channels (pr_block p).
Definition healthy (w : world) : Prop := (forall i p, live w i = Some p -> owned (w_heap w) p) /\
  (forall i j p q, live w i = Some p -> live w j = Some q -> pr_own p = pr_own q -> i = j).
Lemma position_in : forall b c f o, position b c f = Some o -> o < b_size b * b_channels b.
Proof.
  intros b c f o H. unfold position in H. destruct (Nat.ltb_spec c (b_channels b)) as [A |]; [| discriminate]. destruct (Nat.ltb_spec f (b_size b)) as [B |]; [| discriminate].
  injection H as <-. nia.
Qed.
Lemma position_inj : forall b c f c' f' o, position b c f = Some o -> position b c' f' = Some o -> c = c' /\ f = f'.
Proof.
  intros b c f c' f' o H H'. unfold position in *. destruct (Nat.ltb_spec c (b_channels b)) as [A |]; [| discriminate]. destruct (Nat.ltb_spec f (b_size b)) as [B |]; [| discriminate].
  destruct (Nat.ltb_spec c' (b_channels b)) as [A' |]; [| discriminate]. destruct (Nat.ltb_spec f' (b_size b)) as [B' |]; [| discriminate]. injection H as <-. injection H' as E.
  assert (c = c') by nia. subst c'. split; [reflexivity | lia].
Qed.

(** A run keeps all memory as it is, except for the samples of the one block *)
Lemma exec_shape : forall (slices : list (list F)) bs b g h l, alloc_at h (b_mem b) = Some l -> length l = b_size b * b_channels b ->
  exists l', alloc_at (fst (exec slices bs b g h)) (b_mem b) = Some l' /\ length l' = length l /\
  (forall a, a <> b_mem b -> alloc_at (fst (exec slices bs b g h)) a = alloc_at h a) /\ length (fst (exec slices bs b g h)) = length h.
Proof.
  intros slices bs b. induction g as [| c k IH | c f x k IH]; intros h l Hl E; cbn [exec].
  - exists l. cbn [fst]. auto.
  - destruct (take_slice F slices bs c) as [[s |] |]; [apply IH; assumption | exists l; cbn [fst]; auto | exists l; cbn [fst]; auto].
  - destruct (position b c f) as [o |] eqn:P; [| exists l; cbn [fst]; auto]. rewrite Hl. pose proof (position_in _ _ _ _ P) as O. rewrite <- E in O. rewrite (proj2 (Nat.ltb_lt _ _) O).
    pose proof (alloc_lt _ _ _ Hl) as A. destruct (IH (set_at h (b_mem b) (Some (set_at l o x))) (set_at l o x)) as (l' & A' & L' & R & Q).
    + rewrite alloc_set by exact A. rewrite Nat.eqb_refl. reflexivity.
    + rewrite set_at_length. exact E.
    + exists l'. split; [exact A' |]. split; [rewrite L'; apply set_at_length |]. split; [| rewrite Q; apply set_at_length].
      intros a Ha. rewrite R by exact Ha. rewrite alloc_set by exact A. rewrite (proj2 (Nat.eqb_neq _ _)) by (intros N; apply Ha; symmetry; exact N). reflexivity.
Qed.
Lemma exec_defined : forall (slices : list (list F)) bs b g h l, alloc_at h (b_mem b) = Some l -> length l = b_size b * b_channels b -> Forall (fun s => bs <= length s) slices ->
  snd (exec slices bs b g h) = Fine None \/ snd (exec slices bs b g h) = Panicked.
Proof.
  intros slices bs b. induction g as [| c k IH | c f x k IH]; intros h l Hl E G; cbn [exec]; [left; reflexivity | |].
  - unfold take_slice. destruct (nth_error slices c) as [s |] eqn:N; [| right; reflexivity].
    assert (L : bs <= length s) by (rewrite Forall_forall in G; apply G; apply nth_error_In with c; exact N). rewrite (proj2 (Nat.leb_le _ _) L). apply (IH _ h l); assumption.
  - destruct (position b c f) as [o |] eqn:P; [| right; reflexivity]. rewrite Hl. pose proof (position_in _ _ _ _ P) as O. rewrite <- E in O. rewrite (proj2 (Nat.ltb_lt _ _) O).
    pose proof (alloc_lt _ _ _ Hl) as A. apply (IH _ (set_at l o x)); [rewrite alloc_set by exact A; rewrite Nat.eqb_refl; reflexivity | rewrite set_at_length; exact E | exact G].
Qed.
Lemma healthy_empty : healthy empty.
Proof. split; [intros i p H | intros i j p q H]; unfold live in H; cbn in H; destruct i; discriminate H. Qed.
Lemma step_healthy : forall w c, healthy w -> keeps F c -> healthy (fst (step zero w c)).
Proof.
  intros w c [O U] K. destruct c as [bs ins outs | i slices g | i c f | i j | i]; cbn [step].
  - destruct (bs =? 0); [split; assumption |]. cbn [fst]. set (a := length (w_heap w)).
    assert (LV : forall i p, live (mk_world (w_heap w ++ [Some (repeat zero (bs * outs))]) (w_procs w ++ [Some (mk_proc bs ins a (mk_block a outs bs))])) i = Some p ->
      (live w i = Some p /\ i < length (w_procs w)) \/ (i = length (w_procs w) /\ p = mk_proc bs ins a (mk_block a outs bs))).
    { intros i p H. unfold live in *. cbn [w_procs] in H. destruct (Nat.lt_ge_cases i (length (w_procs w))) as [L | L].
      - left. rewrite nth_error_app1 in H by exact L. split; assumption.
      - right. rewrite nth_error_app2 in H by exact L. destruct (i - length (w_procs w)) as [| n] eqn:Z; cbn in H; [injection H as <-; split; [lia | reflexivity] | destruct n; discriminate H]. }
    assert (AL : forall b l, alloc_at (w_heap w) b = Some l -> alloc_at (w_heap w ++ [Some (repeat zero (bs * outs))]) b = Some l).
    { intros b l H. unfold alloc_at in *. rewrite nth_error_app1; [exact H |]. apply nth_error_Some. destruct (nth_error (w_heap w) b); discriminate. }
    split.
    + intros i p H. destruct (LV i p H) as [[Hl _] | [_ ->]].
      * destruct (O i p Hl) as (l & E1 & E2 & E3 & E4). exists l. repeat split; try assumption. apply AL. exact E3.
      * exists (repeat zero (bs * outs)). cbn. repeat split; [| apply repeat_length]. unfold alloc_at. rewrite nth_error_app2 by (unfold a; lia). unfold a. rewrite Nat.sub_diag. reflexivity.
    + intros i j p q Hi Hj E. destruct (LV i p Hi) as [[Li _] | [-> ->]], (LV j q Hj) as [[Lj _] | [-> ->]].
      * apply (U i j p q Li Lj E).
      * destruct (O i p Li) as (l & _ & _ & E3 & _). pose proof (alloc_lt _ _ _ E3). cbn in E. unfold a in E. lia.
      * destruct (O j q Lj) as (l & _ & _ & E3 & _). pose proof (alloc_lt _ _ _ E3). cbn in E. unfold a in E. lia.
      * reflexivity.
  - destruct (live w i) as [p |] eqn:Hi; [| split; assumption]. destruct (length slices =? pr_ins p); [| split; assumption]. cbn [fst].
    destruct (O i p Hi) as (l & E1 & E2 & E3 & E4). rewrite <- E1 in E3. rewrite <- E2 in E4. destruct (exec_shape slices (pr_bs p) (pr_block p) g (w_heap w) l E3 E4) as (l' & A' & L' & R & _).
    split; [| exact U]. intros j q Hj. change (live w j = Some q) in Hj. destruct (Nat.eq_dec (pr_own q) (pr_own p)) as [E | N].
    + assert (j = i) by (apply (U j i q p Hj Hi E)). subst j. rewrite Hi in Hj. injection Hj as <-. exists l'. cbn [w_heap]. rewrite E1 in A'. repeat split; try assumption. rewrite L', E4, E2. reflexivity.
    + destruct (O j q Hj) as (lq & Q1 & Q2 & Q3 & Q4). exists lq. cbn [w_heap]. repeat split; try assumption. rewrite R; [exact Q3 |]. rewrite E1. exact N.
  - destruct (live w i); [| split; assumption]. destruct (position _ _ _); [| split; assumption]. destruct (alloc_at _ _); [| split; assumption]. destruct (nth_error _ _); split; assumption.
  - destruct K.
  - destruct (live w i) as [p |] eqn:Hi; [| split; assumption]. cbn [fst]. pose proof (live_lt w i p Hi) as Li. destruct (O i p Hi) as (l & E1 & E2 & E3 & E4). pose proof (alloc_lt _ _ _ E3) as La.
    assert (LV : forall j q, live (mk_world (set_at (w_heap w) (pr_own p) None) (set_at (w_procs w) i None)) j = Some q -> i <> j /\ live w j = Some q).
    { intros j q H. unfold live in *. cbn [w_procs] in H. destruct (Nat.eq_dec i j) as [<- | N]; [rewrite set_at_same in H by exact Li; discriminate H | rewrite set_at_other in H by exact N; split; assumption]. }
    split.
    + intros j q H. destruct (LV j q H) as [N Hj]. destruct (O j q Hj) as (lq & Q1 & Q2 & Q3 & Q4). exists lq. cbn [w_heap]. repeat split; try assumption.
      rewrite alloc_set by exact La. destruct (Nat.eqb_spec (pr_own p) (pr_own q)) as [E | _]; [| exact Q3]. exfalso. apply N. apply (U i j p q Hi Hj E).
    + intros j k q r Hj Hk E. destruct (LV j q Hj) as [_ Hj']. destruct (LV k r Hk) as [_ Hk']. apply (U j k q r Hj' Hk' E).
Qed.
Lemma step_defined : forall w c, healthy w -> keeps F c -> long F w c -> snd (step zero w c) <> Undefined.
Proof.
  intros w c [O U] K G. destruct c as [bs ins outs | i slices g | i c f | i j | i]; cbn [step].
  - destruct (bs =? 0); discriminate.
  - destruct (live w i) as [p |] eqn:Hi; [| discriminate]. destruct (length slices =? pr_ins p); [| discriminate]. cbn [snd].
    destruct (O i p Hi) as (l & E1 & E2 & E3 & E4). rewrite <- E1 in E3. rewrite <- E2 in E4. destruct (exec_defined slices (pr_bs p) (pr_block p) g (w_heap w) l E3 E4 (G p Hi)) as [-> | ->]; discriminate.
  - destruct (live w i) as [p |] eqn:Hi; [| discriminate]. destruct (position (pr_block p) c f) as [o |] eqn:P; [| discriminate]. destruct (O i p Hi) as (l & E1 & E2 & E3 & E4). rewrite E1, E3.
    pose proof (position_in _ _ _ _ P) as L. rewrite E2, <- E4 in L. apply nth_error_Some in L. destruct (nth_error l o); [discriminate | exfalso; apply L; reflexivity].
  - destruct K.
  - destruct (live w i); discriminate.
Qed.
Lemma careful_defined : forall cs w, healthy w -> careful F zero w cs -> ~ In Undefined (snd (run_all zero w cs)).
Proof.
  induction cs as [| c cs IH]; intros w H C; [intros [] |]. destruct C as (K & L & C). cbn [run_all snd]. intros [E | E]; [exact (step_defined w c H K L E) |].
  revert E. apply IH; [apply step_healthy; assumption | exact C].
Qed.
Lemma careful_healthy : forall cs w, healthy w -> Forall (keeps F) cs -> healthy (fst (run_all zero w cs)).
Proof. induction cs as [| c cs IH]; intros w H C; [exact H |]. inversion C; subst. cbn [run_all fst]. apply IH; [apply step_healthy; assumption | assumption]. Qed.

(** What is in the output block afterwards *)
Definition sample (h : list (option (list F))) (b : block) (c f : nat) : option F := match alloc_at h (b_mem b), position b c f with Some l, Some o => nth_error l o | _, _ => None end.
Lemma exec_left : forall slices bs b c f g h l old, alloc_at h (b_mem b) = Some l -> length l = b_size b * b_channels b -> snd (exec slices bs b g h) = Fine None ->
  sample h b c f = Some old -> sample (fst (exec slices bs b g h)) b c f = Some (left_at F slices bs g c f old).
Proof.
  intros slices bs b c f. induction g as [| d k IH | c' f' x k IH]; intros h l old Hl E D S; cbn [exec left_at] in *; [exact S | |].
  - unfold take_slice in *. destruct (nth_error slices d) as [s |] eqn:N; [| discriminate D]. rewrite (nth_error_nth _ _ _ N). destruct (bs <=? length s); [| discriminate D]. eapply IH; eassumption.
  - destruct (position b c' f') as [o |] eqn:P; [| discriminate D]. rewrite Hl in *. pose proof (position_in _ _ _ _ P) as O. rewrite <- E in O. rewrite (proj2 (Nat.ltb_lt _ _) O) in *.
    pose proof (alloc_lt _ _ _ Hl) as A. assert (Hl' : alloc_at (set_at h (b_mem b) (Some (set_at l o x))) (b_mem b) = Some (set_at l o x)) by (rewrite alloc_set by exact A; rewrite Nat.eqb_refl; reflexivity).
    apply (IH _ (set_at l o x)); [exact Hl' | rewrite set_at_length; exact E | exact D |]. unfold sample in *. rewrite Hl'. rewrite Hl in S. destruct (position b c f) as [o' |] eqn:P'; [| discriminate S].
    destruct (Nat.eq_dec o o') as [<- | No].
    + destruct (position_inj b c f c' f' o P' P) as [<- <-]. rewrite !Nat.eqb_refl. cbn [andb]. apply set_at_same. exact O.
    + rewrite set_at_other by exact No. assert (Nb : (c =? c') && (f =? f') = false).
      { apply andb_false_iff. destruct (Nat.eqb_spec c c') as [<- |]; [right | left; reflexivity]. apply Nat.eqb_neq. intros <-. rewrite P in P'. injection P' as ->. apply No. reflexivity. }
      rewrite Nb. exact S.
Qed.
Lemma output_sample : forall w i p c f x, live w i = Some p -> healthy w -> (snd (step zero w (Output i c f)) = Fine (Some x) <-> sample (w_heap w) (pr_block p) c f = Some x).
Proof.
  intros w i p c f x Hi [O _]. destruct (O i p Hi) as (l & E1 & _ & E3 & _). cbn [step]. rewrite Hi. unfold sample. rewrite E1, E3. destruct (position (pr_block p) c f) as [o |]; [| split; discriminate].
  destruct (nth_error l o) as [y |]; cbn [snd]; split; intros H; try discriminate; injection H as <-; reflexivity.
Qed.
End Proofs.
