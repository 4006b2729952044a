(** C51: log probe; C52: enum parameters; C56: done on trigger. *)
From Verif Require Import Base UtilModel.
Open Scope nat_scope.

(** * C51 *)
Lemma probe_run_at : forall n s k, k < n -> nth_error (probe_run s n) k =
  Some (if k <? pr_counter s then false else (k - pr_counter s) mod (pr_interval s + 1) =? 0).
Proof.
  induction n as [| n IH]; intros s k H; [lia |]. cbn [probe_run]. unfold probe_step. destruct (Nat.eqb_spec (pr_counter s) 0) as [Z | NZ].
  - rewrite Z. cbn [fst snd pr_interval pr_counter]. destruct k as [| k]; cbn [nth_error].
    + rewrite Nat.sub_0_r, Nat.mod_0_l by lia. reflexivity.
    + rewrite IH by lia. cbn [pr_interval pr_counter]. change (S k <? 0) with false. cbv iota. rewrite Nat.sub_0_r.
      destruct (Nat.ltb_spec k (pr_interval s)) as [L | L].
      * rewrite Nat.mod_small by lia. symmetry. f_equal.
      * replace (S k) with (k - pr_interval s + 1 * (pr_interval s + 1)) by lia. rewrite Nat.mod_add by lia. reflexivity.
  - cbn [fst snd pr_interval pr_counter]. destruct k as [| k]; cbn [nth_error].
    + replace (0 <? pr_counter s) with true by (symmetry; apply Nat.ltb_lt; lia). reflexivity.
    + rewrite IH by lia. cbn [pr_interval pr_counter]. f_equal.
      destruct (Nat.ltb_spec k (pr_counter s - 1)); destruct (Nat.ltb_spec (S k) (pr_counter s)); try lia. replace (S k - pr_counter s) with (k - (pr_counter s - 1)) by lia. reflexivity.
Qed.
(** The samples that are logged are exactly the multiples of N+1. Partial: the configured interval is N. *)
Theorem C51_interval_partial : forall sr n k, k < n -> nth_error (probe_run (probe_init sr) n) k = Some (k mod (sr + 1) =? 0).
Proof. intros sr n k H. rewrite probe_run_at by exact H. cbn [probe_init pr_counter pr_interval]. change (k <? 0) with false. cbv iota. rewrite Nat.sub_0_r. reflexivity. Qed.
Print Assumptions C51_interval_partial.
(** A probe configured for every 4 samples logs every 5. *)
Theorem C51_interval_refuted : probe_run (probe_init 4) 11 = [true; false; false; false; false; true; false; false; false; false; true].
Proof. reflexivity. Qed.
Print Assumptions C51_interval_refuted.

(** * C56 *)
(** What is asked for: a sample is marked exactly if a trigger arrived since the sample before *)
Fixpoint wanted (t : bool) (ops : list bool) : list bool :=
  match ops with [] => [] | true :: ops => wanted true ops | false :: ops => t :: wanted false ops end.
(** Up to and including the first marked sample this is what happens; afterwards every sample is marked. *)
Theorem C56_done_partial : forall before after, done_run false (repeat false before ++ true :: after) =
  repeat false before ++ repeat true (length (filter negb after)).
Proof.
  assert (A : forall after, done_run true after = repeat true (length (filter negb after))).
  { induction after as [| [|] after IH]; cbn; [reflexivity | exact IH | rewrite IH; reflexivity]. }
  intros before after. induction before as [| n IH]; cbn [repeat app done_run]; [apply A | f_equal; exact IH].
Qed.
Print Assumptions C56_done_partial.
Theorem C56_once_refuted : done_run false [false; true; false; false; false] = [false; true; true; true] /\ wanted false [false; true; false; false; false] = [false; true; false; false].
Proof. split; reflexivity. Qed.
Print Assumptions C56_once_refuted.

(** * C52 *)
(** An enum with distinct discriminants whose default is one of its variants (the compiler checks both) *)
Definition well_formed (e : enum) : Prop := NoDup (e_disc e) /\ e_default e < length (e_disc e).
Lemma find_index_some : forall n l v, find_index n l = Some v -> nth_error l v = Some n.
Proof.
  induction l as [| d l IH]; intros v H; cbn [find_index] in H; [discriminate H |]. destruct (Nat.eqb_spec d n) as [-> | N].
  - injection H as <-. reflexivity.
  - destruct (find_index n l) as [w |] eqn:E; [| discriminate H]. cbn in H. injection H as <-. apply IH. reflexivity.
Qed.
Lemma find_index_nth : forall l v n, NoDup l -> nth_error l v = Some n -> find_index n l = Some v.
Proof.
  induction l as [| d l IH]; intros [| v] n ND E; cbn [nth_error] in E; try discriminate; inversion ND; subst; cbn [find_index].
  - injection E as ->. rewrite Nat.eqb_refl. reflexivity.
  - destruct (Nat.eqb_spec d n) as [-> | N]; [exfalso; apply nth_error_In in E; contradiction |]. rewrite (IH v n) by assumption. reflexivity.
Qed.
(** Encoding and decoding gives the same variant. *)
Theorem C52_round_trip : forall e v n, well_formed e -> encode e v = Some n -> decode e n = v.
Proof. intros e v n [ND _] H. unfold decode. rewrite (find_index_nth _ v n ND H). reflexivity. Qed.
Print Assumptions C52_round_trip.
(** Every integer decodes to a variant: the one it encodes, or else the default. *)
Theorem C52_total : forall e n, well_formed e -> decode e n < length (e_disc e) /\ (encode e (decode e n) = Some n \/ (decode e n = e_default e /\ ~ In n (e_disc e))).
Proof.
  intros e n [ND D]. unfold decode, encode. destruct (find_index n (e_disc e)) as [v |] eqn:F.
  - apply find_index_some in F. split; [apply nth_error_Some; congruence | left; exact F].
  - split; [exact D |]. right. split; [reflexivity |]. intros H. apply In_nth_error in H as [v H]. rewrite (find_index_nth _ v n ND H) in F. discriminate F.
Qed.
Print Assumptions C52_total.
(** For enums without explicit discriminants the descriptions list exactly the legal values, each with its variant.
    Partial: enums with explicit discriminants, and the advertised range. *)
Theorem C52_descriptions_partial : forall len d, d < len -> let e := mk_enum (seq 0 len) d in
  descriptions (range e) (describe e) = map (fun v => (v, inl v)) (seq 0 len) /\ (forall n, In n (e_disc e) <-> In n (map fst (descriptions (range e) (describe e)))) /\
  forall v, v < len -> encode e v = Some v.
Proof.
  intros len d Hd e. assert (D : descriptions (range e) (describe e) = map (fun v => (v, inl v)) (seq 0 len)).
  { unfold descriptions, range, describe, e. cbn [e_disc fst snd]. rewrite seq_length, Nat.sub_0_r. apply map_ext_in. intros v H. apply in_seq in H.
    replace (v <? len) with true by (symmetry; apply Nat.ltb_lt; lia). reflexivity. }
  split; [exact D |]. split.
  - intros n. rewrite D, map_map. cbn [fst e e_disc]. rewrite map_id. reflexivity.
  - intros v H. unfold encode, e. cbn [e_disc]. rewrite (nth_error_nth' _ 0) by (rewrite seq_length; exact H). rewrite seq_nth by exact H. reflexivity.
Qed.
Print Assumptions C52_descriptions_partial.
Example enum_example : let e := mk_enum (seq 0 3) 1 in well_formed e /\ map (decode e) [0; 1; 2; 3; 99] = [0; 1; 2; 1; 1] /\
  descriptions (range e) (describe e) = [(0, inl 0); (1, inl 1); (2, inl 2)].
Proof. cbv zeta. split; [split; [apply (seq_NoDup 3 0) | cbn; lia] |]. split; reflexivity. Qed.
(** The advertised (inclusive) range ends at a value that is no variant. *)
Theorem C52_range_refuted : forall len d, d < len -> let e := mk_enum (seq 0 len) d in ~ In (snd (range e)) (e_disc e) /\ describe e (snd (range e)) = None.
Proof.
  intros len d Hd e. unfold range, describe, e. cbn [e_disc snd]. rewrite seq_length. split; [intros H; apply in_seq in H; lia |]. rewrite Nat.ltb_irrefl. reflexivity.
Qed.
Print Assumptions C52_range_refuted.
(** With explicit discriminants a legal value has no description, is outside the range, and illegal values have one. *)
Theorem C52_explicit_refuted : let e := mk_enum [2; 5] 0 in well_formed e /\ encode e 1 = Some 5 /\ describe e 5 = None /\ range e = (0, 2) /\
  descriptions (range e) (describe e) = [(0, inl 0); (1, inl 1)] /\ ~ In 0 (e_disc e) /\ ~ In 1 (e_disc e).
Proof.
  cbn. split; [split; [repeat constructor; cbn; intuition congruence | cbn; lia] |]. repeat split; try reflexivity; intuition congruence.
Qed.
Print Assumptions C52_explicit_refuted.
