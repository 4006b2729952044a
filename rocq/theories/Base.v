(** Shared definitions: fixed width integer arithmetic and the "may panic" monad.

    Rust arithmetic on [u32]/[u64]/[usize] panics on overflow in debug builds and wraps in release
    builds ([/repo/Cargo.toml] does not enable overflow-checks for release).  The model uses the
    debug behaviour: an operation that leaves the range returns [None] ("panic").  Explicit [as]
    casts truncate and are modelled by [as_u32] etc. *)
From Coq Require Export NArith ZArith List Lia Bool.
From Coq Require Export ZifyBool ZifyNat ZifyN.
Export ListNotations.

Definition bind {A B} (o : option A) (f : A -> option B) : option B :=
  match o with Some a => f a | None => None end.
Notation "x <- e ;; f" := (bind e (fun x => f))
  (at level 61, e at next level, right associativity).

Definition U16 : N := 2 ^ 16.
Definition U32 : N := 2 ^ 32.
Definition U64 : N := 2 ^ 64.

(** [as u16], [as u32], [as u64] on a wider unsigned value. *)
Definition as_u16 (x : N) : N := (x mod U16)%N.
Definition as_u32 (x : N) : N := (x mod U32)%N.
Definition as_u64 (x : N) : N := (x mod U64)%N.

(** Checked (debug build) operations for an unsigned type with [w] values. *)
Definition add_w (w a b : N) : option N := if (a + b <? w)%N then Some (a + b)%N else None.
Definition mul_w (w a b : N) : option N := if (a * b <? w)%N then Some (a * b)%N else None.
Definition sub_w (a b : N) : option N := if (b <=? a)%N then Some (a - b)%N else None.
Definition div_w (a b : N) : option N := if (b =? 0)%N then None else Some (a / b)%N.
Definition rem_w (a b : N) : option N := if (b =? 0)%N then None else Some (a mod b)%N.

Lemma add_w_some w a b : (a + b < w)%N -> add_w w a b = Some (a + b)%N.
Proof. intros H. unfold add_w. rewrite (proj2 (N.ltb_lt _ _) H). reflexivity. Qed.
Lemma mul_w_some w a b : (a * b < w)%N -> mul_w w a b = Some (a * b)%N.
Proof. intros H. unfold mul_w. rewrite (proj2 (N.ltb_lt _ _) H). reflexivity. Qed.
Lemma sub_w_some a b : (b <= a)%N -> sub_w a b = Some (a - b)%N.
Proof. intros H. unfold sub_w. rewrite (proj2 (N.leb_le _ _) H). reflexivity. Qed.
Lemma div_w_some a b : (0 < b)%N -> div_w a b = Some (a / b)%N.
Proof. intros H. unfold div_w. destruct (N.eqb_spec b 0); [lia|reflexivity]. Qed.
Lemma rem_w_some a b : (0 < b)%N -> rem_w a b = Some (a mod b)%N.
Proof. intros H. unfold rem_w. destruct (N.eqb_spec b 0); [lia|reflexivity]. Qed.

(** [list] update at an index; [None] is the bounds-check panic. *)
Fixpoint set_nth {A} (l : list A) (i : nat) (x : A) : option (list A) :=
  match l, i with
  | [], _ => None
  | _ :: t, O => Some (x :: t)
  | h :: t, S i' => match set_nth t i' x with Some t' => Some (h :: t') | None => None end
  end.

Lemma set_nth_length {A} (l : list A) i x l' :
  set_nth l i x = Some l' -> length l' = length l.
Proof.
  revert i l'. induction l as [|h t IH]; intros [|i] l' H; cbn in H; try discriminate.
  - injection H as <-. reflexivity.
  - destruct (set_nth t i x) as [t'|] eqn:E; [|discriminate]. injection H as <-.
    cbn. f_equal. eapply IH. exact E.
Qed.
Lemma set_nth_some {A} (l : list A) i x :
  i < length l -> exists l', set_nth l i x = Some l'.
Proof.
  revert i. induction l as [|h t IH]; intros [|i] H; cbn in *; try lia; [eauto|].
  destruct (IH i) as [t' ->]; [lia|]. eauto.
Qed.
Lemma set_nth_lt {A} (l : list A) i x l' :
  set_nth l i x = Some l' -> i < length l.
Proof.
  revert i l'. induction l as [|h t IH]; intros [|i] l' H; cbn in *; try discriminate; [lia|].
  destruct (set_nth t i x) as [t'|] eqn:E; [|discriminate]. apply IH in E. lia.
Qed.
Lemma set_nth_same {A} (l : list A) i x l' :
  set_nth l i x = Some l' -> nth_error l' i = Some x.
Proof.
  revert i l'. induction l as [|h t IH]; intros [|i] l' H; cbn in H; try discriminate.
  - injection H as <-. reflexivity.
  - destruct (set_nth t i x) as [t'|] eqn:E; [|discriminate]. injection H as <-.
    cbn. eapply IH. exact E.
Qed.
Lemma set_nth_other {A} (l : list A) i j x l' :
  set_nth l i x = Some l' -> i <> j -> nth_error l' j = nth_error l j.
Proof.
  revert i j l'. induction l as [|h t IH]; intros [|i] [|j] l' H Hij; cbn in H; try discriminate; try lia.
  - injection H as <-. reflexivity.
  - destruct (set_nth t i x) as [t'|] eqn:E; [|discriminate]. injection H as <-. reflexivity.
  - destruct (set_nth t i x) as [t'|] eqn:E; [|discriminate]. injection H as <-.
    cbn. eapply IH; [exact E|lia].
Qed.

Lemma nth_error_ext {A} (l l' : list A) :
  (forall i, nth_error l i = nth_error l' i) -> l = l'.
Proof.
  revert l'. induction l as [|h t IH]; intros [|h' t'] H.
  - reflexivity.
  - specialize (H O). discriminate H.
  - specialize (H O). discriminate H.
  - pose proof (H O) as H0. cbn in H0. injection H0 as <-. f_equal. apply IH.
    intros i. exact (H (S i)).
Qed.
