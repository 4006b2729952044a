(** Every history of legal requests keeps the regions handed out apart. *)
From Verif Require Import Base GraphModel AllocModel AllocProofs AllocSpec.
Local Open Scope nat_scope.

(** Region [h] is block [i]. *)
Definition backs (a : alloc) (h : held) (i : nat) : Prop :=
  exists b, nth_error (a_blocks a) i = Some b /\ b_start b = h_off h /\ h_len h <= b_len b /\ b_borrows b = h_left h /\
    i <> 0 /\ ~ In i (a_ret a).
Record hinv (bs : nat) (a : alloc) (l : list held) : Prop := {
  hv_lay : lay a;
  hv_zero : exists b, nth_error (a_blocks a) 0 = Some b /\ b_start b = 0 /\ b_len b = bs /\ ~ In 0 (a_ret a);
  hv_pos : forall i b, nth_error (a_blocks a) i = Some b -> 0 < b_len b;
  hv_back : forall h, In h l -> exists i, backs a h i;
  hv_nodup : NoDup (map h_off l) }.

Lemma start_eq a i j b c : lay a -> (forall i b, nth_error (a_blocks a) i = Some b -> 0 < b_len b) ->
  nth_error (a_blocks a) i = Some b -> nth_error (a_blocks a) j = Some c -> b_start b = b_start c -> i = j.
Proof.
  intros Hl Hp Hb Hc E. destruct (start_inj a i j b c Hl Hb Hc (Hp _ _ Hb) (eq_sym E)) as [H|[_ H]]; [auto|].
  specialize (Hp _ _ Hc). lia.
Qed.
Lemma give_back_off off l h : In h (give_back off l) -> exists h', In h' l /\ h_off h' = h_off h /\ h_len h' = h_len h /\
  (h_off h <> off -> h' = h).
Proof.
  induction l as [|x l IH]; cbn [give_back]; [intros []|].
  destruct (Nat.eqb_spec (h_off x) off) as [E|E].
  - destruct (h_left x =? 1)%N.
    + intros H. exists h. split; [right; exact H|auto].
    + intros [<-|H].
      * exists x. cbn. split; [left; reflexivity|]. split; [reflexivity|]. split; [reflexivity|]. congruence.
      * exists h. split; [right; exact H|auto].
  - intros [<-|H]; [exists x; split; [left; reflexivity|auto]|].
    destruct (IH H) as (h' & H1 & H2). exists h'. split; [right; exact H1|exact H2].
Qed.
Lemma give_back_incl off l : incl (map h_off (give_back off l)) (map h_off l).
Proof.
  intros x Hx. apply in_map_iff in Hx as (h & <- & Hh). apply give_back_off in Hh as (h' & H1 & H2 & _).
  rewrite <- H2. apply in_map. exact H1.
Qed.
Lemma give_back_nodup off l : NoDup (map h_off l) -> NoDup (map h_off (give_back off l)).
Proof.
  induction l as [|x l IH]; cbn [give_back map]; intros H; [exact H|]. inversion H as [|? ? Hx Hl]; subst.
  destruct (h_off x =? off).
  - destruct (h_left x =? 1)%N; [exact Hl|]. cbn. constructor; assumption.
  - cbn. constructor; [|auto]. intros Hin. apply give_back_incl in Hin. contradiction.
Qed.
(** The entry at [off] lost one borrow. *)
Lemma give_back_at off l h h0 : NoDup (map h_off l) -> In h (give_back off l) -> In h0 l -> h_off h0 = off -> h_off h = off ->
  h_len h = h_len h0 /\ h_left h = (h_left h0 - 1)%N /\ h_left h0 <> 1%N.
Proof.
  induction l as [|x l IH]; cbn [give_back map]; intros Hnd Hh H0 E0 E; [destruct Hh|].
  inversion Hnd as [|? ? Hx Hl]; subst x0 l0. destruct (Nat.eqb_spec (h_off x) off) as [Ex|Ex].
  - assert (h0 = x). { destruct H0 as [|H0]; [auto|]. exfalso. apply Hx. rewrite Ex, <- E0. apply in_map. exact H0. }
    subst h0. destruct (N.eqb_spec (h_left x) 1) as [E1|E1].
    + exfalso. apply Hx. rewrite Ex, <- E. apply in_map. exact Hh.
    + destruct Hh as [<-|Hh]; [cbn; auto|]. exfalso. apply Hx. rewrite Ex, <- E. apply in_map. exact Hh.
  - destruct H0 as [->|H0]; [congruence|]. destruct Hh as [->|Hh]; [congruence|]. eauto.
Qed.

Lemma hinv_get bs a l n b : 0 < bs -> hinv bs a l -> 1 <= n ->
  exists a' off, get_block a n bs b = Some (a', off) /\ hinv bs a' (mk_held off (n * bs) b :: l).
Proof.
  intros Hbs Hi Hn. destruct (get_spec a n bs b (hv_lay _ _ _ Hi))
    as (a' & off & E & Hl & Hsz & _ & _ & i & len & Hi' & Hlen & Ho & Hcase).
  exists a', off. split; [exact E|]. destruct (hv_zero _ _ _ Hi) as (b0 & Z1 & Z2 & Z3 & Z4).
  assert (Hi0 : i <> 0).
  { intros ->. destruct Hcase as [(E0 & _)|(Hin & _)]; [|contradiction].
    assert (Hlt : 0 < List.length (a_blocks a)) by (apply nth_error_Some; congruence). lia. }
  assert (Hret : forall x, In x (a_ret a') -> In x (a_ret a) /\ x <> i).
  { intros x Hx. destruct Hcase as [(-> & _ & Hr)|(_ & _ & Hr)]; [|apply Hr; exact Hx].
    rewrite Hr in Hx. split; [exact Hx|]. intros ->. destruct (la_ret a (hv_lay _ _ _ Hi) _ Hx) as (c & Hc & _).
    assert (Hlt : List.length (a_blocks a) < List.length (a_blocks a)) by (apply nth_error_Some; congruence). lia. }
  assert (Hpos : forall j c, nth_error (a_blocks a') j = Some c -> 0 < b_len c).
  { intros j c Hc. destruct (Nat.eq_dec j i) as [->|Hne].
    - rewrite Hi' in Hc. injection Hc as <-. cbn. nia.
    - rewrite Ho in Hc by exact Hne. eapply (hv_pos _ _ _ Hi); eauto. }
  assert (Hold : forall h j, In h l -> backs a h j -> j <> i /\ backs a' h j).
  { intros h j Hh (c & C1 & C2 & C3 & C4 & C5 & C6). assert (Hne : j <> i).
    { intros ->. destruct Hcase as [(-> & _)|(Hin & _)]; [|contradiction].
      assert (Hlt : List.length (a_blocks a) < List.length (a_blocks a)) by (apply nth_error_Some; congruence). lia. }
    split; [exact Hne|]. exists c. rewrite Ho by exact Hne. repeat (split; [assumption|]).
    intros Hx. apply Hret in Hx. tauto. }
  constructor; [exact Hl| |exact Hpos| |].
  - exists b0. rewrite Ho by congruence. repeat (split; [assumption|]). intros Hx. apply Hret in Hx. tauto.
  - intros h [<-|Hh].
    + exists i. eexists. split; [exact Hi'|]. cbn. repeat (split; [reflexivity || assumption|]).
      intros Hx. apply Hret in Hx. tauto.
    + destruct (hv_back _ _ _ Hi h Hh) as [j Hj]. exists j. apply (Hold h j Hh Hj).
  - cbn. constructor; [|exact (hv_nodup _ _ _ Hi)]. intros Hin. apply in_map_iff in Hin as (h & Eh & Hh).
    destruct (hv_back _ _ _ Hi h Hh) as [j Hj]. destruct (Hold h j Hh Hj) as [Hne (c & C1 & C2 & _)].
    apply Hne. eapply (start_eq a' j i c); [exact Hl|exact Hpos|exact C1|exact Hi'|]. cbn. congruence.
Qed.
Lemma hinv_return bs a l h : hinv bs a l -> In h l -> (0 < h_left h)%N ->
  exists a', return_block a (h_off h) = Some a' /\ hinv bs a' (give_back (h_off h) l).
Proof.
  intros Hi Hh Hp. destruct (hv_back _ _ _ Hi h Hh) as (i & b & B1 & B2 & B3 & B4 & B5 & B6).
  destruct (return_total a (h_off h) i b B1 B2) as [a' E]; [rewrite B4; exact Hp| |].
  { intros j c Hj Hc Ec. assert (i = j); [|lia]. eapply start_eq; [apply Hi|apply Hi|exact B1|exact Hc|congruence]. }
  exists a'. split; [exact E|]. pose proof (return_lay _ _ _ (hv_lay _ _ _ Hi) E) as Hl.
  destruct (return_cases _ _ _ E) as [[_ Hno]|(i' & b' & C1 & C2 & C3 & _ & Ht & Hr)].
  { exfalso. exact (Hno _ _ B1 B2). }
  assert (i' = i) by (eapply start_eq; [apply Hi|apply Hi|exact C1|exact B1|congruence]). subst i'.
  rewrite B1 in C1. injection C1 as <-. pose proof Ht as Ht0.
  destruct Ht as (T1 & T2 & T3 & (b'' & D1 & D2) & T5). rewrite B1 in D1. injection D1 as <-.
  assert (Hret : forall x, x <> i -> In x (a_ret a') -> In x (a_ret a)).
  { intros x Hne Hx. rewrite Hr in Hx. destruct (b_borrows b - 1 =? 0)%N; [destruct Hx; [congruence|assumption]|exact Hx]. }
  constructor; [exact Hl| | | |].
  - destruct (hv_zero _ _ _ Hi) as (b0 & Z1 & Z2 & Z3 & Z4). exists b0. rewrite T5 by congruence.
    repeat (split; [assumption|]). intros Hx. apply Z4. apply Hret; [congruence|exact Hx].
  - intros j c Hc. destruct (touched_back _ _ _ _ Ht0 j c Hc) as (d & E1 & _ & E3 & _). rewrite <- E3.
    eapply (hv_pos _ _ _ Hi); eauto.
  - intros x Hx. destruct (Nat.eq_dec (h_off x) (h_off h)) as [Ex|Ex].
    + destruct (give_back_at (h_off h) l x h (hv_nodup _ _ _ Hi) Hx Hh eq_refl Ex) as (G1 & G2 & G3).
      exists i. exists (mk_blk (b_start b) (b_len b) (b_borrows b - 1)). cbn.
      split; [exact D2|]. split; [congruence|]. split; [lia|]. split; [congruence|]. split; [exact B5|].
      rewrite Hr. destruct (N.eqb_spec (b_borrows b - 1) 0) as [E0|E0]; [lia|exact B6].
    + destruct (give_back_off _ _ _ Hx) as (x' & X1 & X2 & X3 & X4). rewrite (X4 Ex) in *.
      destruct (hv_back _ _ _ Hi x X1) as (j & c & E1 & E2 & E3 & E4 & E5 & E6).
      assert (Hne : j <> i) by (intros ->; rewrite B1 in E1; injection E1 as <-; congruence).
      exists j, c. rewrite T5 by exact Hne. repeat (split; [assumption|]). intros Hin. apply E6. apply Hret; assumption.
  - apply give_back_nodup. exact (hv_nodup _ _ _ Hi).
Qed.
Lemma history_hinv bs a l : 0 < bs -> history bs a l -> hinv bs a l.
Proof.
  intros Hbs H. induction H as [a a' H|a l r a' l' _ IH Hleg Hs].
  - destruct (reset_spec a bs) as (a0 & E & Hl & _ & Hb & Hr & _). rewrite H in E. injection E as <-.
    constructor; [exact Hl| | |intros h []|constructor].
    + rewrite Hb. exists (mk_blk 0 bs usize_max). rewrite Hr. cbn. auto.
    + intros i b Hi. rewrite Hb in Hi. destruct i as [|i]; [injection Hi as <-; exact Hbs|destruct i; discriminate].
  - destruct r as [n b|off]; cbn [serve legal] in *.
    + destruct (hinv_get bs a l n b Hbs IH Hleg) as (a1 & off & E & Hi). rewrite E in Hs. cbn in Hs.
      injection Hs as <- <-. exact Hi.
    + destruct Hleg as (h & Hh & <- & Hp). destruct (hinv_return bs a l h IH Hh Hp) as (a1 & E & Hi).
      rewrite E in Hs. cbn in Hs. injection Hs as <- <-. exact Hi.
Qed.
Lemma hinv_serve bs a l r : 0 < bs -> hinv bs a l -> legal l r -> exists a' l', serve bs a l r = Some (a', l').
Proof.
  intros Hbs Hi Hl. destruct r as [n b|off]; cbn [serve legal] in *.
  - destruct (hinv_get bs a l n b Hbs Hi Hl) as (a1 & off & -> & _). cbn. eauto.
  - destruct Hl as (h & Hh & <- & Hp). destruct (hinv_return bs a l h Hi Hh Hp) as (a1 & -> & _). cbn. eauto.
Qed.
Lemma hinv_apart bs a l1 h l2 h' : hinv bs a (l1 ++ h :: l2) -> In h' (l1 ++ l2) -> apart h h'.
Proof.
  intros Hi Hin.
  assert (Hh : In h (l1 ++ h :: l2)) by (apply in_or_app; right; left; reflexivity).
  assert (Hh' : In h' (l1 ++ h :: l2)) by (apply in_app_or in Hin as []; apply in_or_app; [left|right; right]; assumption).
  destruct (hv_back _ _ _ Hi h Hh) as (i & b & B1 & B2 & B3 & _).
  destruct (hv_back _ _ _ Hi h' Hh') as (j & c & C1 & C2 & C3 & _).
  assert (Hne : i <> j).
  { intros <-. rewrite B1 in C1. injection C1 as <-. pose proof (hv_nodup _ _ _ Hi) as Hn.
    rewrite map_app in Hn. cbn in Hn. apply NoDup_remove_2 in Hn. apply Hn. rewrite <- map_app, <- B2, C2.
    apply in_map. exact Hin. }
  unfold apart. destruct (Nat.lt_ge_cases i j) as [H|H].
  - pose proof (la_order _ (hv_lay _ _ _ Hi) _ _ _ _ H B1 C1). lia.
  - assert (H' : j < i) by lia. pose proof (la_order _ (hv_lay _ _ _ Hi) _ _ _ _ H' C1 B1). lia.
Qed.
Lemma hinv_bounds bs a l h : hinv bs a l -> In h l -> bs <= h_off h /\ h_off h + h_len h <= a_size (finish a) /\
  (0 < h_len h -> offset_to_ptr (finish a) (h_off h) = Some (h_off h)).
Proof.
  intros Hi Hh. destruct (hv_back _ _ _ Hi h Hh) as (i & b & B1 & B2 & B3 & B4 & B5 & B6).
  destruct (hv_zero _ _ _ Hi) as (b0 & Z1 & Z2 & Z3 & _).
  assert (H0 : 0 < i) by lia. pose proof (la_order _ (hv_lay _ _ _ Hi) _ _ _ _ H0 Z1 B1).
  pose proof (la_next _ (hv_lay _ _ _ Hi) _ _ B1). pose proof (la_virtual _ (hv_lay _ _ _ Hi)) as Hv.
  assert (Hsz : h_off h + h_len h <= a_size (finish a)).
  { unfold finish. cbn. destruct (Nat.leb_spec (a_virtual a) (a_size a)); lia. }
  split; [lia|]. split; [exact Hsz|]. intros Hp. unfold offset_to_ptr.
  destruct (Nat.ltb_spec (h_off h) (a_size (finish a))); [reflexivity|lia].
Qed.
