(** Sending to the graph outputs *)
From Verif Require Import Base GraphModel GraphSpec GraphBase GraphPath GraphInv GraphShape GraphSums GraphStep HandleModel HandleSpec HandleProofs HandleWire OutModel OutSpec.
Local Open Scope nat_scope.
Local Notation length := List.length.

Lemma to_output_frame g src so si a g' : inv g -> connect_to_output g src so si a = Some g' ->
  same g g' /\ g_outputs g' = g_outputs g /\ g_next g <= g_next g' /\ (forall k, k < g_next g -> summing g' k = summing g k).
Proof.
  intros Hi H. unfold connect_to_output in H. apply (inv_recalc g true) in Hi.
  assert (S0 : same g (set_recalc g true)) by (constructor; try reflexivity; intros k n Hk; exists n; auto).
  change (g_next g) with (g_next (set_recalc g true)). change (g_outputs g) with (g_outputs (set_recalc g true)).
  change (forall k, k < g_next (set_recalc g true) -> summing g' k = summing g k) with (forall k, k < g_next (set_recalc g true) -> summing g' k = summing (set_recalc g true) k).
  set (g0 := set_recalc g true) in *.
  assert (D : forall o, same g (set_outs g0 o) /\ g_outputs (set_outs g0 o) = g_outputs g0 /\ g_next g0 <= g_next (set_outs g0 o) /\
            (forall k, k < g_next g0 -> summing (set_outs g0 o) k = summing g0 k)).
  { intros o. split; [eapply same_trans; [exact S0 |]; constructor; try reflexivity; intros k n Hk; exists n; auto |]. auto. }
  destruct a; cbn [negb] in H.
  2: { destruct (set_nth _ _ _) as [o |]; cbn [bind] in H; [| discriminate]. injection H as <-. apply D. }
  destruct (nth_error (g_outs g0) si) as [[e |] |]; cbn [bind] in H; [| | discriminate].
  2: { destruct (set_nth _ _ _) as [o |]; cbn [bind] in H; [| discriminate]. injection H as <-. apply D. }
  pose proof (new_additive_spec g0 Hi) as (Hw & _ & Hn4 & _ & _ & _ & Hl4). pose proof (same_additive g0 Hi) as S4.
  assert (O4 : g_outputs (fst (new_additive_node g0)) = g_outputs g0) by (unfold new_additive_node, push_node; destruct (g_slots g0); reflexivity).
  destruct (new_additive_node g0) as [g4 add]. cbn [fst snd] in Hw, S4, O4, Hl4, Hn4. subst add.
  destruct (set_edge g4 (g_next g0) 0 (Some e)) as [g5 |] eqn:E5; cbn [bind] in H; [| discriminate].
  destruct (set_edge g5 (g_next g0) 1 _) as [g6 |] eqn:E6; cbn [bind] in H; [| discriminate].
  destruct (set_nth (g_outs g6) si _) as [o |]; cbn [bind] in H; [| discriminate]. injection H as <-.
  pose proof E5 as F5. apply set_edge_some in F5 as (? & ? & _ & _ & Eg5). pose proof E6 as F6. apply set_edge_some in F6 as (? & ? & _ & _ & Eg6).
  split; [| split; [| split]].
  - eapply same_trans; [exact S0 |]. eapply same_trans; [exact S4 |]. eapply same_trans; [eapply same_set_edge; exact E5 |].
    eapply same_trans; [eapply same_set_edge; exact E6 |]. constructor; try reflexivity. intros k n Hk; exists n; auto.
  - cbn. rewrite Eg6. cbn. rewrite Eg5. cbn. exact O4.
  - change (g_next (set_outs g6 o)) with (g_next g6). rewrite (set_edge_next _ _ _ _ _ E6), (set_edge_next _ _ _ _ _ E5). lia.
  - intros k Hk. change (summing (set_outs g6 o) k) with (summing g6 k). rewrite (summing_set_edge _ _ _ _ _ _ E6), (summing_set_edge _ _ _ _ _ _ E5).
    unfold summing. rewrite Hl4. destruct (Nat.eqb_spec (g_next g0) k); [lia | reflexivity].
Qed.

(** One channel *)
Lemma connect_out_ok g s so si a : wf g -> sendable g ((s, so), (NGraph, si)) -> exists g', connect2 g s so si NGraph a false = Some (g', Ok).
Proof.
  intros W [Hs Hi]. cbn [fst snd] in Hs, Hi. unfold connect2. destruct (connect_to_output_total g (src_of s) so si a (proj1 W) (proj2 W) Hi) as [g' E].
  apply Nat.leb_gt in Hi. exists g'. destruct s as [| id].
  - unfold connect_input_to_output. cbn [source_ok fst snd] in Hs. unfold source_ok in Hs. cbn [fst snd] in Hs. apply Nat.leb_gt in Hs. rewrite Hs, Hi. cbn [src_of] in E. rewrite E. reflexivity.
  - unfold connect_node_to_output. destruct Hs as (Hg & n & L & Ho). cbn [fst snd] in *. rewrite (right_graph g id Hg), Hi, L. apply Nat.leb_gt in Ho. rewrite Ho.
    cbn [src_of] in E. rewrite E. reflexivity.
Qed.
Lemma connect_out_err g s so si a : (forall id, s = NNode id -> id_graph id = g_id g) -> ~ sendable g ((s, so), (NGraph, si)) ->
  exists e, connect2 g s so si NGraph a false = Some (g, Err e).
Proof.
  intros O H. unfold sendable, source_ok in H. cbn [fst snd] in H. unfold connect2. destruct s as [| id].
  - unfold connect_input_to_output, fail. destruct (Nat.leb_spec (g_inputs g) so); [eexists; reflexivity |].
    destruct (Nat.leb_spec (g_outputs g) si); [eexists; reflexivity |]. exfalso. apply H. split; lia.
  - specialize (O id eq_refl). unfold connect_node_to_output, fail. rewrite (right_graph g id O). destruct (Nat.leb_spec (g_outputs g) si); [eexists; reflexivity |].
    destruct (lookup g (id_key id)) as [n |] eqn:L; [| eexists; reflexivity]. destruct (Nat.leb_spec (n_outputs n) so); [eexists; reflexivity |].
    exfalso. apply H. split; [| lia]. split; [exact O |]. exists n. auto.
Qed.
Lemma sendable_dec g p : sendable g p \/ ~ sendable g p.
Proof.
  unfold sendable, source_ok. destruct p as [[[| id] so] [k si]]; cbn [fst snd].
  - lia.
  - destruct (lookup g (id_key id)) as [n |]; [| right; intros [(_ & n & E & _) _]; discriminate].
    destruct (N.eq_dec (id_graph id) (g_id g)); [| right; intros [(E & _) _]; contradiction].
    destruct (Nat.lt_ge_cases so (n_outputs n)); [| right; intros [(_ & m & E & L) _]; injection E as <-; lia].
    destruct (Nat.lt_ge_cases si (g_outputs g)); [| right; intros [_ L]; lia]. left. split; [split; [assumption | exists n; auto] | assumption].
Qed.

Definition to_outs (l : list (chan * chan)) : Prop := forall p, In p l -> fst (snd p) = NGraph.
Lemma out_pairs_outs h cs : to_outs (out_pairs h cs).
Proof. intros [p q] H. apply in_combine_r in H. apply in_map_iff in H as (c & <- & _). reflexivity. Qed.
Lemma source_back g g' c : same g g' -> (forall k, lookup g k = None -> k < g_next g -> lookup g' k = None) -> (forall id, fst c = NNode id -> id_key id < g_next g) ->
  source_ok g' c -> source_ok g c.
Proof.
  intros [A1 A2 A3] N K. unfold source_ok. destruct (fst c) as [| id]; [rewrite A2; auto |]. intros (Hg & n & Hn & Hc). split; [congruence |].
  destruct (lookup g (id_key id)) as [m |] eqn:E.
  - destruct (A3 _ _ E) as (n' & H1 & _ & O & _). exists m. split; [reflexivity |]. replace n' with n in O by congruence. lia.
  - rewrite (N _ E (K id eq_refl)) in Hn. discriminate.
Qed.
Lemma to_output_absent g src so si a g' : inv g -> connect_to_output g src so si a = Some g' -> forall k, k < g_next g -> lookup g k = None -> lookup g' k = None.
Proof.
  intros Hi H k Hk L. unfold connect_to_output in H. apply (inv_recalc g true) in Hi. change (lookup g k) with (lookup (set_recalc g true) k) in L. change (g_next g) with (g_next (set_recalc g true)) in Hk.
  set (g0 := set_recalc g true) in *. destruct a; cbn [negb] in H.
  2: { destruct (set_nth _ _ _) as [o |]; cbn [bind] in H; [| discriminate]. injection H as <-. exact L. }
  destruct (nth_error (g_outs g0) si) as [[e |] |]; cbn [bind] in H; [| | discriminate].
  2: { destruct (set_nth _ _ _) as [o |]; cbn [bind] in H; [| discriminate]. injection H as <-. exact L. }
  pose proof (new_additive_spec g0 Hi) as (Hw & _ & _ & _ & _ & _ & Hl4). destruct (new_additive_node g0) as [g4 add]. cbn [fst snd] in Hw, Hl4. subst add.
  destruct (set_edge g4 (g_next g0) 0 (Some e)) as [g5 |] eqn:E5; cbn [bind] in H; [| discriminate].
  destruct (set_edge g5 (g_next g0) 1 _) as [g6 |] eqn:E6; cbn [bind] in H; [| discriminate].
  destruct (set_nth (g_outs g6) si _) as [o |]; cbn [bind] in H; [| discriminate]. injection H as <-. change (lookup (set_outs g6 o) k) with (lookup g6 k).
  apply set_edge_some in E5 as (? & ? & _ & _ & ->). apply set_edge_some in E6 as (? & ? & _ & _ & ->). rewrite !lookup_update, Hl4.
  destruct (Nat.eqb_spec (g_next g0) k); [lia |]. rewrite L. reflexivity.
Qed.

(** All channels *)
Lemma wire_outs a : forall l g, wf g -> to_outs l -> own g l -> known g l ->
  exists g' rs, wire a false g l = Some (g', rs) /\ Forall2 (fun p r => r = Ok <-> sendable g p) l rs /\ wf g' /\ g_outputs g' = g_outputs g /\
    (forall k c l0, k < g_next g -> sums g (in_edge g k c) l0 -> sums g' (in_edge g' k c) l0) /\
    (forall c l0, sums g (out_edge g c) l0 -> sums g' (out_edge g' c) (merge a l0 (sent_to (accepted l rs) c))).
Proof.
  induction l as [| [[s so] [k si]] l IH]; intros g W T O K; cbn [wire].
  - exists g, []. split; [reflexivity |]. split; [constructor |]. split; [exact W |]. split; [reflexivity |]. split; [intros; assumption | intros c l0 H; exact H].
  - pose proof (T _ (or_introl eq_refl)) as Ek. cbn [fst snd] in Ek. subst k.
    assert (T' : to_outs l) by (intros p Hp; apply T; right; exact Hp).
    assert (O' : own g l) by (intros p id Hp; apply O; right; exact Hp).
    assert (K' : known g l) by (intros p id Hp; apply K; right; exact Hp).
    destruct (sendable_dec g ((s, so), (NGraph, si))) as [Y | Y].
    2: { destruct (connect_out_err g s so si a) as [e E]; [intros id ->; eapply (O ((NNode id, so), (NGraph, si))); [left; reflexivity | reflexivity] | exact Y |].
         rewrite E. cbn [bind fst snd]. destruct (IH g W T' O' K') as (g' & rs & E2 & F & R). rewrite E2. cbn [bind fst snd]. exists g', (Err e :: rs).
         split; [reflexivity |]. split; [constructor; [split; [discriminate | contradiction] | exact F] | exact R]. }
    destruct (connect_out_ok g s so si a W Y) as [g1 E]. rewrite E. cbn [bind fst snd]. pose proof (connect2_wf _ _ _ _ _ _ _ _ W E) as W1.
    destruct (step_connect_output g s so si a false g1 W E) as [C Hlt].
    destruct (to_output_frame _ _ _ _ _ _ (proj1 W) C) as (S & Go & Hn & Hsum).
    destruct (connect_to_output_sums _ _ _ _ _ _ (proj1 W) Hlt C) as (A & B & D & X).
    destruct (IH g1 W1 T') as (g' & rs & E2 & F & W2 & G2 & I1 & I2).
    + intros p id Hp Hid. rewrite (sa_id _ _ S). exact (O' p id Hp Hid).
    + intros p id Hp Hid. destruct (K' p id Hp Hid) as [L Z]. split; [lia | rewrite Hsum by exact L; exact Z].
    + rewrite E2. cbn [bind fst snd]. exists g', (Ok :: rs). split; [reflexivity |]. split.
      { constructor; [split; auto |]. clear - F S Go C W K'. revert F. generalize K'. clear K'. generalize rs. clear rs. induction l as [| p l IHl]; intros rs K F; inversion F; subst; [constructor |].
        constructor; [| apply IHl; [intros q id Hq; apply K; right; exact Hq | assumption]].
        match goal with X : _ <-> sendable g1 p |- _ => rewrite X end. unfold sendable. rewrite Go. split; intros [Q1 Q2]; (split; [| exact Q2]).
        - eapply source_back; [exact S | | | exact Q1]; [intros k L Hk; eapply to_output_absent; eauto; apply W |].
          intros id Hid. apply (K p id); [left; reflexivity | left; exact Hid].
        - eapply same_source; eauto. }
      assert (Ls : sums g (Some (mk_edge (src_of s) so false)) [(src_of s, so)]).
      { apply (sums_leaf g (mk_edge (src_of s) so false)). cbn [e_src]. intros b Hb. destruct s as [| s]; [discriminate |]. injection Hb as <-.
        apply (K ((NNode s, so), (NGraph, si))); [left; reflexivity | left; reflexivity]. }
      split; [exact W2 |]. split; [congruence |]. split.
      * intros k c l0 Hk Hl. apply I1; [lia |]. rewrite A by exact Hk. apply D; [exact Hl | apply older_in; exact (proj1 (proj1 W))].
      * intros c l0 Hl. cbn [accepted]. unfold sent_to. cbn [filter fst snd]. destruct (Nat.eqb_spec si c) as [<- | Hc].
        -- cbn [map fst snd]. unfold merge. cbn [fold_left]. apply I2. specialize (X _ Ls). destruct a; [apply X; exact Hl | exact X].
        -- apply I2. rewrite B by congruence. apply D; [exact Hl | apply older_out; exact (proj1 (proj1 W))].
Qed.
(** The [expect]ing loop does the same if everything is accepted and panics otherwise. *)
Definition accepts (r : result) : bool := match r with Ok => true | Err _ => false end.
Lemma wire_expect_wire a : forall l g, wire_expect a g l = match wire a false g l with Some (g', rs) => if forallb accepts rs then Some g' else None | None => None end.
Proof.
  induction l as [| [[s so] [k si]] l IH]; intros g; cbn [wire wire_expect]; [reflexivity |].
  destruct (connect2 g s so si k a false) as [[g1 r] |]; cbn [bind fst snd]; [| reflexivity].
  destruct r as [| e]; [rewrite IH |]; destruct (wire a false g1 l) as [[g' rs] |]; reflexivity.
Qed.
