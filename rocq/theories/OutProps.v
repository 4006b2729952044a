(** C76: what is sent to the graph outputs is heard there *)
From Verif Require Import Base GraphModel GraphSpec GraphBase GraphPath GraphInv GraphShape GraphSums GraphStep HandleModel HandleSpec HandleProofs HandleWire OutModel OutSpec OutProofs.
Local Open Scope nat_scope.
Local Notation length := List.length.

(** Dynamic handles, both forms, on any graph made by edits: never a panic; the channels accepted are exactly those that exist, for
    graph outputs that exist (the others are logged); afterwards each graph output has what it had and the channels sent to it, in
    order (or only the last of them, in the replacing form); inputs of nodes hear what they heard. *)
Theorem C76_heard : forall additive h cs g, reachable g -> own g (out_pairs h cs) -> known g (out_pairs h cs) ->
  exists g' rs, send_dynamic additive g h cs = Some (g', rs) /\
    Forall2 (fun p r => r = Ok <-> sendable g p) (out_pairs h cs) rs /\
    (forall c l0, sums g (out_edge g c) l0 -> sums g' (out_edge g' c) (combined additive l0 (sent_to (accepted (out_pairs h cs) rs) c))) /\
    (forall k c l0, k < g_next g -> sums g (in_edge g k c) l0 -> sums g' (in_edge g' k c) l0).
Proof.
  intros a h cs g R O K. destruct (wire_outs a _ g (reachable_wf _ R) (out_pairs_outs h cs) O K) as (g' & rs & E & F & _ & _ & I1 & I2).
  exists g', rs. split; [exact E |]. split; [exact F |]. split; [| exact I1]. intros c l0 Hl. rewrite <- merge_combined. apply I2. exact Hl.
Qed.
Print Assumptions C76_heard.

(** Without a list of channels, channel [i] goes to graph output [i], for all the channels a handle can count. *)
Theorem C76_in_order : forall h, (N.of_nat (length (h_out h)) <= U16)%N -> forall i p,
  nth_error (out_pairs h (all_outs h)) i = Some p <-> nth_error (h_out h) i = Some (fst p) /\ snd p = (NGraph, i).
Proof.
  intros h L. assert (E : map (fun c => (NGraph, c)) (all_outs h) = map (fun c => (NGraph, c)) (seq 0 (length (h_out h)))).
  { unfold all_outs. rewrite map_map. apply map_ext_in. intros i Hi. apply in_seq in Hi. f_equal. unfold as_u16. rewrite N.mod_small by lia. apply Nat2N.id. }
  unfold out_pairs. rewrite E. clear E L. assert (A : forall (l : list chan) b i p, nth_error (combine l (map (fun c => (NGraph, c)) (seq b (length l)))) i = Some p <-> nth_error l i = Some (fst p) /\ snd p = (NGraph, b + i)).
  { induction l as [| x l IH]; intros b [| i] p; cbn [length seq map combine nth_error]; try (split; [discriminate | intros [? _]; discriminate]).
    - rewrite Nat.add_0_r. split; [intros H; injection H as <-; auto | intros [H1 H2]; destruct p; cbn [fst snd] in *; congruence].
    - rewrite IH. replace (b + S i) with (S b + i) by lia. reflexivity. }
  intros i p. apply (A _ 0).
Qed.
Print Assumptions C76_in_order.

(** Static handles: the same edit if every channel and graph output exists, and a panic otherwise. *)
Theorem C76_static_exactly : forall additive h cs g, reachable g -> own g (out_pairs h cs) -> known g (out_pairs h cs) ->
  forall g', send_static additive g h cs = Some g' <->
    (forall p, In p (out_pairs h cs) -> sendable g p) /\ send_dynamic additive g h cs = Some (g', repeat Ok (length (out_pairs h cs))).
Proof.
  intros a h cs g R O K g'. destruct (C76_heard a h cs g R O K) as (g1 & rs & E & F & _). unfold send_static. rewrite wire_expect_wire. fold (send_dynamic a g h cs). rewrite E.
  assert (A : forall l rs, Forall2 (fun p r => r = Ok <-> sendable g p) l rs -> (forallb accepts rs = true <-> (forall p, In p l -> sendable g p)) /\ (forallb accepts rs = true <-> rs = repeat Ok (length l))).
  { clear. induction 1 as [| p r l rs H _ IH]; cbn [forallb length repeat In]; [split; (split; [intros; try contradiction; reflexivity | reflexivity]) |].
    destruct IH as [I1 I2]. rewrite andb_true_iff. split; split.
    - intros [Hr Hs] q [<- | Hq]; [apply H; destruct r; [reflexivity | discriminate] | apply I1; assumption].
    - intros Hq. split; [rewrite (proj2 H (Hq p (or_introl eq_refl))); reflexivity | apply I1; intros q Hin; apply Hq; right; exact Hin].
    - intros [Hr Hs]. destruct r; [| discriminate]. rewrite (proj1 I2 Hs). f_equal.
    - intros Heq. injection Heq as -> Hs. split; [reflexivity | apply I2; exact Hs]. }
  destruct (A _ _ F) as [A1 A2]. destruct (forallb accepts rs) eqn:B.
  - split; [intros H; injection H as <-; split; [apply A1; reflexivity | rewrite (proj1 A2 eq_refl) at 1; reflexivity] | intros [_ H]; injection H as -> _; reflexivity].
  - split; [discriminate |]. intros [Hp _]. apply A1 in Hp. discriminate.
Qed.
Print Assumptions C76_static_exactly.

(** A graph with one output and a node with two: one channel each for both forms *)
Definition one_ops := [OpPush 0 2 [] false; OpPush 1 1 [] false; OpConnect (NNode (mk_id 0 7)) 0 0 (NNode (mk_id 1 7)) true false; OpConnect (NNode (mk_id 1 7)) 0 0 NGraph true false].
Definition one_out : graph := match run (graph_new 7 1 1 []) one_ops with Some g => g | None => graph_new 7 1 1 [] end.
Definition both : handle := mk_handle [] [(NNode (mk_id 0 7), 0); (NNode (mk_id 0 7), 1)].
Lemma one_out_reachable : reachable one_out.
Proof. exists 7%N, 1, 1, [], one_ops. vm_compute. reflexivity. Qed.
Example C76_case : reachable one_out /\ own one_out (out_pairs both [0; 0]) /\ known one_out (out_pairs both [0; 0]) /\ (forall p, In p (out_pairs both [0; 0]) -> sendable one_out p) /\
  exists g', send_static true one_out both [0; 0] = Some g' /\ sums g' (out_edge g' 0) [(Some 1, 0); (Some 0, 0); (Some 0, 1)].
Proof.
  split; [exact one_out_reachable |]. assert (O : own one_out (out_pairs both [0; 0])).
  { intros p id Hp Hid. cbn in Hp. destruct Hp as [<- | [<- | []]]; cbn [fst snd] in Hid; injection Hid as <-; reflexivity. }
  split; [exact O |]. assert (K : known one_out (out_pairs both [0; 0])).
  { intros p id Hp Hid. cbn in Hp. destruct Hp as [<- | [<- | []]]; cbn [fst snd] in Hid; destruct Hid as [E | E]; (discriminate || (injection E as <-; vm_compute; split; [repeat constructor | reflexivity])). }
  split; [exact K |]. assert (S : forall p, In p (out_pairs both [0; 0]) -> sendable one_out p).
  { intros p Hp. cbn in Hp. destruct Hp as [<- | [<- | []]]; (split; [split; [reflexivity | eexists; split; [vm_compute; reflexivity | cbn; lia]] | vm_compute; lia]). }
  split; [exact S |]. destruct (C76_heard true both [0; 0] one_out one_out_reachable O K) as (g' & rs & E & F & H & _).
  exists g'. assert (rs = repeat Ok 2).
  { cbn [out_pairs both h_out combine map] in F, S. inversion F as [| ? r1 ? ? F1 Fr]; subst. inversion Fr as [| ? r2 ? ? F2 Fn]; subst. inversion Fn; subst.
    rewrite (proj2 F1), (proj2 F2); [reflexivity | |]; apply S; cbn; auto. }
  subst rs. split; [apply C76_static_exactly; auto using one_out_reachable |].
  specialize (H 0 [(Some 1, 0)]). apply H. change (out_edge one_out 0) with (Some (mk_edge (Some 1) 0 false)). apply (sums_leaf one_out (mk_edge (Some 1) 0 false)). intros k Hk. injection Hk as <-. vm_compute. reflexivity.
Qed.
(** The types do not know how many outputs the graph has: a handle with more panics in the static form and loses channels in the
    dynamic one, although all of its channels exist. *)
Theorem C76_too_many_refuted : exists g h, reachable g /\ own g (out_pairs h (all_outs h)) /\ (forall c, In c (h_out h) -> source_ok g c) /\
  send_static_all true g h = None /\ exists g', send_dynamic_all true g h = Some (g', [Ok; Err (EGraphOutput 1)]).
Proof.
  exists one_out, both. split; [exact one_out_reachable |]. split; [intros p id Hp Hid; cbn in Hp; destruct Hp as [<- | [<- | []]]; cbn [fst snd] in Hid; injection Hid as <-; reflexivity |].
  split; [intros c [<- | [<- | []]]; (split; [reflexivity | eexists; split; [vm_compute; reflexivity | cbn; lia]]) |]. split; [vm_compute; reflexivity |]. eexists. vm_compute. reflexivity.
Qed.
Print Assumptions C76_too_many_refuted.
(** "type safe interface should eliminate graph connection errors" (l.341-342): it does not rule out a loop, and [to_replace] panics. *)
Theorem C76_replace_refuted : exists g x y, reachable g /\ (forall c, In c (h_out x) -> source_ok g c) /\ (forall c, In c (h_in y) -> sink_ok g c) /\ length (h_out x) = length (h_in y) /\ to_replace_static g x y = None.
Proof.
  exists one_out, (mk_handle [] [(NNode (mk_id 1 7), 0)]), (mk_handle [(NNode (mk_id 1 7), 0)] []). split; [exact one_out_reachable |].
  split; [intros c [<- | []]; split; [reflexivity | eexists; split; [vm_compute; reflexivity | cbn; lia]] |].
  split; [intros c [<- | []]; split; [reflexivity | eexists; split; [vm_compute; reflexivity | split; [discriminate | cbn; lia]]] |]. split; [reflexivity | vm_compute; reflexivity].
Qed.
Print Assumptions C76_replace_refuted.

(** Disconnecting through a handle is disconnecting the node's (or graph's) channel at that position, to which the results of C12
    apply, and a panic whenever that fails or there is no such position. *)
Theorem C12_through_handles : forall g h c g',
  (h_disconnect_output g h c = Some g' <-> exists x, nth_error (h_out h) c = Some x /\ step g (OpDisconnectOut (fst x) (snd x)) = Some (g', Ok)) /\
  (h_disconnect_input g h c = Some g' <-> exists x, nth_error (h_in h) c = Some x /\ step g (OpDisconnectIn (snd x) (fst x)) = Some (g', Ok)).
Proof.
  intros g h c g'. assert (E : forall r, expect_ok r = Some g' <-> r = Some (g', Ok)).
  { intros [[g1 [| e]] |]; cbn [expect_ok bind fst snd]; split; intros H; try discriminate; congruence. }
  unfold h_disconnect_output, h_disconnect_input. cbn [step]. split.
  - destruct (nth_error (h_out h) c) as [x |]; cbn [bind]; [rewrite E; split; [eauto | intros (y & Hy & H); injection Hy as <-; exact H] | split; [discriminate | intros (y & Hy & _); discriminate]].
  - destruct (nth_error (h_in h) c) as [x |]; cbn [bind]; [rewrite E; split; [eauto | intros (y & Hy & H); injection Hy as <-; exact H] | split; [discriminate | intros (y & Hy & _); discriminate]].
Qed.
Print Assumptions C12_through_handles.
Example C12_handle_case : exists g', h_disconnect_output one_out both 0 = Some g' /\ in_edge one_out 1 0 = Some (mk_edge (Some 0) 0 false) /\ in_edge g' 1 0 = None.
Proof. eexists. split; [vm_compute; reflexivity |]. split; vm_compute; reflexivity. Qed.
