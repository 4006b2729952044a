(** Properties C08-C15: editing the audio graph. Specification: [GraphSpec]. *)
From Verif Require Import Base GraphModel GraphSpec GraphBase GraphPath GraphInv GraphShape GraphSums GraphRefs
  GraphClean GraphStep.
Local Open Scope nat_scope.

(** A graph used in the examples: id 7, one graph input, two outputs.  Nodes 0 and 1 are sources (one
    output), 2 has two inputs and one output; both sources are added into input 0 of node 2 (through the
    inserted sum, node 3), node 2 goes to output 0 and node 0 to output 1. *)
Definition nd (k : nat) : node_or_graph := NNode (mk_id k 7).
Definition ex_ops : list op :=
  [ OpPush 0 1 [] false; OpPush 0 1 [] false; OpPush 2 1 ["freq"%string; "gain"%string] true;
    OpConnect (nd 0) 0 0 (nd 2) true false; OpConnect (nd 1) 0 0 (nd 2) true false;
    OpConnect (nd 2) 0 0 NGraph true false; OpConnect (nd 0) 0 1 NGraph true false ].
Definition ex_start : graph := graph_new 7 1 2 [0; 0].
Definition ex_g : graph := match run ex_start ex_ops with Some g => g | None => ex_start end.
Lemma ex_reachable : reachable ex_g.
Proof. exists 7%N, 1, 2, [0; 0], ex_ops. vm_compute. reflexivity. Qed.
Lemma ex_wf : wf ex_g.
Proof. exact (reachable_wf _ ex_reachable). Qed.
Ltac live_tac := eexists; eexists; split; vm_compute; reflexivity.
Lemma ex_plain : plain_run ex_start ex_ops ex_g.
Proof.
  unfold ex_ops.
  do 7 (eapply plain_cons;
    [first [exact I|split; [reflexivity|live_tac]]|vm_compute; reflexivity|]).
  vm_compute. constructor.
Qed.

(** ** C08 *)
(** Whatever the history of edits, failed ones included, no cycle of stored audio connections exists. *)
Theorem C08_never_cyclic : forall g, reachable g -> ~ has_cycle g.
Proof. intros g H. apply wf_no_cycle. apply (reachable_wf g H). Qed.
Print Assumptions C08_never_cyclic.
Example C08_case : reachable ex_g /\ feeds ex_g 0 3 /\ feeds ex_g 1 3 /\ feeds ex_g 3 2.
Proof.
  split; [exact ex_reachable|].
  split; [exists 0|split; [exists 1|exists 0]]; eexists; split; vm_compute; reflexivity.
Qed.

(** ** C09 *)
(** An edit that returns an error leaves the graph as it was. *)
Theorem C09_failed_edit_unchanged : forall g o g' e, step g o = Some (g', Err e) -> g' = g.
Proof. exact step_err. Qed.
Print Assumptions C09_failed_edit_unchanged.
Example C09_failed_case :
  step ex_g (OpConnect (nd 2) 0 0 (nd 2) true false) = Some (ex_g, Err ECircular) /\
  step ex_g (OpConnect (nd 0) 1 0 (nd 2) true false) = Some (ex_g, Err (EOutput 1)) /\
  step ex_g (OpConnect NGraph 4 0 (nd 2) true false) = Some (ex_g, Err (EGraphInput 4)).
Proof. vm_compute. auto. Qed.

(** Every stored audio connection refers to an existing node and channel, after every history without
    feedback connections and without connections from nodes already freed. *)
Theorem C09_references_exist_partial : forall id inputs outputs slots ops g,
  plain_run (graph_new id inputs outputs slots) ops g -> refs_ok g.
Proof.
  intros id i o slots ops g H.
  exact (proj1 (plain_run_refs _ _ _ H (graph_new_wf id i o slots) (graph_new_refs id i o slots))).
Qed.
Print Assumptions C09_references_exist_partial.
Example C09_references_case : plain_run ex_start ex_ops ex_g /\ in_edge ex_g 2 0 = Some (mk_edge (Some 3) 0 false).
Proof. split; [exact ex_plain|vm_compute; reflexivity]. Qed.

(** With a feedback connection the stored connection refers to output 0 of a node without outputs. *)
Theorem C09_feedback_refuted : exists g k c e, reachable g /\ in_edge g k c = Some e /\ ~ edge_ok g e.
Proof.
  set (ops := [OpPush 1 1 [] false; OpConnect (nd 0) 0 0 (nd 0) true true]).
  destruct (run (graph_new 7 0 1 []) ops) as [g|] eqn:E; [|vm_compute in E; discriminate].
  exists g, 0, 0, (mk_edge (Some 2) 0 true). split; [exists 7%N, 0, 1, [], ops; exact E|].
  vm_compute in E. injection E as <-. split; [vm_compute; reflexivity|].
  intros (n & H1 & _ & H2). vm_compute in H1. injection H1 as <-. cbn in H2. lia.
Qed.
Print Assumptions C09_feedback_refuted.
(** Connecting from a node that was freed (and not yet reclaimed) is accepted. *)
Theorem C09_freed_source_refuted : exists g k c e s n, reachable g /\ in_edge g k c = Some e /\
  e_src e = Some s /\ lookup g s = Some n /\ n_edges n = None.
Proof.
  set (ops := [OpPush 0 1 [] false; OpPush 1 1 [] false; OpFree (mk_id 0 7); OpConnect (nd 0) 0 0 (nd 1) true false]).
  destruct (run (graph_new 7 0 1 []) ops) as [g|] eqn:E; [|vm_compute in E; discriminate].
  vm_compute in E. injection E as <-.
  eexists. exists 1, 0, (mk_edge (Some 0) 0 false), 0. eexists.
  split; [exists 7%N, 0, 1, [], ops; vm_compute; reflexivity|]. vm_compute. auto.
Qed.
Print Assumptions C09_freed_source_refuted.

(** ** C10 *)
(** For existing nodes and channels and a sink that was not freed: the connection is refused as circular
    exactly when the sink's signal already reaches the source (the node itself included), and otherwise
    accepted. *)
Theorem C10_circular_iff : forall g s k so si additive ns nk, reachable g ->
  wrong_graph g s = false -> wrong_graph g k = false ->
  lookup g (id_key s) = Some ns -> so < n_outputs ns ->
  lookup g (id_key k) = Some nk -> n_edges nk <> None -> si < n_inputs nk ->
  exists g' r, step g (OpConnect (NNode s) so si (NNode k) additive false) = Some (g', r) /\
    (r = Err ECircular /\ reaches g (id_key k) (id_key s) \/ r = Ok /\ ~ reaches g (id_key k) (id_key s)).
Proof. intros g s k so si a ns nk H. apply connect_circular. exact (reachable_wf g H). Qed.
Print Assumptions C10_circular_iff.
(** Never refused as circular without reason, whatever the arguments. *)
Theorem C10_circular_sound : forall g s k so si additive g', reachable g ->
  step g (OpConnect (NNode s) so si (NNode k) additive false) = Some (g', Err ECircular) ->
  reaches g (id_key k) (id_key s).
Proof. intros g s k so si a g' H. apply circular_sound. exact (reachable_wf g H). Qed.
Print Assumptions C10_circular_sound.
Example C10_case :
  let g := match step ex_g (OpPush 1 1 [] false) with Some (g, _) => g | None => ex_g end in
  (exists g', step g (OpConnect (nd 2) 0 0 (nd 4) true false) = Some (g', Ok) /\
     step g' (OpConnect (nd 4) 0 1 (nd 2) true false) = Some (g', Err ECircular)) /\
  wrong_graph g (mk_id 2 7) = false.
Proof. vm_compute. split; [|reflexivity]. eexists. split; reflexivity. Qed.

(** ** C11 *)
(** One connection to a node input.  What arrives at other inputs and graph outputs is unchanged. *)
Theorem C11_connect_to_node : forall g s so si k additive g' l lnew, reachable g ->
  summing g (id_key k) = false ->
  sums g (in_edge g (id_key k) si) l -> sums g (Some (mk_edge (src_of s) so false)) lnew ->
  step g (OpConnect s so si (NNode k) additive false) = Some (g', Ok) ->
  sums g' (in_edge g' (id_key k) si) (if additive then l ++ lnew else lnew) /\
  (forall k' c l', lookup g k' <> None -> (k', c) <> (id_key k, si) ->
     sums g (in_edge g k' c) l' -> sums g' (in_edge g' k' c) l') /\
  (forall c l', sums g (out_edge g c) l' -> sums g' (out_edge g' c) l').
Proof.
  intros g s so si k a g' l lnew Hr Hk Hl Hlnew H. pose proof (reachable_wf g Hr) as Hw.
  apply step_connect_node in H as (Hc & Hlt & Hkl); [|exact Hw].
  destruct (connect_to_node_sums _ _ _ _ _ _ _ (proj1 Hw) Hlt Hk Hc) as (A & B & C & D & E).
  split; [|split].
  - specialize (E _ Hlnew). destruct a; auto.
  - intros k' c l' Hk' Hne Hs. destruct (lookup g k') as [n|] eqn:En; [|congruence].
    rewrite B; [|apply (bi_lt g (proj1 (proj1 Hw))); eapply lookup_key; eauto|exact Hne].
    apply D; [exact Hs|]. apply older_in. exact (proj1 (proj1 Hw)).
  - intros c l' Hs. replace (out_edge g' c) with (out_edge g c) by (unfold out_edge; rewrite C; reflexivity).
    apply D; [exact Hs|]. apply older_out. exact (proj1 (proj1 Hw)).
Qed.
Print Assumptions C11_connect_to_node.
(** One connection to a graph output. *)
Theorem C11_connect_to_output : forall g s so si additive fb g' l lnew, reachable g ->
  sums g (out_edge g si) l -> sums g (Some (mk_edge (src_of s) so false)) lnew ->
  step g (OpConnect s so si NGraph additive fb) = Some (g', Ok) ->
  sums g' (out_edge g' si) (if additive then l ++ lnew else lnew) /\
  (forall k' c l', lookup g k' <> None -> sums g (in_edge g k' c) l' -> sums g' (in_edge g' k' c) l') /\
  (forall c l', c <> si -> sums g (out_edge g c) l' -> sums g' (out_edge g' c) l').
Proof.
  intros g s so si a fb g' l lnew Hr Hl Hlnew H. pose proof (reachable_wf g Hr) as Hw.
  apply step_connect_output in H as (Hc & Hlt); [|exact Hw].
  destruct (connect_to_output_sums _ _ _ _ _ _ (proj1 Hw) Hlt Hc) as (A & B & D & E).
  split; [|split].
  - specialize (E _ Hlnew). destruct a; auto.
  - intros k' c l' Hk' Hs. destruct (lookup g k') as [n|] eqn:En; [|congruence].
    rewrite A by (apply (bi_lt g (proj1 (proj1 Hw))); eapply lookup_key; eauto).
    apply D; [exact Hs|]. apply older_in. exact (proj1 (proj1 Hw)).
  - intros c l' Hne Hs. rewrite B by exact Hne. apply D; [exact Hs|]. apply older_out. exact (proj1 (proj1 Hw)).
Qed.
Print Assumptions C11_connect_to_output.
(** Any number of additive connections to one input: the old signal and all the sources, each as often
    as it was connected; nothing else changes. *)
Theorem C11_repeated : forall g k si srcs g' l, reachable g -> connects k si g srcs g' ->
  summing g (id_key k) = false ->
  (forall s so a, In (s, so) srcs -> src_of s = Some a -> lookup g a <> None /\ summing g a = false) ->
  sums g (in_edge g (id_key k) si) l ->
  sums g' (in_edge g' (id_key k) si) (l ++ map (fun x => (src_of (fst x), snd x)) srcs) /\
  (forall k' c l', lookup g k' <> None -> (k', c) <> (id_key k, si) ->
     sums g (in_edge g k' c) l' -> sums g' (in_edge g' k' c) l') /\
  (forall c l', sums g (out_edge g c) l' -> sums g' (out_edge g' c) l').
Proof.
  intros g k si srcs g' l Hr Hc Hk Hsrc Hl. pose proof (reachable_wf g Hr) as Hw.
  assert (Hlt : forall a, lookup g a <> None -> a < g_next g).
  { intros a Ha. destruct (lookup g a) as [n|] eqn:E; [|congruence].
    apply (bi_lt g (proj1 (proj1 Hw))). eapply lookup_key; eauto. }
  destruct (connects_sums _ _ _ _ _ Hc Hw Hk) as (_ & A & B & C & D).
  { intros s so a Hin Ha. destruct (Hsrc s so a Hin Ha). auto. }
  split; [auto|]. split.
  - intros k' c l' Hk' Hne Hs. rewrite B; [|auto|exact Hne]. apply D; [exact Hs|]. apply older_in. exact (proj1 (proj1 Hw)).
  - intros c l' Hs. replace (out_edge g' c) with (out_edge g c) by (unfold out_edge; rewrite C; reflexivity).
    apply D; [exact Hs|]. apply older_out. exact (proj1 (proj1 Hw)).
Qed.
Print Assumptions C11_repeated.
(** A feedback connection: the sink additionally receives the channel of the inserted feedback node, and
    the other feedback node receives the source. *)
Theorem C11_feedback : forall g s so si k additive g' l, reachable g ->
  summing g (id_key k) = false -> sums g (in_edge g (id_key k) si) l ->
  step g (OpConnect (NNode s) so si (NNode k) additive true) = Some (g', Ok) ->
  exists fb_sink fb_source, lookup g fb_sink = None /\ lookup g fb_source = None /\
    in_edge g' fb_sink 0 = Some (mk_edge (Some (id_key s)) so true) /\
    sums g' (in_edge g' (id_key k) si) (if additive then l ++ [(Some fb_source, so)] else [(Some fb_source, so)]) /\
    (forall k' c l', lookup g k' <> None -> (k', c) <> (id_key k, si) ->
       sums g (in_edge g k' c) l' -> sums g' (in_edge g' k' c) l') /\
    (forall c l', sums g (out_edge g c) l' -> sums g' (out_edge g' c) l').
Proof.
  intros g s so si k a g' l Hr Hk Hl H. pose proof (reachable_wf g Hr) as [Hi Hs0]. pose proof (proj1 Hi) as Hb.
  assert (Hlt : forall x n, lookup g x = Some n -> x < g_next g).
  { intros x n E. apply (bi_lt g Hb). eapply lookup_key; eauto. }
  cbn [step] in H. unfold connect2, connect_nodes in H.
  destruct (wrong_graph g s); [discriminate|]. destruct (wrong_graph g k); [discriminate|].
  destruct (lookup g (id_key s)) as [ns|] eqn:Es; [|discriminate]. destruct (_ <=? so); [discriminate|].
  destruct (lookup g (id_key k)) as [nk|] eqn:Ek; [|discriminate]. destruct (_ <=? si); [discriminate|].
  cbn [bind] in H. apply done_inv in H.
  destruct (connect_to_node_fb_sums g (Some (id_key s)) (id_key k) so si a g' Hi (Hlt _ _ Ek)) as (_ & A & B & C & D & E);
    [intros x Hx; injection Hx as <-; eauto|exact Hk|exact H|].
  exists (g_next g), (S (g_next g)).
  split; [apply (lookup_fresh g Hb); lia|]. split; [apply (lookup_fresh g Hb); lia|].
  split; [exact D|]. split; [cbn in E; destruct a; auto|]. split.
  - intros k' c l' Hk' Hne Hs. destruct (lookup g k') as [n|] eqn:En; [|congruence].
    rewrite A; [|eauto|exact Hne]. apply C; [exact Hs|]. apply older_in. exact Hb.
  - intros c l' Hs. replace (out_edge g' c) with (out_edge g c) by (unfold out_edge; rewrite B; reflexivity).
    apply C; [exact Hs|]. apply older_out. exact Hb.
Qed.
Print Assumptions C11_feedback.
Lemma ex_sums : sums ex_g (in_edge ex_g 2 0) [(Some 0, 0); (Some 1, 0)].
Proof.
  change (in_edge ex_g 2 0) with (Some (mk_edge (Some 3) 0 false)).
  apply (sums_add ex_g (mk_edge (Some 3) 0 false) 3 [(Some 0, 0)] [(Some 1, 0)]); [reflexivity|vm_compute; reflexivity| |].
  - change (in_edge ex_g 3 0) with (Some (mk_edge (Some 0) 0 false)).
    apply (sums_leaf ex_g (mk_edge (Some 0) 0 false)). intros k H. injection H as <-. vm_compute. reflexivity.
  - change (in_edge ex_g 3 1) with (Some (mk_edge (Some 1) 0 false)).
    apply (sums_leaf ex_g (mk_edge (Some 1) 0 false)). intros k H. injection H as <-. vm_compute. reflexivity.
Qed.
(** The example graph is two additive connections away from one where nothing is connected. *)
Example C11_case : reachable ex_g /\ summing ex_g 2 = false /\ sums ex_g (in_edge ex_g 2 0) [(Some 0, 0); (Some 1, 0)] /\
  (exists g', connects (mk_id 2 7) 0 ex_g [(nd 0, 0); (NGraph, 0); (nd 1, 0)] g') /\
  (exists g', step ex_g (OpConnect (nd 1) 0 0 (nd 2) false false) = Some (g', Ok)) /\
  (exists g', step ex_g (OpConnect (nd 1) 0 0 NGraph true false) = Some (g', Ok)) /\
  (exists g', step ex_g (OpConnect (nd 2) 0 0 (nd 2) true true) = Some (g', Ok)).
Proof.
  split; [exact ex_reachable|]. split; [vm_compute; reflexivity|]. split; [exact ex_sums|].
  split; [|vm_compute; split; [|split]; eexists; reflexivity].
  eexists. do 3 (eapply connects_cons; [vm_compute; reflexivity|]). constructor.
Qed.

(** ** C12 *)
(** Disconnecting an output of a node takes exactly that output out of every sum. *)
Theorem C12_disconnect_output : forall g id ch g',
  step g (OpDisconnectOut (NNode id) ch) = Some (g', Ok) -> summing g (id_key id) = false ->
  let keep (x : leaf) := negb ((snd x =? ch) && match fst x with Some s => s =? id_key id | None => false end) in
  (forall k c l, sums g (in_edge g k c) l -> sums g' (in_edge g' k c) (filter keep l)) /\
  (forall c l, sums g (out_edge g c) l -> sums g' (out_edge g' c) (filter keep l)).
Proof. exact disconnect_output_sums. Qed.
Print Assumptions C12_disconnect_output.
(** It succeeds for every existing node of this graph and every channel it has. *)
Theorem C12_disconnect_output_succeeds : forall g id ch n, id_graph id = g_id g ->
  lookup g (id_key id) = Some n -> ch < n_outputs n ->
  exists g', step g (OpDisconnectOut (NNode id) ch) = Some (g', Ok).
Proof.
  intros g id ch n Hg El Hc. cbn [step]. unfold disconnect_output. rewrite Hg, N.eqb_refl. cbn [negb]. rewrite El.
  apply Nat.leb_gt in Hc. rewrite Hc. eauto.
Qed.
Print Assumptions C12_disconnect_output_succeeds.
(** Disconnecting an input leaves that input without signal and changes no other signal, in graphs
    without feedback pairs and when it does not panic. *)
Theorem C12_disconnect_input_partial : forall g id ch g', reachable g -> no_auto_free g ->
  summing g (id_key id) = false ->
  step g (OpDisconnectIn ch (NNode id)) = Some (g', Ok) ->
  sums g' (in_edge g' (id_key id) ch) [] /\
  (forall k c l, live g' k -> (k, c) <> (id_key id, ch) -> sums g (in_edge g k c) l -> sums g' (in_edge g' k c) l) /\
  (forall c l, sums g (out_edge g c) l -> sums g' (out_edge g' c) l).
Proof. intros g id ch g' H. apply disconnect_input_sums. exact (reachable_wf g H). Qed.
Print Assumptions C12_disconnect_input_partial.
(** The same for a graph output. *)
Theorem C12_disconnect_graph_output_partial : forall g ch g', reachable g -> no_auto_free g ->
  step g (OpDisconnectIn ch NGraph) = Some (g', Ok) ->
  sums g' (out_edge g' ch) [] /\
  (forall k c l, live g' k -> sums g (in_edge g k c) l -> sums g' (in_edge g' k c) l) /\
  (forall c l, c <> ch -> sums g (out_edge g c) l -> sums g' (out_edge g' c) l).
Proof. intros g ch g' H. apply disconnect_graph_output_sums. exact (reachable_wf g H). Qed.
Print Assumptions C12_disconnect_graph_output_partial.
(** The clean-up of sums that lost inputs, done by the next commit, changes no signal. *)
Theorem C12_commit_keeps_sums_partial : forall id inputs outputs slots ops g applied g',
  plain_run (graph_new id inputs outputs slots) ops g -> none_raised g ->
  step g (OpCommit applied) = Some (g', Ok) ->
  (forall k c l, live g' k -> sums g (in_edge g k c) l -> sums g' (in_edge g' k c) l) /\
  (forall c l, sums g (out_edge g c) l -> sums g' (out_edge g' c) l).
Proof.
  intros id i o slots ops g applied g' Hp Hr H. pose proof (plain_run_clean _ _ _ _ _ _ Hp) as Hc.
  cbn [step] in H. apply done_inv in H.
  apply commit_sums in H; [exact (proj2 H)|exact Hc|].
  apply none_raised_nil; [|exact Hr]. exact (bi_nodup g (proj1 (proj1 (proj1 Hc)))).
Qed.
Print Assumptions C12_commit_keeps_sums_partial.
(** That commit does not panic if every sum has both inputs, or if every graph output is connected and
    every sum still has an input. *)
Theorem C12_commit_succeeds_partial : forall id inputs outputs slots ops g applied,
  plain_run (graph_new id inputs outputs slots) ops g -> none_raised g -> tidy g ->
  exists g', step g (OpCommit applied) = Some (g', Ok).
Proof.
  intros id i o slots ops g applied Hp Hr Ht. destruct (plain_run_clean _ _ _ _ _ _ Hp) as (Hw & _ & Hn).
  destruct (commit_progress (fun f => existsb (Nat.eqb f) applied) g Hw Hn Ht) as [g' E].
  - apply none_raised_nil; [|exact Hr]. exact (bi_nodup g (proj1 (proj1 Hw))).
  - exists g'. cbn [step]. rewrite E. reflexivity.
Qed.
Print Assumptions C12_commit_succeeds_partial.
(** Disconnecting node 1 in the example graph and committing splices out the sum (node 3). *)
Definition ex_dis : graph := match step ex_g (OpDisconnectOut (nd 1) 0) with Some (g, _) => g | None => ex_g end.
Lemma plain_run_app g1 a g2 b g3 : plain_run g1 a g2 -> plain_run g2 b g3 -> plain_run g1 (a ++ b) g3.
Proof. induction 1; intros; [assumption|]. cbn. econstructor; eauto. Qed.
Lemma forall_lookup (P : key -> node -> bool) g :
  forallb (fun kn => P (fst kn) (snd kn)) (g_nodes g) = true -> forall k n, lookup g k = Some n -> P k n = true.
Proof.
  intros H k n. unfold lookup. induction (g_nodes g) as [|[k0 n0] l IH]; cbn in *; [discriminate|].
  apply andb_true_iff in H as [H0 H1]. destruct (Nat.eqb_spec k0 k) as [->|]; [|auto].
  intros E; injection E as <-. exact H0.
Qed.
Example C12_case : reachable ex_g /\ no_auto_free ex_g /\ summing ex_g 2 = false /\
  step ex_g (OpDisconnectOut (nd 1) 0) = Some (ex_dis, Ok) /\
  (exists g', step ex_g (OpDisconnectIn 0 (nd 2)) = Some (g', Ok)) /\
  (exists g', step ex_g (OpDisconnectIn 0 NGraph) = Some (g', Ok)) /\
  plain_run ex_start (ex_ops ++ [OpDisconnectOut (nd 1) 0]) ex_dis /\ none_raised ex_dis /\ tidy ex_dis /\
  (exists g', step ex_dis (OpCommit []) = Some (g', Ok) /\ in_edge g' 2 0 = Some (mk_edge (Some 0) 0 false)).
Proof.
  split; [exact ex_reachable|]. split.
  { intros k n H. apply (forall_lookup (fun _ n => negb (n_auto_free n)) ex_g) in H; [|vm_compute; reflexivity].
    destruct (n_auto_free n); [discriminate|reflexivity]. }
  split; [vm_compute; reflexivity|]. split; [vm_compute; reflexivity|]. split; [vm_compute; eauto|]. split; [vm_compute; eauto|].
  split; [|split; [|split]].
  - eapply plain_run_app; [exact ex_plain|]. eapply plain_cons; [exact I|vm_compute; reflexivity|]. constructor.
  - intros k n H. apply (forall_lookup (fun _ n => match n_remove_me n with Some true => false | _ => true end) ex_dis) in H;
      [|vm_compute; reflexivity]. intros E. rewrite E in H. discriminate.
  - right. split.
    + intros [|[|c]] Hc; [vm_compute; discriminate|vm_compute; discriminate|vm_compute in Hc; lia].
    + intros k _ Hk. assert (k = 3). { unfold summing in Hk. destruct (lookup ex_dis k) as [n|] eqn:E; [|discriminate].
        apply (forall_lookup (fun k n => if n_auto_math n then k =? 3 else true) ex_dis) in E; [|vm_compute; reflexivity].
        rewrite Hk in E. apply Nat.eqb_eq. exact E. }
      subst k. left. vm_compute. discriminate.
  - vm_compute. eauto.
Qed.
(** The clean-up panics when a sum has lost one input while some graph output is unconnected: two
    sources into output 0 of a stereo graph, disconnect the first, commit. *)
Theorem C12_commit_panics_refuted : exists g, reachable g /\
  exists g', step g (OpDisconnectOut (nd 0) 0) = Some (g', Ok) /\ step g' (OpCommit []) = None.
Proof.
  set (ops := [OpPush 0 1 [] false; OpPush 0 1 [] false;
               OpConnect (nd 0) 0 0 NGraph true false; OpConnect (nd 1) 0 0 NGraph true false]).
  destruct (run (graph_new 7 0 2 []) ops) as [g|] eqn:E; [|vm_compute in E; discriminate].
  vm_compute in E. injection E as <-.
  eexists. split; [exists 7%N, 0, 2, [], ops; vm_compute; reflexivity|].
  vm_compute. eauto.
Qed.
Print Assumptions C12_commit_panics_refuted.
(** Disconnecting graph input [c] also disconnects graph output [c], whatever feeds it. *)
Theorem C12_graph_input_refuted : exists g, reachable g /\ out_edge g 0 = Some (mk_edge (Some 0) 0 false) /\
  exists g', step g (OpDisconnectOut NGraph 0) = Some (g', Ok) /\ out_edge g' 0 = None.
Proof.
  set (ops := [OpPush 0 1 [] false; OpConnect (nd 0) 0 0 NGraph true false]).
  destruct (run (graph_new 7 1 1 []) ops) as [g|] eqn:E; [|vm_compute in E; discriminate].
  vm_compute in E. injection E as <-.
  eexists. split; [exists 7%N, 1, 1, [], ops; vm_compute; reflexivity|].
  vm_compute. eauto.
Qed.
Print Assumptions C12_graph_input_refuted.
(** On a graph with more inputs than outputs it panics. *)
Theorem C12_graph_input_panics_refuted : exists g, reachable g /\ 1 < g_inputs g /\
  step g (OpDisconnectOut NGraph 1) = None.
Proof.
  exists (graph_new 7 2 1 []). split; [exists 7%N, 2, 1, [], []; reflexivity|]. vm_compute. auto.
Qed.
Print Assumptions C12_graph_input_panics_refuted.

(** ** C13 *)
(** The test rejects exactly the handles whose graph id is the bitwise complement of this graph's. *)
Theorem C13_rejected_iff_partial : forall g id, (id_graph id < U64)%N -> (g_id g < U64)%N ->
  (wrong_graph g id = true <-> (id_graph id + g_id g = U64 - 1)%N).
Proof.
  intros g id H1 H2. unfold wrong_graph, not_u64. rewrite N.eqb_eq. assert (U64 = 18446744073709551616%N) by reflexivity. lia.
Qed.
Print Assumptions C13_rejected_iff_partial.
(** Disconnects compare the ids properly. *)
Theorem C13_disconnect_rejects_partial : forall g id ch, id_graph id <> g_id g ->
  step g (OpDisconnectOut (NNode id) ch) = Some (g, Err EWrongSink) /\
  step g (OpDisconnectIn ch (NNode id)) = Some (g, Err EWrongSink).
Proof.
  intros g id ch H. apply N.eqb_neq in H. cbn [step]. unfold disconnect_output, disconnect_input. rewrite H.
  split; reflexivity.
Qed.
Print Assumptions C13_disconnect_rejects_partial.
Example C13_case : (id_graph (mk_id 0%nat 5) < U64)%N /\ (g_id ex_g < U64)%N /\ id_graph (mk_id 0 5) <> g_id ex_g.
Proof. vm_compute. repeat split; discriminate. Qed.
(** Handles of graph 5 are accepted by graph 7: connect, parameter link, free. *)
Theorem C13_other_graph_refuted : exists g, reachable g /\ g_id g = 7%N /\
  (exists g', step g (OpConnect (NNode (mk_id 0 5)) 0 1 (NNode (mk_id 2 5)) true false) = Some (g', Ok) /\
     in_edge g' 2 1 <> in_edge g 2 1) /\
  (exists g', step g (OpConnectParam (mk_id 0 5) 0 (PIndex 0) (mk_id 2 5) true) = Some (g', Ok) /\ g' <> g) /\
  (exists g', step g (OpFree (mk_id 0 5)) = Some (g', Ok) /\ in_edge g' 3 0 <> in_edge g 3 0).
Proof.
  exists ex_g. split; [exact ex_reachable|]. vm_compute.
  split; [reflexivity|]. split; [|split]; eexists; split; try reflexivity; discriminate.
Qed.
Print Assumptions C13_other_graph_refuted.

(** ** C14 *)
(** After a free no audio input and no graph output refers to the node, and it is not live. *)
Theorem C14_free_unreferenced_partial : forall g id g', reachable g -> live g (id_key id) ->
  step g (OpFree id) = Some (g', Ok) ->
  (forall k' c e, in_edge g' k' c = Some e -> e_src e <> Some (id_key id)) /\
  (forall c e, out_edge g' c = Some e -> e_src e <> Some (id_key id)) /\ ~ live g' (id_key id).
Proof. intros g id g' H Hl. apply edit_free_unref; [exact Hl|exact (reachable_wf g H)]. Qed.
Print Assumptions C14_free_unreferenced_partial.
(** In graphs without inserted sums and feedback pairs the commit after a free succeeds. *)
Theorem C14_free_then_commit_partial : forall g id g' r applied, reachable g -> no_auto_free g -> none_raised g ->
  (forall k, summing g k = false) -> step g (OpFree id) = Some (g', r) ->
  exists g2, step g' (OpCommit applied) = Some (g2, Ok).
Proof. intros g id g' r applied H. apply free_then_commit. exact (reachable_wf g H). Qed.
Print Assumptions C14_free_then_commit_partial.
(** No edit removes or disables an immortal node (other than making it mortal first). *)
Theorem C14_immortal_survives : forall g o g' r k, reachable g -> safe g k ->
  (forall id m, o = OpMortality id m -> id_key id <> k) ->
  step g o = Some (g', r) -> safe g' k.
Proof. intros g o g' r k H. apply step_safe. exact (reachable_wf g H). Qed.
Print Assumptions C14_immortal_survives.
(** Freeing an immortal node is an error (and changes nothing, C09). *)
Theorem C14_immortal_error : forall g id n, wrong_graph g id = false -> lookup g (id_key id) = Some n ->
  n_mortal n = false -> step g (OpFree id) = Some (g, Err EImmortal).
Proof.
  intros g id n Hw El Hm. cbn [step]. unfold edit_free, free_node. rewrite Hw. cbn [free_node_fuel].
  rewrite El, Hm. reflexivity.
Qed.
Print Assumptions C14_immortal_error.
Definition ex_plain_ops : list op :=
  [OpPush 0 1 [] false; OpPush 1 1 [] false; OpConnect (nd 0) 0 0 (nd 1) true false;
   OpConnect (nd 1) 0 0 NGraph true false; OpMortality (mk_id 1 7) false].
Definition ex_line : graph := match run (graph_new 7 0 2 []) ex_plain_ops with Some g => g | None => ex_start end.
Example C14_case : reachable ex_line /\ live ex_line 0 /\ (forall k, summing ex_line k = false) /\ safe ex_line 1 /\
  (exists g', step ex_line (OpFree (mk_id 0 7)) = Some (g', Ok)) /\
  step ex_line (OpFree (mk_id 1 7)) = Some (ex_line, Err EImmortal).
Proof.
  split; [exists 7%N, 0, 2, [], ex_plain_ops; vm_compute; reflexivity|].
  split; [live_tac|]. split.
  { intros k. unfold summing. destruct (lookup ex_line k) as [n|] eqn:E; [|reflexivity].
    apply (forall_lookup (fun _ n => negb (n_auto_math n)) ex_line) in E; [|vm_compute; reflexivity].
    destruct (n_auto_math n); [discriminate|reflexivity]. }
  split; [eexists; split; [vm_compute; reflexivity|split; [reflexivity|discriminate]]|].
  split; [vm_compute; eauto|vm_compute; reflexivity].
Qed.
(** A parameter link from the freed node stays. *)
Theorem C14_parameter_link_refuted : exists g, reachable g /\ live g 0 /\
  exists g', step g (OpFree (mk_id 0 7)) = Some (g', Ok) /\ par_feeds g' 0 1.
Proof.
  set (ops := [OpPush 0 1 [] false; OpPush 1 1 ["freq"%string] false;
               OpConnectParam (mk_id 0 7) 0 (PDesc "freq"%string) (mk_id 1 7) true]).
  destruct (run (graph_new 7 0 1 []) ops) as [g|] eqn:E; [|vm_compute in E; discriminate].
  vm_compute in E. injection E as <-.
  eexists. split; [exists 7%N, 0, 1, [], ops; vm_compute; reflexivity|]. split; [live_tac|].
  eexists. split; [vm_compute; reflexivity|].
  eexists. eexists. eexists. split; [vm_compute; reflexivity|]. split; [reflexivity|]. split; [left; reflexivity|reflexivity].
Qed.
Print Assumptions C14_parameter_link_refuted.
(** The next commit may panic: two sources into output 0 of a stereo graph, free one, commit. *)
Theorem C14_commit_panics_refuted : exists g, reachable g /\ live g 0 /\
  exists g', step g (OpFree (mk_id 0 7)) = Some (g', Ok) /\ step g' (OpCommit []) = None.
Proof.
  set (ops := [OpPush 0 1 [] false; OpPush 0 1 [] false;
               OpConnect (nd 0) 0 0 NGraph true false; OpConnect (nd 1) 0 0 NGraph true false]).
  destruct (run (graph_new 7 0 2 []) ops) as [g|] eqn:E; [|vm_compute in E; discriminate].
  vm_compute in E. injection E as <-.
  eexists. split; [exists 7%N, 0, 2, [], ops; vm_compute; reflexivity|]. split; [live_tac|].
  vm_compute. eauto.
Qed.
Print Assumptions C14_commit_panics_refuted.

(** ** C15 *)
(** Parameter links that close loops are accepted: a node's own parameter, and a node whose audio it
    reads. *)
Theorem C15_self_link_refuted : exists g, reachable g /\ par_feeds g 0 0.
Proof.
  set (ops := [OpPush 0 1 ["freq"%string] false;
               OpConnectParam (mk_id 0 7) 0 (PDesc "freq"%string) (mk_id 0 7) true]).
  destruct (run (graph_new 7 0 1 []) ops) as [g|] eqn:E; [|vm_compute in E; discriminate].
  vm_compute in E. injection E as <-.
  eexists. split; [exists 7%N, 0, 1, [], ops; vm_compute; reflexivity|].
  eexists. eexists. eexists. split; [vm_compute; reflexivity|]. split; [reflexivity|]. split; [left; reflexivity|reflexivity].
Qed.
Print Assumptions C15_self_link_refuted.
Theorem C15_loop_refuted : exists g, reachable g /\ feeds g 0 1 /\ par_feeds g 1 0 /\
  clos_trans key (depends g) 0 0.
Proof.
  set (ops := [OpPush 0 1 ["freq"%string] false; OpPush 1 1 [] false; OpConnect (nd 0) 0 0 (nd 1) true false;
               OpConnectParam (mk_id 1 7) 0 (PDesc "freq"%string) (mk_id 0 7) true]).
  destruct (run (graph_new 7 0 1 []) ops) as [g|] eqn:E; [|vm_compute in E; discriminate].
  assert (A : feeds g 0 1 /\ par_feeds g 1 0).
  { vm_compute in E. injection E as <-. split.
    - exists 0. eexists. split; vm_compute; reflexivity.
    - eexists. eexists. eexists. split; [vm_compute; reflexivity|]. split; [reflexivity|]. split; [left; reflexivity|reflexivity]. }
  exists g. split; [exists 7%N, 0, 1, [], ops; exact E|]. split; [apply A|]. split; [apply A|].
  eapply t_trans; apply t_step; [left|right]; apply A.
Qed.
Print Assumptions C15_loop_refuted.
(** What linking cannot do: whatever parameters are linked, the audio connections stay acyclic. *)
Theorem C15_audio_stays_acyclic_partial : forall g s so p k additive g' r, reachable g ->
  step g (OpConnectParam s so p k additive) = Some (g', r) -> ~ has_cycle g'.
Proof.
  intros g s so p k a g' r H E. apply wf_no_cycle. apply (step_wf _ _ _ _ (reachable_wf g H) E).
Qed.
Print Assumptions C15_audio_stays_acyclic_partial.
Example C15_case : exists g', step ex_g (OpConnectParam (mk_id 0 7) 0 (PIndex 1) (mk_id 2 7) true) = Some (g', Ok).
Proof. vm_compute. eauto. Qed.
