(** What every edit leaves in place: keys, change flags, and the list of nodes waiting to be dropped. *)
From Verif Require Import Base GraphModel GraphSpec GraphBase GraphPath GraphInv GraphShape.
Local Open Scope nat_scope.

Record grow (g g' : graph) : Prop := {
  gr_flag : g_flag g' = g_flag g;
  gr_next : g_next g <= g_next g';
  gr_keys : incl (keys g) (keys g');
  gr_new : forall k, In k (keys g') -> In k (keys g) \/ g_next g <= k;
  gr_full : forall k, g_next g <= k < g_next g' -> In k (keys g');
  gr_pend : exists l, g_pending g' = g_pending g ++ l /\ forall p, In p l -> snd p = g_flag g;
  (* keys and pending nodes change only together with [recalculation_required] *)
  gr_calm : g_recalc g' = false -> g_recalc g = false /\ g_next g' = g_next g /\ g_pending g' = g_pending g }.

Lemma grow_refl g : grow g g.
Proof. constructor; auto; [apply incl_refl|lia|]. exists []. rewrite app_nil_r. split; [reflexivity|intros p []]. Qed.
Lemma grow_trans a b c : grow a b -> grow b c -> grow a c.
Proof.
  intros [A1 A2 A3 A4 AF (l & A5 & A6) AC] [B1 B2 B3 B4 BF (m & B5 & B6) BC]. constructor; [congruence|lia|eapply incl_tran; eauto| | | |].
  - intros k Hk. apply B4 in Hk as [Hk|Hk]; [apply A4; exact Hk|right; lia].
  - intros k Hk. destruct (Nat.lt_ge_cases k (g_next b)); [apply B3, AF; lia|apply BF; lia].
  - exists (l ++ m). rewrite B5, A5, app_assoc. split; [reflexivity|]. intros p Hp. apply in_app_or in Hp as [Hp|Hp]; [auto|].
    rewrite <- A1. auto.
  - intros Hc. apply BC in Hc as (Hc & E1 & E2). apply AC in Hc as (Hc & E3 & E4). repeat split; congruence.
Qed.
(** Same keys, flags and pending nodes. *)
Lemma grow_frame g g' : g_flag g' = g_flag g -> g_next g' = g_next g -> keys g' = keys g -> g_pending g' = g_pending g ->
  (g_recalc g' = false -> g_recalc g = false) -> grow g g'.
Proof.
  intros H1 H2 H3 H4 H5. constructor; [exact H1|lia|rewrite H3; apply incl_refl|intros k; rewrite H3; auto|lia| |auto].
  exists []. rewrite app_nil_r. split; [exact H4|intros p []].
Qed.
Lemma grow_update g k f : grow g (update g k f).
Proof. apply grow_frame; try reflexivity; [apply keys_update|auto]. Qed.
Lemma grow_push g i o d r : grow g (fst (push_node g i o d r)).
Proof.
  constructor.
  - unfold push_node. destruct (g_slots g); reflexivity.
  - rewrite push_next. lia.
  - intros k Hk. apply push_keys. right. exact Hk.
  - intros k Hk. apply push_keys in Hk as [->|Hk]; auto.
  - intros k Hk. rewrite push_next in Hk. apply push_keys. left. lia.
  - exists []. rewrite app_nil_r, push_pending. split; [reflexivity|intros p []].
  - unfold push_node. destruct (g_slots g); discriminate.
Qed.
Lemma grow_set_edge g k ch e g' : set_edge g k ch e = Some g' -> grow g g'.
Proof. intros H. apply set_edge_some in H as (es & es' & _ & _ & ->). apply grow_update. Qed.
Lemma grow_freed g k : grow g (freed_state g k).
Proof.
  constructor; try reflexivity.
  - rewrite keys_freed. apply incl_refl.
  - intros k'. rewrite keys_freed. auto.
  - cbn. lia.
  - exists [(k, g_flag g)]. split; [reflexivity|]. intros p [<-|[]]. reflexivity.
  - discriminate.
Qed.
Lemma grow_frees g g' : frees g g' -> grow g g'.
Proof. induction 1; [apply grow_refl|]. eapply grow_trans; [apply grow_freed|exact IHfrees]. Qed.
Lemma grow_evaluate g k g' : evaluate g k = Some g' -> grow g g'.
Proof.
  intros H. apply evaluate_spec in H. destruct H as [H|n c e _ _ _ _ _ H]; apply grow_frees in H; [exact H|].
  eapply grow_trans; [|exact H]. apply grow_frame; try reflexivity; [apply redirected_keys|auto].
Qed.
Lemma grow_evaluate_src g o g' :
  match o with
  | Some e => match e_src e with Some s => evaluate g s | None => Some g end
  | None => Some g
  end = Some g' -> grow g g'.
Proof.
  intros H. destruct o as [e|]; [|injection H as <-; apply grow_refl].
  destruct (e_src e); [eapply grow_evaluate; eauto|injection H as <-; apply grow_refl].
Qed.
Lemma grow_additive g : grow g (fst (new_additive_node g)).
Proof.
  unfold new_additive_node. pose proof (grow_push g 2 1 [] None) as H. destruct (push_node g 2 1 [] None) as [g1 k]. cbn [fst] in *.
  eapply grow_trans; [exact H|apply grow_update].
Qed.
Lemma grow_feedback g : grow g (fst (new_feedback_nodes g)).
Proof.
  unfold new_feedback_nodes. pose proof (grow_push g 1 0 [] None) as H. destruct (push_node g 1 0 [] None) as [g1 k]. cbn [fst] in *.
  pose proof (grow_push g1 1 0 [] None) as H1. destruct (push_node g1 1 0 [] None) as [g2 k2]. cbn [fst] in *.
  eapply grow_trans; [exact H|]. eapply grow_trans; [exact H1|]. eapply grow_trans; apply grow_update.
Qed.
Lemma grow_recalc g : grow g (set_recalc g true).
Proof. apply grow_frame; try reflexivity. discriminate. Qed.
Lemma grow_outs g o : grow g (set_outs g o).
Proof. apply grow_frame; try reflexivity. auto. Qed.
Lemma grow_core g src sink so si fb additive g' :
  (if negb additive then set_edge g sink si (Some (mk_edge src so false))
   else existing <- get_edge g sink si ;;
     match existing with
     | Some e =>
         let '(g4, add) := new_additive_node g in
         g5 <- set_edge g4 add 0 (Some e) ;;
         g6 <- set_edge g5 add 1 (Some (mk_edge src so false)) ;;
         set_edge g6 sink si (Some (mk_edge (Some add) 0 false))
     | None => set_edge g sink si (Some (mk_edge src so fb))
     end) = Some g' -> grow g g'.
Proof.
  intros H. destruct additive; cbn [negb] in H; [|eapply grow_set_edge; eauto].
  destruct (get_edge g sink si) as [[e|]|]; cbn [bind] in H; [| |discriminate]; [|eapply grow_set_edge; eauto].
  pose proof (grow_additive g) as H4. destruct (new_additive_node g) as [g4 add]. cbn [fst] in H4.
  destruct (set_edge g4 add 0 (Some e)) as [g5|] eqn:E5; cbn [bind] in H; [|discriminate].
  destruct (set_edge g5 add 1 _) as [g6|] eqn:E6; cbn [bind] in H; [|discriminate].
  apply grow_set_edge in E5, E6, H. eapply grow_trans; [exact H4|]. eapply grow_trans; [exact E5|]. eapply grow_trans; eauto.
Qed.
Lemma grow_connect_to_node g source sink so si additive feedback g' :
  connect_to_node g source sink so si additive feedback = Some g' -> grow g g'.
Proof.
  intros H. unfold connect_to_node in H. pose proof (grow_recalc g) as H0. set (g0 := set_recalc g true) in *.
  eapply grow_trans; [exact H0|]. destruct feedback.
  - pose proof (grow_feedback g0) as Hf. destruct (new_feedback_nodes g0) as [g1 [fbs fbk]]. cbn [fst] in Hf.
    destruct (set_edge g1 _ 0 _) as [g2|] eqn:E2; cbn [bind] in H; [|discriminate].
    apply grow_set_edge in E2. apply grow_core in H. eapply grow_trans; [exact Hf|]. eapply grow_trans; eauto.
  - cbn [bind] in H. eapply grow_core; eauto.
Qed.
Lemma grow_connect_to_output g source so si additive g' :
  connect_to_output g source so si additive = Some g' -> grow g g'.
Proof.
  intros H. unfold connect_to_output in H. pose proof (grow_recalc g) as H0. set (g0 := set_recalc g true) in *.
  eapply grow_trans; [exact H0|]. destruct additive; cbn [negb] in H.
  2: { destruct (set_nth _ _ _) as [o|]; cbn [bind] in H; [|discriminate]. injection H as <-. apply grow_outs. }
  destruct (nth_error (g_outs g0) si) as [ex|]; cbn [bind] in H; [|discriminate]. destruct ex as [e|].
  2: { destruct (set_nth _ _ _) as [o|]; cbn [bind] in H; [|discriminate]. injection H as <-. apply grow_outs. }
  pose proof (grow_additive g0) as H4. destruct (new_additive_node g0) as [g4 add]. cbn [fst] in H4.
  destruct (set_edge g4 add 0 (Some e)) as [g5|] eqn:E5; cbn [bind] in H; [|discriminate].
  destruct (set_edge g5 add 1 _) as [g6|] eqn:E6; cbn [bind] in H; [|discriminate].
  destruct (set_nth (g_outs g6) si _) as [o|]; cbn [bind] in H; [|discriminate]. injection H as <-.
  apply grow_set_edge in E5, E6. eapply grow_trans; [exact H4|]. eapply grow_trans; [exact E5|].
  eapply grow_trans; [exact E6|apply grow_outs].
Qed.
Lemma grow_parameter g source so p sink additive g' r : connect_to_parameter g source so p sink additive = Some (g', r) -> grow g g'.
Proof.
  intros H. unfold connect_to_parameter in H.
  assert (Hf : forall e, fail g e = Some (g', r) -> grow g g') by (intros e He; injection He as <- _; apply grow_refl).
  destruct (wrong_graph g source); [eauto|]. destruct (wrong_graph g sink); [eauto|].
  destruct (lookup g (id_key sink)) as [nk|]; cbn [bind] in H; [|discriminate].
  destruct (match p with PIndex i => _ | PDesc d => _ end) as [idx|]; [|eauto].
  destruct (lookup g (id_key source)) as [ns|]; [|eauto]. destruct (n_outputs ns <=? so); [eauto|].
  destruct (pedges_of g (id_key sink)) as [edges|]; cbn [bind] in H; [|discriminate].
  destruct additive; [|injection H as <- _; apply grow_update].
  destruct (find_param idx edges) as [pos|]; [|injection H as <- _; apply grow_update].
  destruct (nth_error edges pos) as [ex|]; cbn [bind] in H; [|discriminate].
  destruct (swap_remove edges pos) as [edges'|]; cbn [bind] in H; [|discriminate].
  set (g1 := update g (id_key sink) (fun n => n_set_pedges n (Some edges'))) in *.
  pose proof (grow_additive g1) as H4. destruct (new_additive_node g1) as [g4 add]. cbn [fst] in H4.
  destruct (set_edge g4 add 0 _) as [g5|] eqn:E5; cbn [bind] in H; [|discriminate].
  destruct (set_edge g5 add 1 _) as [g6|] eqn:E6; cbn [bind] in H; [|discriminate].
  injection H as <- _. apply grow_set_edge in E5, E6. eapply grow_trans; [apply grow_update|]. eapply grow_trans; [exact H4|].
  eapply grow_trans; [exact E5|]. eapply grow_trans; [exact E6|apply grow_update].
Qed.
Lemma grow_clear g s ch :
  grow g (set_recalc (set_outs (set_nodes g (map_edges (clear_if (from_output s ch)) (g_nodes g)))
           (map (clear_if (from_output s ch)) (g_outs g))) true).
Proof. apply grow_frame; try reflexivity; [unfold keys; cbn; apply keys_map_edges|discriminate]. Qed.
Lemma grow_disconnect_output g source ch g' r : disconnect_output g source ch = Some (g', r) -> grow g g'.
Proof.
  intros H. unfold disconnect_output in H. destruct source as [|id].
  - destruct (g_inputs g <=? ch); [injection H as <- _; apply grow_refl|].
    destruct (nth_error (g_outs g) ch) as [o|]; cbn [bind] in H; [|discriminate].
    destruct (set_nth (g_outs g) ch None) as [outs|]; cbn [bind] in H; [|discriminate].
    match type of H with (g2 <- ?X ;; _) = _ => destruct X as [g2|] eqn:E2; cbn [bind] in H; [|discriminate] end.
    injection H as <- _. apply grow_evaluate_src in E2. eapply grow_trans; [apply grow_outs|]. eapply grow_trans; [exact E2|apply grow_clear].
  - destruct (negb _); [injection H as <- _; apply grow_refl|].
    destruct (lookup g (id_key id)); [|injection H as <- _; apply grow_refl].
    destruct (_ <=? ch); injection H as <- _; [apply grow_refl|apply grow_clear].
Qed.
Lemma grow_disconnect_input g ch sink g' r : disconnect_input g ch sink = Some (g', r) -> grow g g'.
Proof.
  intros H. unfold disconnect_input in H. destruct sink as [|id].
  - destruct (g_outputs g <=? ch); [injection H as <- _; apply grow_refl|].
    destruct (nth_error (g_outs g) ch) as [o|]; cbn [bind] in H; [|discriminate].
    destruct (set_nth (g_outs g) ch None) as [outs|]; cbn [bind] in H; [|discriminate].
    match type of H with (g2 <- ?X ;; _) = _ => destruct X as [g2|] eqn:E2; cbn [bind] in H; [|discriminate] end.
    injection H as <- _. apply grow_evaluate_src in E2. eapply grow_trans; [apply grow_outs|exact E2].
  - destruct (negb _); [injection H as <- _; apply grow_refl|].
    destruct (lookup g (id_key id)) as [n|]; [|injection H as <- _; apply grow_refl].
    destruct (n_edges n) as [es|]; cbn [bind] in H; [|discriminate].
    destruct (_ <=? ch); [injection H as <- _; apply grow_refl|].
    destruct (nth_error es ch) as [o|]; cbn [bind] in H; [|discriminate].
    destruct (set_edge g (id_key id) ch None) as [g1|] eqn:E1; cbn [bind] in H; [|discriminate].
    match type of H with (g2 <- ?X ;; _) = _ => destruct X as [g2|] eqn:E2; cbn [bind] in H; [|discriminate] end.
    injection H as <- _. apply grow_set_edge in E1. eapply grow_trans; [exact E1|]. eapply grow_trans; [|apply grow_recalc].
    destruct o as [e|]; [|injection E2 as <-; apply grow_refl].
    destruct (evaluate g1 (id_key id)) as [g3|] eqn:E3; cbn [bind] in E2; [|discriminate]. apply grow_evaluate in E3.
    eapply grow_trans; [exact E3|]. destruct (e_src e); [eapply grow_evaluate; eauto|injection E2 as <-; apply grow_refl].
Qed.
Lemma grow_fold {A} (f : graph -> A -> option graph) : (forall g x g', f g x = Some g' -> grow g g') ->
  forall l g g', fold_opt f g l = Some g' -> grow g g'.
Proof.
  intros Hf. induction l as [|x l IH]; intros g g' H; cbn [fold_opt] in H; [injection H as <-; apply grow_refl|].
  destruct (f g x) as [g1|] eqn:E; cbn [bind] in H; [|discriminate]. eapply grow_trans; [eapply Hf; eauto|eapply IH; eauto].
Qed.
Lemma grow_connect2 g s so si k a f g' r : connect2 g s so si k a f = Some (g', r) -> grow g g'.
Proof.
  intros H. assert (Hf : forall e, fail g e = Some (g', r) -> grow g g') by (intros e He; injection He as <- _; apply grow_refl).
  unfold connect2 in H. destruct s as [|s], k as [|k].
  - unfold connect_input_to_output in H. destruct (_ <=? so); [eauto|]. destruct (_ <=? si); [eauto|].
    apply done_inv in H. eapply grow_connect_to_output; eauto.
  - unfold connect_input_to_node in H. destruct (wrong_graph g k); [eauto|]. destruct (_ <=? so); [eauto|].
    destruct (lookup g (id_key k)) as [nk|]; [|eauto]. destruct (_ <=? si); [eauto|].
    apply done_inv in H. eapply grow_connect_to_node; eauto.
  - unfold connect_node_to_output in H. destruct (wrong_graph g s); [eauto|]. destruct (_ <=? si); [eauto|].
    destruct (lookup g (id_key s)) as [ns|]; [|eauto]. destruct (_ <=? so); [eauto|].
    apply done_inv in H. eapply grow_connect_to_output; eauto.
  - unfold connect_nodes in H. destruct (wrong_graph g s); [eauto|]. destruct (wrong_graph g k); [eauto|].
    destruct (lookup g (id_key s)) as [ns|]; [|eauto]. destruct (_ <=? so); [eauto|].
    destruct (lookup g (id_key k)) as [nk|]; [|eauto]. destruct (_ <=? si); [eauto|].
    match type of H with (circular <- ?X ;; _) = _ => destruct X as [b|] eqn:Ec; cbn [bind] in H; [|discriminate] end.
    destruct b; [eauto|]. apply done_inv in H. eapply grow_connect_to_node; eauto.
Qed.
(** Every edit other than a commit. *)
Lemma grow_step g o g' r : (forall fl, o <> OpCommit fl) -> step g o = Some (g', r) -> grow g g'.
Proof.
  intros Hne H. destruct o; cbn [step] in H.
  - injection H as <- _. apply grow_push.
  - eapply grow_connect2; eauto.
  - eapply grow_parameter; eauto.
  - eapply grow_disconnect_output; eauto.
  - eapply grow_disconnect_input; eauto.
  - unfold edit_free in H. destruct (wrong_graph g id); [injection H as <- _; apply grow_refl|].
    apply grow_frees. eapply free_fuel_frees; eauto.
  - unfold set_mortality in H. destruct (lookup g (id_key id)); injection H as <- _; [apply grow_update|apply grow_refl].
  - injection H as <- _. apply grow_update.
  - exfalso. exact (Hne _ eq_refl).
Qed.
(** A clean-up: edits, then the nodes whose flag is set disappear. *)
Lemma free_old_grow applied g g' : free_old applied g = Some g' -> exists g2, grow g g2 /\ g' = swept applied g2.
Proof.
  intros H. apply free_old_unfold in H as (g1 & g2 & E1 & E2 & ->). exists g2. split; [|reflexivity].
  eapply grow_trans.
  - eapply (grow_fold free_ok); [|exact E1]. intros. apply grow_frees. eapply free_ok_frees; eauto.
  - eapply (grow_fold evaluate); [|exact E2]. intros. eapply grow_evaluate; eauto.
Qed.
