(** Stored audio connections refer to existing nodes and channels after every plain history, and the
    clean-up done by a commit keeps every sum. *)
From Verif Require Import Base GraphModel GraphSpec GraphBase GraphPath GraphInv GraphShape GraphSums.
Local Open Scope nat_scope.

(** ** edge_ok is monotone *)
Definition keeps (g g' : graph) : Prop :=
  g_inputs g' = g_inputs g /\
  forall s n, lookup g s = Some n -> n_edges n <> None ->
    exists n', lookup g' s = Some n' /\ n_edges n' <> None /\ n_outputs n' = n_outputs n.
Lemma edge_ok_keeps g g' e : keeps g g' -> edge_ok g e -> edge_ok g' e.
Proof.
  intros [Hi Hk]. unfold edge_ok. destruct (e_src e) as [s|]; [|rewrite Hi; auto].
  intros (n & El & Hn & Hc). destruct (Hk s n El Hn) as (n' & El' & Hn' & Ho).
  exists n'. rewrite Ho. auto.
Qed.
Lemma keeps_refl g : keeps g g.
Proof. split; [reflexivity|]. intros s n El Hn. eauto. Qed.
Lemma keeps_trans g1 g2 g3 : keeps g1 g2 -> keeps g2 g3 -> keeps g1 g3.
Proof.
  intros [A B] [C D]. split; [congruence|]. intros s n El Hn.
  destruct (B s n El Hn) as (n' & El' & Hn' & Ho). destruct (D s n' El' Hn') as (n2 & E2 & H2 & O2).
  exists n2. rewrite O2, Ho. auto.
Qed.
Lemma keeps_update g k f : (forall n, n_outputs (f n) = n_outputs n) ->
  (forall n, n_edges n <> None -> n_edges (f n) <> None) -> keeps g (update g k f).
Proof.
  intros Ho He. split; [reflexivity|]. intros s n El Hn. rewrite lookup_update, El.
  destruct (k =? s); cbn; eauto.
Qed.
Lemma push_inputs g i o d r : g_inputs (fst (push_node g i o d r)) = g_inputs g.
Proof. unfold push_node. destruct (g_slots g); reflexivity. Qed.
Lemma keeps_push g i o d r : base_inv g -> keeps g (fst (push_node g i o d r)).
Proof.
  intros Hb. split; [apply push_inputs|]. intros s n El Hn. rewrite push_lookup by exact Hb.
  destruct (Nat.eqb_spec (g_next g) s) as [<-|]; [|eauto].
  rewrite (lookup_fresh g Hb) in El by lia. discriminate.
Qed.
Lemma keeps_set_edge g k ch e g' : set_edge g k ch e = Some g' -> keeps g g'.
Proof.
  intros H. apply set_edge_some in H as (es & es' & _ & _ & ->). apply keeps_update; cbn; auto.
  intros n _. discriminate.
Qed.
Lemma keeps_map f g g' : g_nodes g' = map_edges f (g_nodes g) -> g_inputs g' = g_inputs g -> keeps g g'.
Proof.
  intros Hn Hi. split; [exact Hi|]. intros s n El He. unfold lookup. rewrite Hn, lookup_map_edges, El. cbn.
  eexists; split; [reflexivity|]. cbn. split; [|reflexivity]. destruct (n_edges n); cbn; congruence.
Qed.
Lemma keeps_frame g g' : g_nodes g' = g_nodes g -> g_inputs g' = g_inputs g -> keeps g g'.
Proof. intros Hn Hi. split; [exact Hi|]. intros s n El He. unfold lookup. rewrite Hn. eauto. Qed.
Lemma keeps_additive g : inv g -> keeps g (fst (new_additive_node g)).
Proof.
  intros Hi. unfold new_additive_node. pose proof (keeps_push g 2 1 [] None (proj1 Hi)) as H.
  destruct (push_node g 2 1 [] None) as [g1 k]. cbn [fst] in *.
  eapply keeps_trans; [exact H|]. apply keeps_update; auto.
Qed.

(** ** primitives keep refs_ok *)
Lemma refs_ext g g' : keeps g g' -> (forall k c, in_edge g' k c = in_edge g k c) ->
  (forall c, out_edge g' c = out_edge g c) -> refs_ok g -> refs_ok g'.
Proof.
  intros Hk Hin Ho [A B]. split.
  - intros k c e He. rewrite Hin in He. eapply edge_ok_keeps; eauto.
  - intros c e He. rewrite Ho in He. eapply edge_ok_keeps; eauto.
Qed.
Lemma refs_set_edge g k ch e g' : refs_ok g -> edge_ok g e -> set_edge g k ch (Some e) = Some g' -> refs_ok g'.
Proof.
  intros [A B] He H. pose proof (set_edge_in_edge _ _ _ _ _ H) as Hin.
  destruct (set_edge_frame _ _ _ _ _ H) as (_ & _ & Ho & _). apply keeps_set_edge in H as Hk. split.
  - intros k' c x Hx. rewrite Hin in Hx. eapply edge_ok_keeps; [exact Hk|].
    destruct ((k' =? k) && (c =? ch)); [injection Hx as <-; exact He|eauto].
  - intros c x Hx. unfold out_edge in Hx. rewrite Ho in Hx. eapply edge_ok_keeps; [exact Hk|]. eapply B; eauto.
Qed.
Lemma refs_clear P g g' : refs_ok g -> g_nodes g' = map_edges (clear_if P) (g_nodes g) ->
  g_outs g' = map (clear_if P) (g_outs g) -> g_inputs g' = g_inputs g -> refs_ok g'.
Proof.
  intros [A B] Hn Ho Hi. pose proof (keeps_map _ _ _ Hn Hi) as Hk. split.
  - intros k c e He. rewrite (in_edge_map_edges (clear_if P) g g' k c eq_refl Hn) in He.
    apply clear_if_some in He. eapply edge_ok_keeps; eauto.
  - intros c e He. rewrite (out_edge_map (clear_if P) g g' c eq_refl Ho) in He.
    apply clear_if_some in He. eapply edge_ok_keeps; eauto.
Qed.
Lemma refs_push g i o d r : base_inv g -> refs_ok g -> refs_ok (fst (push_node g i o d r)).
Proof.
  intros Hb. apply refs_ext; [apply keeps_push; exact Hb|intros; apply push_in_edge; exact Hb|].
  intros c. unfold out_edge. rewrite push_outs. reflexivity.
Qed.
Lemma in_edge_freed g k k' c : in_edge (freed_state g k) k' c =
  if k' =? k then None else clear_if (from_key k) (in_edge g k' c).
Proof. apply free_step_in_edge. reflexivity. Qed.
Lemma out_edge_freed g k c : out_edge (freed_state g k) c = clear_if (from_key k) (out_edge g c).
Proof. apply out_edge_map; reflexivity. Qed.
Lemma clear_from_ok g k o e : clear_if (from_key k) o = Some e -> edge_ok g e -> edge_ok (freed_state g k) e.
Proof.
  intros Hc He. destruct o as [x|]; cbn in Hc; [|discriminate].
  destruct (from_key k x) eqn:E; [discriminate|]. injection Hc as ->.
  unfold edge_ok, from_key in *. destruct (e_src e) as [s|]; [|exact He].
  destruct He as (n & El & Hn & Hch). rewrite lookup_freed, El. cbn. rewrite (Nat.eqb_sym k), E.
  eexists; split; [reflexivity|]. cbn. split; [|exact Hch]. destruct (n_edges n); cbn; congruence.
Qed.
Lemma refs_freed g k : refs_ok g -> refs_ok (freed_state g k).
Proof.
  intros [A B]. split.
  - intros k' c e He. rewrite in_edge_freed in He. destruct (k' =? k); [discriminate|].
    eapply clear_from_ok; [exact He|]. apply clear_if_some in He. eauto.
  - intros c e He. rewrite out_edge_freed in He. eapply clear_from_ok; [exact He|]. apply clear_if_some in He. eauto.
Qed.
Lemma refs_frees g g' : frees g g' -> refs_ok g -> refs_ok g'.
Proof. induction 1; auto. intros Hr. apply IHfrees. apply refs_freed. exact Hr. Qed.
Lemma in_edge_redirected g k e k' c : in_edge (redirected g k e) k' c = redirect k e (in_edge g k' c).
Proof. apply in_edge_map_edges; reflexivity. Qed.
Lemma out_edge_redirected g k e c : out_edge (redirected g k e) c = redirect k e (out_edge g c).
Proof. apply out_edge_map; reflexivity. Qed.
Lemma keeps_redirected g k e : keeps g (redirected g k e).
Proof. eapply keeps_map; reflexivity. Qed.
Lemma redirect_some k e o x : redirect k e o = Some x -> x = e \/ o = Some x.
Proof. destruct o as [y|]; cbn; [|discriminate]. destruct (from_key k y); intros H; injection H as <-; auto. Qed.
Lemma refs_redirected g k e : edge_ok g e -> refs_ok g -> refs_ok (redirected g k e).
Proof.
  intros He [A B]. pose proof (keeps_redirected g k e) as Hk. split.
  - intros k' c x Hx. rewrite in_edge_redirected in Hx. apply redirect_some in Hx as [->|Hx];
      eapply edge_ok_keeps; eauto.
  - intros c x Hx. rewrite out_edge_redirected in Hx. apply redirect_some in Hx as [->|Hx];
      eapply edge_ok_keeps; eauto.
Qed.
Lemma refs_evaluate g k g' : evaluate g k = Some g' -> refs_ok g -> refs_ok g'.
Proof.
  intros H Hr. apply evaluate_spec in H. destruct H as [H|n c e El Em He Hn Hc H].
  - eapply refs_frees; eauto.
  - eapply refs_frees; [exact H|]. apply refs_redirected; [|exact Hr]. eapply (proj1 Hr); eauto.
Qed.
Lemma refs_evaluate_src g o g' : refs_ok g ->
  match o with
  | Some e => match e_src e with Some s => evaluate g s | None => Some g end
  | None => Some g
  end = Some g' -> refs_ok g'.
Proof.
  intros Hi H. destruct o as [e|]; [|injection H as <-; exact Hi].
  destruct (e_src e); [eapply refs_evaluate; eauto|injection H as <-; exact Hi].
Qed.
Lemma refs_swept applied g : shape g -> refs_ok g -> refs_ok (swept applied g).
Proof.
  intros Hs [A B].
  assert (Hok : forall e, edge_ok g e -> edge_ok (swept applied g) e).
  { intros e. unfold edge_ok. destruct (e_src e) as [s|]; [|auto].
    intros (n & El & Hn & Hc). exists n. split; [|auto]. rewrite lookup_swept.
    destruct (existsb (Nat.eqb s) (gone applied g)) eqn:E; [|exact El].
    exfalso. apply Hn. apply (sh_pend g Hs s n El). apply is_pending_In.
    apply existsb_eqb_In in E. unfold gone in E. apply in_map_iff in E as (x & <- & Hx).
    apply filter_In in Hx as [Hx _]. apply in_map. exact Hx. }
  split.
  - intros k c e He. apply Hok. unfold in_edge, edges_of in He. rewrite lookup_swept in He.
    destruct (existsb _ _); [discriminate|]. apply (A k c e). exact He.
  - intros c e He. apply Hok. eapply B; exact He.
Qed.
Lemma fold_opt_P (P : graph -> Prop) {A} (f : graph -> A -> option graph) :
  (forall g x g', P g -> f g x = Some g' -> P g') ->
  forall l g g', P g -> fold_opt f g l = Some g' -> P g'.
Proof.
  intros Hf. induction l as [|x l IH]; intros g g' Hi H; cbn [fold_opt] in H.
  - injection H as <-. exact Hi.
  - destruct (f g x) as [g1|] eqn:E; cbn [bind] in H; [|discriminate]. eapply IH; [|exact H]. eapply Hf; eauto.
Qed.
Lemma refs_set_out g si e outs : refs_ok g -> edge_ok g e ->
  set_nth (g_outs g) si (Some e) = Some outs -> refs_ok (set_outs g outs).
Proof.
  intros [A B] He H. split.
  - intros k c x Hx. apply (A k c x Hx).
  - intros c x Hx. rewrite (out_edge_set g _ _ _ _ H) in Hx. destruct (c =? si).
    + injection Hx as <-. exact He.
    + apply (B c x Hx).
Qed.
Lemma refs_outs_none g ch outs : refs_ok g -> set_nth (g_outs g) ch None = Some outs -> refs_ok (set_outs g outs).
Proof.
  intros [A B] H. split.
  - intros k c x Hx. apply (A k c x Hx).
  - intros c x Hx. rewrite (out_edge_set g _ _ _ _ H) in Hx. destruct (c =? ch); [discriminate|]. apply (B c x Hx).
Qed.
Lemma refs_additive g : inv g -> refs_ok g -> refs_ok (fst (new_additive_node g)).
Proof.
  intros Hi Hr. destruct (new_additive_spec g Hi) as (_ & _ & _ & Ho & Hin & _).
  eapply refs_ext; [apply keeps_additive; exact Hi|exact Hin| |exact Hr].
  intros c. unfold out_edge. rewrite Ho. reflexivity.
Qed.
Lemma add_node_ok g g5 g6 e e' : inv g ->
  set_edge (fst (new_additive_node g)) (g_next g) 0 (Some e) = Some g5 ->
  set_edge g5 (g_next g) 1 (Some e') = Some g6 ->
  edge_ok g e -> edge_ok g e' -> refs_ok g ->
  refs_ok g6 /\ edge_ok g6 (mk_edge (Some (g_next g)) 0 false) /\ keeps g g6.
Proof.
  intros Hi E5 E6 He He' Hr.
  pose proof (keeps_additive g Hi) as K4. pose proof (keeps_set_edge _ _ _ _ _ E5) as K5.
  pose proof (keeps_set_edge _ _ _ _ _ E6) as K6.
  destruct (new_additive_spec g Hi) as (_ & _ & _ & _ & _ & _ & Hl).
  split; [|split].
  - eapply refs_set_edge; [| |exact E6].
    + eapply refs_set_edge; [| |exact E5]; [apply refs_additive; auto|].
      eapply edge_ok_keeps; eauto.
    + eapply edge_ok_keeps; [exact K5|]. eapply edge_ok_keeps; eauto.
  - eapply edge_ok_keeps; [exact K6|]. eapply edge_ok_keeps; [exact K5|]. unfold edge_ok; cbn [e_src e_chan].
    rewrite Hl, Nat.eqb_refl. eexists; split; [reflexivity|]. cbn. split; [discriminate|lia].
  - eapply keeps_trans; [exact K4|]. eapply keeps_trans; eauto.
Qed.
Lemma connect_core_refs g src sink so si fb additive g' :
  inv g -> refs_ok g -> (forall f, edge_ok g (mk_edge src so f)) ->
  (if negb additive then set_edge g sink si (Some (mk_edge src so false))
   else existing <- get_edge g sink si ;;
     match existing with
     | Some e =>
         let '(g4, add) := new_additive_node g in
         g5 <- set_edge g4 add 0 (Some e) ;;
         g6 <- set_edge g5 add 1 (Some (mk_edge src so false)) ;;
         set_edge g6 sink si (Some (mk_edge (Some add) 0 false))
     | None => set_edge g sink si (Some (mk_edge src so fb))
     end) = Some g' -> refs_ok g'.
Proof.
  intros Hi Hr Hok H. destruct additive; cbn [negb] in H; [|eapply refs_set_edge; eauto].
  destruct (get_edge g sink si) as [ex|] eqn:Eg; cbn [bind] in H; [|discriminate].
  destruct ex as [e|]; [|eapply refs_set_edge; eauto].
  assert (Hex : in_edge g sink si = Some e).
  { unfold get_edge in Eg. unfold in_edge. destruct (edges_of g sink); cbn in Eg; [|discriminate].
    rewrite Eg. reflexivity. }
  pose proof (new_additive_spec g Hi) as (Hw & _).
  destruct (new_additive_node g) as [g4 add] eqn:Ea. cbn [fst snd] in Hw. subst add.
  destruct (set_edge g4 (g_next g) 0 (Some e)) as [g5|] eqn:E5; cbn [bind] in H; [|discriminate].
  destruct (set_edge g5 (g_next g) 1 _) as [g6|] eqn:E6; cbn [bind] in H; [|discriminate].
  assert (Hg4 : g4 = fst (new_additive_node g)) by (rewrite Ea; reflexivity).
  rewrite Hg4 in E5.
  destruct (add_node_ok g g5 g6 _ _ Hi E5 E6) as (R6 & O6 & _); [eapply (proj1 Hr); eauto|apply Hok|exact Hr|].
  eapply refs_set_edge; eauto.
Qed.
Lemma connect_to_node_refs g source sink so si additive g' :
  inv g -> refs_ok g -> (forall f, edge_ok g (mk_edge source so f)) ->
  connect_to_node g source sink so si additive false = Some g' -> refs_ok g'.
Proof.
  intros Hi Hr Hok H. unfold connect_to_node in H. cbn [bind] in H.
  eapply connect_core_refs; [apply inv_recalc; exact Hi| |exact Hok|exact H].
  eapply refs_ext; [apply keeps_frame; reflexivity|reflexivity|reflexivity|exact Hr].
Qed.
Lemma connect_to_output_refs g source so si additive g' :
  inv g -> refs_ok g -> edge_ok g (mk_edge source so false) ->
  connect_to_output g source so si additive = Some g' -> refs_ok g'.
Proof.
  intros Hi Hr Hok H. unfold connect_to_output in H.
  pose proof (inv_recalc g true Hi) as Hi0.
  assert (Hr0 : refs_ok (set_recalc g true)).
  { eapply refs_ext; [apply keeps_frame; reflexivity|reflexivity|reflexivity|exact Hr]. }
  assert (Hok0 : edge_ok (set_recalc g true) (mk_edge source so false)).
  { eapply edge_ok_keeps; [apply keeps_frame; reflexivity|exact Hok]. }
  set (g0 := set_recalc g true) in *.
  destruct additive; cbn [negb] in H.
  2: { destruct (set_nth _ _ _) as [outs|] eqn:E; cbn [bind] in H; [|discriminate]. injection H as <-.
       eapply refs_set_out; eauto. }
  destruct (nth_error (g_outs g0) si) as [ex|] eqn:Eg; cbn [bind] in H; [|discriminate].
  destruct ex as [e|].
  2: { destruct (set_nth _ _ _) as [outs|] eqn:E; cbn [bind] in H; [|discriminate]. injection H as <-.
       eapply refs_set_out; eauto. }
  pose proof (new_additive_spec g0 Hi0) as (Hw & _).
  destruct (new_additive_node g0) as [g4 add] eqn:Ea. cbn [fst snd] in Hw. subst add.
  destruct (set_edge g4 (g_next g0) 0 (Some e)) as [g5|] eqn:E5; cbn [bind] in H; [|discriminate].
  destruct (set_edge g5 (g_next g0) 1 _) as [g6|] eqn:E6; cbn [bind] in H; [|discriminate].
  assert (Hg4 : g4 = fst (new_additive_node g0)) by (rewrite Ea; reflexivity).
  rewrite Hg4 in E5.
  destruct (add_node_ok g0 g5 g6 e (mk_edge source so false) Hi0 E5 E6) as (R6 & O6 & _); [|exact Hok0|exact Hr0|].
  { apply (proj2 Hr0 si e). unfold out_edge. rewrite Eg. reflexivity. }
  destruct (set_nth (g_outs g6) si _) as [outs|] eqn:E; cbn [bind] in H; [|discriminate]. injection H as <-.
  eapply refs_set_out; eauto.
Qed.
Lemma refs_set_pedges g k ps : refs_ok g -> refs_ok (update g k (fun n => n_set_pedges n ps)).
Proof.
  intros Hr. eapply refs_ext; [apply keeps_update; auto| |reflexivity|exact Hr].
  intros k' c. apply in_edge_update. reflexivity.
Qed.
Lemma connect_to_parameter_refs g source so p sink additive g' r : inv g -> refs_ok g ->
  plain_edit g (OpConnectParam source so p sink additive) ->
  connect_to_parameter g source so p sink additive = Some (g', r) -> refs_ok g'.
Proof.
  intros Hi Hr (Hlive & Hpar) H. unfold connect_to_parameter in H.
  assert (Hf : forall e, fail g e = Some (g', r) -> refs_ok g').
  { intros e He. injection He as <- _. exact Hr. }
  destruct (wrong_graph g source); [eauto|]. destruct (wrong_graph g sink); [eauto|].
  destruct (lookup g (id_key sink)) as [nk|] eqn:Ek; cbn [bind] in H; [|discriminate].
  destruct (match p with PIndex i => _ | PDesc d => _ end) as [idx|]; [|eauto].
  destruct (lookup g (id_key source)) as [ns|] eqn:Es; [|eauto].
  destruct (n_outputs ns <=? so) eqn:Eso; [eauto|]. apply Nat.leb_gt in Eso.
  destruct (pedges_of g (id_key sink)) as [edges|] eqn:Ep; cbn [bind] in H; [|discriminate].
  destruct additive; [|injection H as <- _; apply refs_set_pedges; exact Hr].
  destruct (find_param idx edges) as [pos|]; [|injection H as <- _; apply refs_set_pedges; exact Hr].
  destruct (nth_error edges pos) as [ex|] eqn:Ex; cbn [bind] in H; [|discriminate].
  destruct (swap_remove edges pos) as [edges'|] eqn:Esw; cbn [bind] in H; [|discriminate].
  set (g1 := update g (id_key sink) (fun n => n_set_pedges n (Some edges'))) in *.
  assert (K1 : keeps g g1) by (apply keeps_update; auto).
  assert (Hi1 : inv g1).
  { apply inv_set_pedges; [exact Hi|]. intros q Hq.
    apply (bi_par g (proj1 Hi) (id_key sink)). exists edges. split; [exact Ep|].
    eapply swap_remove_incl; eauto. }
  pose proof (new_additive_spec g1 Hi1) as (Hw & _).
  destruct (new_additive_node g1) as [g4 add] eqn:Ea. cbn [fst snd] in Hw. subst add.
  destruct (set_edge g4 (g_next g1) 0 _) as [g5|] eqn:E5; cbn [bind] in H; [|discriminate].
  destruct (set_edge g5 (g_next g1) 1 _) as [g6|] eqn:E6; cbn [bind] in H; [|discriminate].
  assert (Hg4 : g4 = fst (new_additive_node g1)) by (rewrite Ea; reflexivity).
  rewrite Hg4 in E5.
  destruct (add_node_ok g1 g5 g6 _ _ Hi1 E5 E6) as (R6 & _).
  - eapply edge_ok_keeps; [exact K1|]. eapply (Hpar nk edges ex); [reflexivity| |eapply nth_error_In; eauto].
    unfold pedges_of in Ep. rewrite Ek in Ep. exact Ep.
  - eapply edge_ok_keeps; [exact K1|]. unfold edge_ok; cbn [e_src e_chan].
    destruct Hlive as (n & es & En & He). assert (n = ns) by congruence. subst n.
    exists ns. split; [exact Es|]. split; [congruence|exact Eso].
  - apply refs_set_pedges. exact Hr.
  - injection H as <- _. apply refs_set_pedges. exact R6.
Qed.

Lemma step_refs g o g' r : wf g -> refs_ok g -> plain_edit g o -> step g o = Some (g', r) -> refs_ok g'.
Proof.
  intros [Hi Hs] Hr Hp H.
  assert (Hlive : forall id n so, live g (id_key id) -> lookup g (id_key id) = Some n ->
            (n_outputs n <=? so) = false -> forall f, edge_ok g (mk_edge (Some (id_key id)) so f)).
  { intros id n so (n' & es & En & He) El Hso f. assert (n' = n) by congruence. subst n'.
    apply Nat.leb_gt in Hso. exists n. split; [exact El|]. split; [congruence|exact Hso]. }
  destruct o; cbn [step] in H.
  - injection H as <- _. apply refs_push; [exact (proj1 Hi)|exact Hr].
  - destruct Hp as [-> Hsl]. unfold connect2 in H. destruct source as [|s], sink as [|k].
    + unfold connect_input_to_output in H.
      destruct (_ <=? so) eqn:Eso in H; [injection H as <- _; exact Hr|].
      destruct (_ <=? si); [injection H as <- _; exact Hr|].
      apply done_inv in H. eapply connect_to_output_refs; [exact Hi|exact Hr| |exact H].
      apply Nat.leb_gt in Eso. exact Eso.
    + unfold connect_input_to_node in H.
      destruct (wrong_graph g k); [injection H as <- _; exact Hr|].
      destruct (_ <=? so) eqn:Eso in H; [injection H as <- _; exact Hr|].
      destruct (lookup g (id_key k)) as [nk|] eqn:Ek; [|injection H as <- _; exact Hr].
      destruct (_ <=? si); [injection H as <- _; exact Hr|].
      apply done_inv in H. eapply connect_to_node_refs; [exact Hi|exact Hr| |exact H].
      intros f. apply Nat.leb_gt in Eso. exact Eso.
    + unfold connect_node_to_output in H.
      destruct (wrong_graph g s); [injection H as <- _; exact Hr|].
      destruct (_ <=? si); [injection H as <- _; exact Hr|].
      destruct (lookup g (id_key s)) as [ns|] eqn:Es; [|injection H as <- _; exact Hr].
      destruct (_ <=? so) eqn:Eso in H; [injection H as <- _; exact Hr|].
      apply done_inv in H. eapply connect_to_output_refs; [exact Hi|exact Hr| |exact H]. eapply Hlive; eauto.
    + unfold connect_nodes in H.
      destruct (wrong_graph g s); [injection H as <- _; exact Hr|].
      destruct (wrong_graph g k); [injection H as <- _; exact Hr|].
      destruct (lookup g (id_key s)) as [ns|] eqn:Es; [|injection H as <- _; exact Hr].
      destruct (_ <=? so) eqn:Eso in H; [injection H as <- _; exact Hr|].
      destruct (lookup g (id_key k)) as [nk|] eqn:Ek; [|injection H as <- _; exact Hr].
      destruct (_ <=? si); [injection H as <- _; exact Hr|].
      match type of H with (circular <- ?X ;; _) = _ => destruct X as [b|] eqn:Ec; cbn [bind] in H; [|discriminate] end.
      destruct b; [injection H as <- _; exact Hr|].
      apply done_inv in H. eapply connect_to_node_refs; [exact Hi|exact Hr| |exact H]. eapply Hlive; eauto.
  - eapply connect_to_parameter_refs; eauto.
  - unfold disconnect_output in H.
    assert (Hfin : forall g0 s, refs_ok g0 ->
      refs_ok (set_recalc (set_outs (set_nodes g0 (map_edges (clear_if (from_output s ch)) (g_nodes g0)))
             (map (clear_if (from_output s ch)) (g_outs g0))) true)).
    { intros g0 s H0. eapply (refs_clear (from_output s ch) g0); [exact H0|reflexivity|reflexivity|reflexivity]. }
    destruct source as [|id].
    + destruct (g_inputs g <=? ch); [injection H as <- _; exact Hr|].
      destruct (nth_error (g_outs g) ch) as [o|]; cbn [bind] in H; [|discriminate].
      destruct (set_nth (g_outs g) ch None) as [outs|] eqn:Eo; cbn [bind] in H; [|discriminate].
      match type of H with (g2 <- ?X ;; _) = _ => destruct X as [g2|] eqn:E2; cbn [bind] in H; [|discriminate] end.
      injection H as <- _. apply Hfin. eapply refs_evaluate_src; [|exact E2]. eapply refs_outs_none; eauto.
    + destruct (negb _); [injection H as <- _; exact Hr|].
      destruct (lookup g (id_key id)); [|injection H as <- _; exact Hr].
      destruct (_ <=? ch); injection H as <- _; [exact Hr|]. apply Hfin. exact Hr.
  - unfold disconnect_input in H. destruct sink as [|id].
    + destruct (g_outputs g <=? ch); [injection H as <- _; exact Hr|].
      destruct (nth_error (g_outs g) ch) as [o|]; cbn [bind] in H; [|discriminate].
      destruct (set_nth (g_outs g) ch None) as [outs|] eqn:Eo; cbn [bind] in H; [|discriminate].
      match type of H with (g2 <- ?X ;; _) = _ => destruct X as [g2|] eqn:E2; cbn [bind] in H; [|discriminate] end.
      injection H as <- _. eapply refs_evaluate_src; [|exact E2]. eapply refs_outs_none; eauto.
    + destruct (negb _); [injection H as <- _; exact Hr|].
      destruct (lookup g (id_key id)) as [n|]; [|injection H as <- _; exact Hr].
      destruct (n_edges n) as [es|]; cbn [bind] in H; [|discriminate].
      destruct (_ <=? ch); [injection H as <- _; exact Hr|].
      destruct (nth_error es ch) as [o|]; cbn [bind] in H; [|discriminate].
      destruct (set_edge g (id_key id) ch None) as [g1|] eqn:E1; cbn [bind] in H; [|discriminate].
      assert (Hi1 : refs_ok g1).
      { pose proof (set_edge_in_edge _ _ _ _ _ E1) as Hin.
        destruct (set_edge_frame _ _ _ _ _ E1) as (_ & _ & Ho & _).
        pose proof (keeps_set_edge _ _ _ _ _ E1) as Hk. split.
        - intros k c x Hx. rewrite Hin in Hx. destruct (_ && _); [discriminate|].
          eapply edge_ok_keeps; [exact Hk|]. eapply (proj1 Hr); eauto.
        - intros c x Hx. unfold out_edge in Hx. rewrite Ho in Hx.
          eapply edge_ok_keeps; [exact Hk|]. eapply (proj2 Hr); eauto. }
      match type of H with (g2 <- ?X ;; _) = _ => destruct X as [g2|] eqn:E2; cbn [bind] in H; [|discriminate] end.
      injection H as <- _.
      assert (Hi2 : refs_ok g2).
      { destruct o as [e|]; [|injection E2 as <-; exact Hi1].
        destruct (evaluate g1 (id_key id)) as [g3|] eqn:E3; cbn [bind] in E2; [|discriminate].
        pose proof (refs_evaluate _ _ _ E3 Hi1) as Hi3.
        destruct (e_src e); [eapply refs_evaluate; eauto|injection E2 as <-; exact Hi3]. }
      eapply refs_ext; [apply keeps_frame; reflexivity|reflexivity|reflexivity|exact Hi2].
  - unfold edit_free in H. destruct (wrong_graph g id); [injection H as <- _; exact Hr|].
    eapply refs_frees; [|exact Hr]. eapply free_fuel_frees; eauto.
  - unfold set_mortality in H. destruct (lookup g (id_key id)); injection H as <- _; [|exact Hr].
    eapply refs_ext; [apply keeps_update; auto| |reflexivity|exact Hr].
    intros k c. apply in_edge_update. reflexivity.
  - injection H as <- _. eapply refs_ext; [apply keeps_update; auto| |reflexivity|exact Hr].
    intros k' c. apply in_edge_update. reflexivity.
  - apply done_inv in H. unfold commit_edit in H.
    destruct (free_old _ g) as [g1|] eqn:E; cbn [bind] in H; [|discriminate].
    assert (Hr1 : refs_ok g1).
    { apply free_old_unfold in E as (ga & gb & E1 & E2 & ->). apply refs_swept.
      - eapply (fold_opt_shape evaluate); [| |exact E2].
        + intros. eapply eval_shape'; eauto.
        + eapply (fold_opt_shape free_ok); [| |exact E1].
          * intros. eapply frees_shape; [|eassumption]. eapply free_ok_frees; eauto.
          * exact Hs.
      - eapply (fold_opt_P refs_ok evaluate); [| |exact E2].
        + intros. eapply refs_evaluate; eauto.
        + eapply (fold_opt_P refs_ok free_ok); [| |exact E1].
          * intros. eapply refs_frees; [|eassumption]. eapply free_ok_frees; eauto.
          * exact Hr. }
    destruct (g_recalc g1); injection H as <-; [|exact Hr1].
    eapply refs_ext; [apply keeps_frame; reflexivity|reflexivity|reflexivity|exact Hr1].
Qed.
Lemma plain_run_refs g ops g' : plain_run g ops g' -> wf g -> refs_ok g -> refs_ok g' /\ wf g'.
Proof.
  induction 1 as [|g o ops g1 r g2 Hp Hs _ IH]; intros Hw Hr; [auto|].
  apply IH; [eapply step_wf; eauto|eapply step_refs; eauto].
Qed.
Lemma graph_new_refs id i o slots : refs_ok (graph_new id i o slots).
Proof.
  split.
  - intros k c e H. unfold in_edge, edges_of, lookup in H. cbn in H. discriminate.
  - intros c e H. unfold out_edge in H. cbn in H. destruct (nth_error (repeat None o) c) eqn:E; [|discriminate].
    apply nth_error_In in E. apply repeat_spec in E. congruence.
Qed.
