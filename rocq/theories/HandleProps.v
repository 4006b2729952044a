(** Results about handles: arithmetic (C34), stacking and chaining (C35), and parameter addressing (C36) *)
From Coq Require Import ZArith Reals.
From Flocq Require Import BinarySingleNaN.
From Verif Require Import Base GraphModel GraphSpec GraphBase GraphPath GraphInv GraphShape GraphSums GraphStep HandleModel HandleSpec HandleProofs HandleWire HandleFeedback FloatBase HandleConst.
Local Open Scope nat_scope.
Local Notation length := List.length.

(** ** C34 *)
(** A connection carries at most one value, so "carries [v]" below says what is heard. *)
Theorem C34_one_value : forall F zero den env (st : state F) o v, arrives F zero den env st o v -> forall w, arrives F zero den env st o w -> v = w.
Proof.
  induction 1 as [| e He | e k He Hk | e k c He Hk | e k o x y He Hk _ IHx _ IHy]; intros w H; inversion H; subst; try congruence.
  match goal with
  | A : e_src e = Some ?k', B : kind_of F st ?k' = KMath ?o' |- _ => assert (k' = k) by congruence; subst k'; assert (o' = o) by congruence; subst o'
  end. f_equal; [apply IHx | apply IHy]; assumption.
Qed.
Print Assumptions C34_one_value.

(** What an edit must not disturb: the connections and the signals that were there *)
Definition undisturbed {F} zero den env (st st' : state F) : Prop :=
  (forall k c, k < g_next (s_g st) -> in_edge (s_g st') k c = in_edge (s_g st) k c) /\ g_outs (s_g st') = g_outs (s_g st) /\
  (forall c v, source_ok (s_g st) c -> arrives F zero den env st (as_edge c) v -> source_ok (s_g st') c /\ arrives F zero den env st' (as_edge c) v).
Lemma grows_undisturbed {F} zero den env (st st' : state F) : wf (s_g st) -> grows st st' -> undisturbed zero den env st st'.
Proof.
  intros W G. pose proof (proj1 (proj1 W)) as B. split; [intros k c Hk; apply grows_in_edge; assumption |]. split; [apply (gr_outs _ _ G) |].
  intros c v Hs Hv. split; [eapply grows_source; eauto | eapply arrives_grows; eauto; apply source_older; assumption].
Qed.

(** Every expression over handles and constants, over any sample type and meaning of the operators, builds and carries on each
    channel the value of the expression. Missing: constants on the left of an operator that does not commute (see [C34_left_refuted]). *)
Theorem C34_expr_partial : forall F zero den env e (st : state F) vs, reachable (s_g st) -> left_commutes F den e -> means F zero den env st e vs ->
  exists st' h, build F st e = Some (st', h) /\ undisturbed zero den env st st' /\
    Forall2 (fun c v => source_ok (s_g st') c /\ arrives F zero den env st' (as_edge c) v) (h_out h) vs.
Proof.
  intros F zero den env e st vs R L M. pose proof (reachable_wf _ R) as W. destruct (build_ok F zero den env e st vs W L M) as (st' & h & E & G & _ & C).
  exists st', h. split; [exact E |]. split; [apply grows_undisturbed; assumption | exact C].
Qed.
Print Assumptions C34_expr_partial.
(** In full for two handles and for a constant on the right. *)
Theorem C34_handles : forall F zero den env o a b (st : state F) xs ys, reachable (s_g st) ->
  means F zero den env st (EHandle F a) xs -> means F zero den env st (EHandle F b) ys -> length xs = length ys ->
  exists st' h, math_bin F st o a b = Some (st', h) /\ undisturbed zero den env st st' /\ h_in h = [] /\ length (h_out h) = length xs /\
    forall i x y, nth_error xs i = Some x -> nth_error ys i = Some y -> exists c, nth_error (h_out h) i = Some c /\ arrives F zero den env st' (as_edge c) (den o x y).
Proof.
  intros F zero den env o a b st xs ys R Ma Mb L. pose proof (reachable_wf _ R) as W.
  destruct (math_bin_ok F zero den env st o a b xs ys W Ma Mb L) as (st' & h & E & G & _ & Hi & C).
  exists st', h. split; [exact E |]. split; [apply grows_undisturbed; assumption |]. split; [exact Hi |]. split.
  - apply F2_len in C. rewrite C, map_length, combine_length, L. apply Nat.min_id.
  - clear - C. revert xs ys C. generalize (h_out h). intros l xs ys C i. revert l xs ys C. induction i as [| i IH]; intros l xs ys C x y Hx Hy; destruct xs as [| x0 xs]; try discriminate; destruct ys as [| y0 ys]; try discriminate;
      cbn [combine map] in C; inversion C as [| c v l' vs [Hs Hv] C']; subst.
    + injection Hx as ->. injection Hy as ->. exists c. split; [reflexivity | exact Hv].
    + exact (IH _ _ _ C' x y Hx Hy).
Qed.
Print Assumptions C34_handles.
Theorem C34_constant_right : forall F zero den env o a k (st : state F) xs, reachable (s_g st) -> means F zero den env st (EHandle F a) xs ->
  exists st' h, math_const_right F st o a k = Some (st', h) /\ undisturbed zero den env st st' /\ h_in h = [] /\
    Forall2 (fun c v => source_ok (s_g st') c /\ arrives F zero den env st' (as_edge c) v) (h_out h) (map (fun x => den o x k) xs).
Proof.
  intros F zero den env o a k st xs R Ma. pose proof (reachable_wf _ R) as W. destruct (math_const_ok F zero den env st o a k xs W Ma) as (st' & h & E & G & _ & Hi & C).
  exists st', h. split; [exact E |]. split; [apply grows_undisturbed; assumption |]. split; assumption.
Qed.
Print Assumptions C34_constant_right.
(** A constant on the left is always the second operand: this is what [k op a] computes for every operator. *)
Theorem C34_constant_left_swapped : forall F zero den env o a k (st : state F) xs, reachable (s_g st) -> means F zero den env st (EHandle F a) xs ->
  exists st' h, math_const_left F st o k a = Some (st', h) /\
    Forall2 (fun c v => source_ok (s_g st') c /\ arrives F zero den env st' (as_edge c) v) (h_out h) (map (fun x => den o x k) xs).
Proof.
  intros F zero den env o a k st xs R Ma. destruct (C34_constant_right F zero den env o a k st xs R Ma) as (st' & h & E & _ & _ & C). exists st', h. split; assumption.
Qed.
Print Assumptions C34_constant_left_swapped.
(** Handles with different channel counts (possible with dynamic handles) panic. *)
Theorem C34_counts_differ : forall F (st : state F) o a b, length (h_out a) <> length (h_out b) -> math_bin F st o a b = None.
Proof. intros F st o a b H. unfold math_bin. apply Nat.eqb_neq in H. rewrite H. reflexivity. Qed.
Print Assumptions C34_counts_differ.

(** A graph with one input, two generators with two outputs (keys 0 and 1) and a two-input node (key 2) *)
Definition ops0 := [OpPush 0 2 [] false; OpPush 0 2 [] false; OpPush 2 1 [] false].
Definition ex_g : graph := match run (graph_new 7 1 2 []) ops0 with Some g => g | None => graph_new 7 1 2 [] end.
Definition ex_st : state Z := mk_state ex_g [].
Lemma ex_reachable : reachable ex_g.
Proof. exists 7%N, 1, 2, [], ops0. vm_compute. reflexivity. Qed.
Definition nd (k : nat) : node_or_graph := NNode (mk_id k 7).
Definition zden (o : mop) (x y : Z) : Z := match o with OAdd => x + y | OSub => x - y | OMul => x * y | ODiv => x / y | OPow => x ^ y end%Z.
(** The outputs of nodes 0 and 1 are at 5, 6 and 10, 20 *)
Definition zenv (l : option key * nat) : Z := match l with (Some 0, 0) => 5%Z | (Some 0, _) => 6%Z | (Some 1, 0) => 10%Z | (Some 1, _) => 20%Z | _ => 100%Z end.
Definition hA : handle := mk_handle [] [(nd 0, 0); (nd 0, 1)].
Definition hB : handle := mk_handle [] [(nd 1, 0); (nd 1, 1)].
Lemma ex_src : forall k c, k < 2 -> c < 2 -> source_ok (s_g ex_st) (nd k, c) /\ arrives Z 0%Z zden zenv ex_st (as_edge (nd k, c)) (zenv (Some k, c)).
Proof.
  intros k c Hk Hc. split.
  - split; [reflexivity |]. destruct k as [| [| k]]; [| | lia]; eexists; (split; [vm_compute; reflexivity | cbn; lia]).
  - change (zenv (Some k, c)) with (zenv (Some k, e_chan (mk_edge (Some k) c false))). apply ar_other; [reflexivity |]. destruct k as [| [| k]]; [| | lia]; vm_compute; reflexivity.
Qed.
(** (A - B) * 3 + 1 (the 1 on the left) is (5-10)*3+1 and (6-20)*3+1 *)
Definition ex_e : expr Z := EConstL Z OAdd 1%Z (EConstR Z OMul (EBin Z OSub (EHandle Z hA) (EHandle Z hB)) 3%Z).
Example C34_expr_case : left_commutes Z zden ex_e /\ means Z 0%Z zden zenv ex_st ex_e [(-14)%Z; (-41)%Z].
Proof.
  split; [cbn; repeat split; intros; apply Z.add_comm |]. cbn [means ex_e].
  exists [(-15)%Z; (-42)%Z]. split; [| reflexivity]. exists [(-5)%Z; (-14)%Z]. split; [| reflexivity]. exists [5%Z; 6%Z], [10%Z; 20%Z]. split; [| split; [| split; reflexivity]].
  - constructor; [apply (ex_src 0 0); lia |]. constructor; [apply (ex_src 0 1); lia | constructor].
  - constructor; [apply (ex_src 1 0); lia |]. constructor; [apply (ex_src 1 1); lia | constructor].
Qed.
(** [1 - A] is heard as 4 and not as -4 *)
Theorem C34_left_refuted : reachable (s_g ex_st) /\ means Z 0%Z zden zenv ex_st (EConstL Z OSub 1%Z (EHandle Z (mk_handle [] [(nd 0, 0)]))) [(-4)%Z] /\
  exists st' h c, build Z ex_st (EConstL Z OSub 1%Z (EHandle Z (mk_handle [] [(nd 0, 0)]))) = Some (st', h) /\ h_out h = [c] /\
    arrives Z 0%Z zden zenv st' (as_edge c) 4%Z /\ ~ arrives Z 0%Z zden zenv st' (as_edge c) (-4)%Z.
Proof.
  split; [exact ex_reachable |]. assert (M : means Z 0%Z zden zenv ex_st (EHandle Z (mk_handle [] [(nd 0, 0)])) [5%Z]) by (constructor; [apply (ex_src 0 0); lia | constructor]).
  split; [exists [5%Z]; split; [exact M | reflexivity] |].
  destruct (C34_constant_left_swapped Z 0%Z zden zenv OSub (mk_handle [] [(nd 0, 0)]) 1%Z ex_st [5%Z] ex_reachable M) as (st' & h & E & C).
  change (map (fun x => zden OSub x 1%Z) [5%Z]) with [4%Z] in C. inversion C as [| c v l vs [Hs Hv] C' E1 E2]. inversion C'. subst.
  exists st', h, c. split; [exact E |]. split; [congruence |]. split; [exact Hv |]. intros Hw. pose proof (C34_one_value _ _ _ _ _ _ _ Hv _ Hw). discriminate.
Qed.
Print Assumptions C34_left_refuted.

(** The constant itself: an [i32] up to 2^24 is exact in every sample type, *)
Theorem C34_integer_partial : forall p e (I : ieee p e) i, (Z.abs i <= 2 ^ 24)%Z -> val (into_f (CI32 i) : binary_float p e) = IZR i /\ fin (into_f (CI32 i) : binary_float p e).
Proof. intros p e I i H. apply into_f_i32. exact H. Qed.
Print Assumptions C34_integer_partial.
Example C34_integer_case : (Z.abs (-16777216) <= 2 ^ 24)%Z /\ (Z.abs 3 <= 2 ^ 24)%Z. Proof. vm_compute. split; discriminate. Qed.
(** but 16777217 becomes 16777216 even in an [f64] graph, where it is a number of the type. *)
Theorem C34_integer_refuted : feqb (into_f (CI32 16777217) : binary_float 53 1024) (fz 16777216) = true /\ feqb (into_f (CI32 16777217) : binary_float 53 1024) (fz 16777217) = false /\
  feqb (into_f (CUsize 16777217) : binary_float 53 1024) (fz 16777217) = true.
Proof. vm_compute. repeat split. Qed.
Print Assumptions C34_integer_refuted.

(** ** C35 *)
(** [a | b], static and dynamic: the channels of [a], then those of [b]. *)
Theorem C35_stack : forall a b, exists h, stack_static a b = Some h /\ stack_dynamic a b = h /\
  length (h_in h) = length (h_in a) + length (h_in b) /\ length (h_out h) = length (h_out a) + length (h_out b) /\
  (forall i, i < length (h_in a) -> nth_error (h_in h) i = nth_error (h_in a) i) /\
  (forall i, nth_error (h_in h) (length (h_in a) + i) = nth_error (h_in b) i) /\
  (forall i, i < length (h_out a) -> nth_error (h_out h) i = nth_error (h_out a) i) /\
  (forall i, nth_error (h_out h) (length (h_out a) + i) = nth_error (h_out b) i).
Proof.
  intros a b. exists (mk_handle (h_in a ++ h_in b) (h_out a ++ h_out b)). split.
  { unfold stack_static. rewrite !cb_ok by (rewrite app_length; reflexivity). reflexivity. }
  split; [unfold stack_dynamic; rewrite !collect; reflexivity |]. cbn [h_in h_out].
  split; [apply app_length |]. split; [apply app_length |].
  assert (A : forall (l m : list chan) i, nth_error (l ++ m) (length l + i) = nth_error m i) by (intros l m i; rewrite nth_error_app2 by lia; f_equal; lia).
  split; [intros i Hi; apply nth_error_app1; exact Hi |]. split; [intros i; apply A |]. split; [intros i Hi; apply nth_error_app1; exact Hi | intros i; apply A].
Qed.
Print Assumptions C35_stack.
(** [x >> y] (and the replacing form): what is heard afterwards at input [c] of each node that was there is what was heard before and
    the outputs of [x] whose position in [x] is that of the input in [y], for the pairs that were accepted (errors are logged); the
    graph outputs are as before. Sums inserted by earlier connections are seen through. *)
Theorem C35_chain : forall additive x y g g' rs, reachable g -> (forall c, In c (h_in y) -> fst c <> NGraph) -> known g (combine (h_out x) (h_in y)) ->
  to additive false g x y = Some (g', rs) ->
  (forall k c l0, k < g_next g -> sums g (in_edge g k c) l0 -> sums g' (in_edge g' k c) (combined additive l0 (new_leaves (accepted (combine (h_out x) (h_in y)) rs) k c))) /\
  (forall c l0, sums g (out_edge g c) l0 -> sums g' (out_edge g' c) l0) /\ g_outs g' = g_outs g.
Proof.
  intros additive x y g g' rs R K N H. destruct (wire_sums additive _ _ _ _ (reachable_wf _ R) ltac:(intros [p q] Hp; apply in_combine_r in Hp; apply K; exact Hp) N H) as (_ & A & B & C).
  split; [| split; assumption]. intros k c l0 Hk Hl. rewrite <- merge_combined. apply A; assumption.
Qed.
Print Assumptions C35_chain.
(** All pairs are accepted, without panic, if the channels exist and nothing leads back from [y] to [x]. *)
Theorem C35_all_connected : forall additive x y g, reachable g -> (forall c, In c (h_out x) -> source_ok g c) -> (forall c, In c (h_in y) -> sink_ok g c) ->
  no_way_back g (combine (h_out x) (h_in y)) ->
  exists g' rs, to additive false g x y = Some (g', rs) /\ rs = repeat Ok (Nat.min (length (h_out x)) (length (h_in y))) /\
    accepted (combine (h_out x) (h_in y)) rs = combine (h_out x) (h_in y).
Proof.
  intros additive x y g R Hx Hy N. destruct (wire_accepted additive (combine (h_out x) (h_in y)) g (reachable_wf _ R)) as (g' & rs & E & Ers); [| exact N |].
  { intros [p q] Hp. split; [apply Hx; apply in_combine_l in Hp; exact Hp | apply Hy; apply in_combine_r in Hp; exact Hp]. }
  exists g', rs. split; [exact E |]. rewrite Ers. clear. split.
  - rewrite <- combine_length. induction (combine (h_out x) (h_in y)) as [| p l IH]; cbn [map length repeat]; [reflexivity | rewrite IH; reflexivity].
  - induction (combine (h_out x) (h_in y)) as [| p l IH]; cbn [map accepted]; [reflexivity | rewrite IH; reflexivity].
Qed.
Print Assumptions C35_all_connected.
(** The pairs are those of equal position, up to the smaller count. *)
Theorem C35_positions : forall x y i p, nth_error (combine (h_out x) (h_in y)) i = Some p <-> nth_error (h_out x) i = Some (fst p) /\ nth_error (h_in y) i = Some (snd p).
Proof.
  intros x y. generalize (h_out x) (h_in y). intros l m i p. revert l m. induction i as [| i IH]; intros [| a l] [| b m]; cbn [combine nth_error]; try (split; [discriminate | intros [? ?]; discriminate]).
  - split; [intros H; injection H as <-; auto | intros [H1 H2]; injection H1 as ->; injection H2 as ->; destruct p; reflexivity].
  - apply IH.
Qed.
Print Assumptions C35_positions.
(** The two outputs of node 0 into node 2, whose first input already has node 1 *)
Definition ops1 := ops0 ++ [OpConnect (nd 1) 1 0 (nd 2) true false].
Definition ex_g1 : graph := match run (graph_new 7 1 2 []) ops1 with Some g => g | None => ex_g end.
Definition h2 : handle := mk_handle [(nd 2, 0); (nd 2, 1)] [(nd 2, 0)].
Example C35_case : reachable ex_g1 /\ known ex_g1 (combine (h_out hA) (h_in h2)) /\ (forall c, In c (h_out hA) -> source_ok ex_g1 c) /\ (forall c, In c (h_in h2) -> sink_ok ex_g1 c) /\
  sums ex_g1 (in_edge ex_g1 2 0) [(Some 1, 1)] /\ new_leaves (combine (h_out hA) (h_in h2)) 2 0 = [(Some 0, 0)] /\ new_leaves (combine (h_out hA) (h_in h2)) 2 1 = [(Some 0, 1)].
Proof.
  split; [exists 7%N, 1, 2, [], ops1; vm_compute; reflexivity |]. split.
  { intros p id Hp Hid. cbn [combine hA h2 h_out h_in In] in Hp. destruct Hp as [<- | [<- | []]]; cbn [fst snd nd] in Hid; destruct Hid as [E | E]; injection E as <-; vm_compute; split; try reflexivity; repeat constructor. }
  split; [intros c Hc; cbn [hA h_out In] in Hc; destruct Hc as [<- | [<- | []]]; (split; [reflexivity |]); eexists; (split; [vm_compute; reflexivity | cbn; lia]) |].
  split; [intros c Hc; cbn [h2 h_in In] in Hc; destruct Hc as [<- | [<- | []]]; (split; [reflexivity |]); eexists; (split; [vm_compute; reflexivity | split; [discriminate | cbn; lia]]) |].
  split; [| vm_compute; split; reflexivity].
  change (in_edge ex_g1 2 0) with (Some (mk_edge (Some 1) 1 false)). apply (sums_leaf ex_g1 (mk_edge (Some 1) 1 false)). intros k Hk. injection Hk as <-. vm_compute. reflexivity.
Qed.
Example C35_way_back_case : no_way_back ex_g1 (combine (h_out hA) (h_in h2)).
Proof.
  intros p q a b Hp Hq Ea Eb Hr. assert (a = 0 /\ b = 2) as [-> ->].
  { cbn [combine hA h2 h_out h_in In] in Hp, Hq. split; [destruct Hp as [<- | [<- | []]]; cbn in Ea; congruence | destruct Hq as [<- | [<- | []]]; cbn in Eb; congruence]. }
  apply clos_rt_rtn1 in Hr. inversion Hr as [| m z (c & e & He & _)]. subst. destruct c; vm_compute in He; discriminate.
Qed.
(** [try_to] returns an error for the whole operation but leaves the connections made before it: an operation that "failed" has
    changed the graph. *)
Theorem C35_try_edits : exists x y g' e, reachable ex_g /\ try_to ex_g x y = Some (g', Err e) /\ in_edge ex_g 2 0 = None /\ in_edge g' 2 0 = Some (mk_edge (Some 0) 0 false).
Proof.
  exists hA, (mk_handle [(nd 2, 0); (nd 9, 0)] []). eexists. exists ENodeNotFound. split; [exact ex_reachable |]. vm_compute. split; [reflexivity |]. split; reflexivity.
Qed.
Print Assumptions C35_try_edits.
(** A pair that would close a loop is dropped (logged) and the others are connected: [x >> y] then lacks that channel. *)
Theorem C35_dropped_refuted : exists g' rs, to true false ex_g1 (mk_handle [] [(nd 2, 0); (nd 0, 0)]) h2 = Some (g', rs) /\ rs = [Err ECircular; Ok] /\ in_edge g' 2 0 = in_edge ex_g1 2 0 /\ in_edge g' 2 1 = Some (mk_edge (Some 0) 0 false).
Proof. eexists. eexists. vm_compute. split; [reflexivity |]. repeat split. Qed.
Print Assumptions C35_dropped_refuted.

(** Chaining with feedback ([to_feedback] and the replacing form): between every accepted output of a node and its input stands a
    new pair of feedback nodes, one that receives the output and one that is heard at the input; no two pairs share a node. *)
Theorem C35_feedback : forall additive x y g g' rs, reachable g -> (forall c, In c (h_in y) -> fst c <> NGraph) -> known g (combine (h_out x) (h_in y)) ->
  to additive true g x y = Some (g', rs) ->
  let ps := accepted (combine (h_out x) (h_in y)) rs in
  exists ls, Forall2 (through (g_next g) g') ps ls /\ apart (g_next g) ls /\
    (forall k c l0, k < g_next g -> sums g (in_edge g k c) l0 -> sums g' (in_edge g' k c) (combined additive l0 (heard ps ls k c))) /\
    (forall c l0, sums g (out_edge g c) l0 -> sums g' (out_edge g' c) l0) /\ g_outs g' = g_outs g.
Proof.
  intros additive x y g g' rs R K N H ps. destruct (wire_fb_sums additive _ _ _ _ (reachable_wf _ R) ltac:(intros [p q] Hp; apply in_combine_r in Hp; apply K; exact Hp) N H) as (_ & _ & O & Oc & ls & F & A & S0).
  exists ls. split; [exact F |]. split; [exact A |]. split; [| auto]. intros k c l0 Hk Hl. rewrite <- merge_combined. apply S0; assumption.
Qed.
Print Assumptions C35_feedback.
(** With feedback all pairs are accepted, whatever leads where. *)
Theorem C35_feedback_all_connected : forall additive x y g, reachable g -> (forall c, In c (h_out x) -> source_ok g c) -> (forall c, In c (h_in y) -> sink_ok g c) ->
  exists g' rs, to additive true g x y = Some (g', rs) /\ rs = repeat Ok (Nat.min (length (h_out x)) (length (h_in y))) /\
    accepted (combine (h_out x) (h_in y)) rs = combine (h_out x) (h_in y).
Proof.
  intros additive x y g R Hx Hy. destruct (wire_fb_accepted additive (combine (h_out x) (h_in y)) g (reachable_wf _ R)) as (g' & rs & E & Ers).
  { intros [p q] Hp. split; [apply Hx; apply in_combine_l in Hp; exact Hp | apply Hy; apply in_combine_r in Hp; exact Hp]. }
  exists g', rs. split; [exact E |]. rewrite Ers. clear. split.
  - rewrite <- combine_length. induction (combine (h_out x) (h_in y)) as [| p l IH]; cbn [map length repeat]; [reflexivity | rewrite IH; reflexivity].
  - induction (combine (h_out x) (h_in y)) as [| p l IH]; cbn [map accepted]; [reflexivity | rewrite IH; reflexivity].
Qed.
Print Assumptions C35_feedback_all_connected.
(** Node 2 into its own two inputs, and node 1 besides *)
Example C35_feedback_case : exists g', to true true ex_g1 (mk_handle [] [(nd 2, 0); (nd 1, 1)]) h2 = Some (g', [Ok; Ok]) /\
  known ex_g1 (combine [(nd 2, 0); (nd 1, 1)] (h_in h2)) /\
  in_edge ex_g1 2 0 = Some (mk_edge (Some 1) 1 false) /\ g_next ex_g1 = 3 /\ in_edge g' 3 0 = Some (mk_edge (Some 2) 0 true) /\ partner g' 3 4 /\
  heard (combine [(nd 2, 0); (nd 1, 1)] (h_in h2)) [(Some 4, 0); (Some 7, 1)] 2 0 = [(Some 4, 0)] /\ in_edge g' 2 1 = Some (mk_edge (Some 7) 1 true).
Proof.
  eexists. split; [vm_compute; reflexivity |]. split.
  - intros p id Hp. cbn [combine h2 h_in In] in Hp. destruct Hp as [<- | [<- | []]]; intros [Hid | Hid]; injection Hid as <-; vm_compute; split; try reflexivity; lia.
  - split; [vm_compute; reflexivity |]. split; [vm_compute; reflexivity |]. split; [vm_compute; reflexivity |].
    split; [eexists; split; vm_compute; reflexivity |]. split; vm_compute; reflexivity.
Qed.

(** ** C36 *)
Lemma position_spec d : forall l, match position d l with
  | Some i => nth_error l i = Some d /\ forall j, j < i -> nth_error l j <> Some d
  | None => forall i, nth_error l i <> Some d end.
Proof.
  induction l as [| x l IH]; cbn [position]; [intros [| i]; discriminate |]. destruct (String.eqb_spec x d) as [-> | Hx].
  - split; [reflexivity | intros j Hj; lia].
  - destruct (position d l) as [i |]; cbn [option_map].
    + destruct IH as [A B]. split; [exact A |]. intros [| j] Hj; [cbn [nth_error]; congruence | apply B; lia].
    + intros [| i]; [cbn [nth_error]; congruence | apply IH].
Qed.
Lemma ugen_param_ok descs p : match ugen_param descs p with Some i => addresses descs p i | None => forall i, ~ addresses descs p i end.
Proof.
  destruct p as [i | d]; cbn [ugen_param addresses].
  - destruct (N.ltb_spec i (N.of_nat (length descs))) as [L | L]; [split; [reflexivity | lia] |]. intros j [-> Hj]. lia.
  - pose proof (position_spec d descs) as H. destruct (position d descs) as [i |]; cbn [option_map].
    + rewrite Nat2N.id. exact H.
    + intros i [A _]. exact (H _ A).
Qed.
(** Directly on a generator, whatever the number of parameters: the parameter, or an error if there is none. *)
Theorem C36_direct : forall descs p, match ugen_param descs p with Some i => addresses descs p i | None => forall i, ~ addresses descs p i end.
Proof. exact ugen_param_ok. Qed.
Print Assumptions C36_direct.
(** Over a static handle, for generators with at most 2^16 parameters. *)
Theorem C36_static : forall descs p, (N.of_nat (length descs) <= 65536)%N ->
  match sh_param descs p with Some i => addresses descs p i | None => forall i, ~ addresses descs p i end.
Proof.
  intros descs p L. pose proof (ugen_param_ok descs p) as H. assert (E : sh_param descs p = ugen_param descs p).
  { assert (M : forall i, (i < N.of_nat (length descs))%N -> as_u16 i = i) by (intros i Hi; unfold as_u16; apply N.mod_small; change U16 with 65536%N; lia).
    destruct p as [i | d]; cbn [sh_param ugen_param].
    - destruct (N.ltb_spec i (N.of_nat (length descs))) as [Hi | Hi]; [rewrite M by exact Hi; reflexivity | reflexivity].
    - pose proof (position_spec d descs) as P. destruct (position d descs) as [i |]; cbn [option_map]; [| reflexivity]. destruct P as [P _].
      assert (i < length descs) by (apply nth_error_Some; congruence). rewrite M by lia. reflexivity. }
  rewrite E. exact H.
Qed.
Print Assumptions C36_static.
(** Over a dynamic handle and with [Graph::set], for indices below 2^16 (and fewer than 2^16 parameters). *)
Theorem C36_dynamic_partial : forall descs p, (N.of_nat (length descs) < 65536)%N -> (forall i, p = PIndex i -> (i < 65536)%N) ->
  dh_param descs p = ugen_param descs p /\ set_param descs p = ugen_param descs p /\
  match ugen_param descs p with Some i => addresses descs p i | None => forall i, ~ addresses descs p i end.
Proof.
  intros descs p L Hp. assert (M : forall i, (i < 65536)%N -> as_u16 i = i) by (intros i Hi; unfold as_u16; apply N.mod_small; exact Hi).
  split; [| split; [| apply ugen_param_ok]].
  - destruct p as [i | d]; cbn [dh_param ugen_param].
    + rewrite !M by auto. reflexivity.
    + pose proof (position_spec d descs) as P. destruct (position d descs) as [i |]; cbn [option_map]; [| reflexivity]. destruct P as [P _].
      assert (i < length descs) by (apply nth_error_Some; congruence). rewrite M by lia. reflexivity.
  - destruct p as [i | d]; cbn [set_param ugen_param]; [| reflexivity]. rewrite !M by auto. rewrite N.leb_antisym. destruct (i <? N.of_nat (length descs))%N; reflexivity.
Qed.
Print Assumptions C36_dynamic_partial.
Definition ex_descs : list string := ["freq"; "phase_offset"; "reset_phase"]%string.
Example C36_case : (N.of_nat (length ex_descs) < 65536)%N /\ ugen_param ex_descs (PIndex 2) = Some 2%N /\ ugen_param ex_descs (PIndex 3) = None /\
  ugen_param ex_descs (PDesc "phase_offset") = Some 1%N /\ ugen_param ex_descs (PDesc "gain") = None.
Proof. vm_compute. repeat split. Qed.
(** Index 65536 does not exist on a node with three parameters: a dynamic handle addresses parameter 0, and [Graph::set] sends 65536. *)
Theorem C36_index_refuted : (forall i, ~ addresses ex_descs (PIndex 65536) i) /\ dh_param ex_descs (PIndex 65536) = Some 0%N /\ set_param ex_descs (PIndex 65536) = Some 65536%N.
Proof. split; [| vm_compute; split; reflexivity]. intros i [-> H]. change (N.to_nat 65536 < 3) in H. lia. Qed.
Print Assumptions C36_index_refuted.
(** In general: every index that is off by a multiple of 2^16. *)
Theorem C36_index_wraps : forall descs i m, (N.of_nat (length descs) < 65536)%N -> (i < N.of_nat (length descs))%N -> dh_param descs (PIndex (i + m * 65536)) = Some i.
Proof.
  intros descs i m L Hi. cbn [dh_param]. unfold as_u16. change U16 with 65536%N. rewrite N.mod_add by discriminate. rewrite !N.mod_small by lia.
  destruct (N.ltb_spec i (N.of_nat (length descs))); [reflexivity | lia].
Qed.
Print Assumptions C36_index_wraps.
(** Connecting a signal to a parameter does not check the index: 70000 is accepted (as 4464) on a node without parameters. *)
Theorem C36_connect_refuted : exists g', step ex_g (OpConnectParam (mk_id 0 7) 0 (PIndex 70000) (mk_id 2 7) false) = Some (g', Ok) /\
  (forall n, lookup ex_g 2 = Some n -> n_pdesc n = []) /\ exists ps, pedges_of g' 2 = Some ps /\ map p_idx ps = [4464%N].
Proof. eexists. split; [vm_compute; reflexivity |]. split; [intros n H; vm_compute in H; injection H as <-; reflexivity |]. eexists. split; vm_compute; reflexivity. Qed.
Print Assumptions C36_connect_refuted.
(** Two parameters of the same name (two [wr_mul] around each other): the name addresses the first, and no name the second. *)
Definition dup_descs : list string := ["wr_mul"; "wr_mul"; "freq"]%string.
Theorem C36_duplicate_refuted : nth_error dup_descs 1 = Some "wr_mul"%string /\ ugen_param dup_descs (PDesc "wr_mul") = Some 0%N /\ forall d, ugen_param dup_descs (PDesc d) <> Some 1%N.
Proof.
  split; [reflexivity |]. split; [vm_compute; reflexivity |]. intros d H. pose proof (ugen_param_ok dup_descs (PDesc d)) as A. rewrite H in A. destruct A as [A B].
  change (N.to_nat 1) with 1 in *. injection A as <-. exact (B 0 ltac:(lia) eq_refl).
Qed.
Print Assumptions C36_duplicate_refuted.
