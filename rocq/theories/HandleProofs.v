From Verif Require Import Base GraphModel GraphSpec GraphBase GraphPath GraphInv GraphShape GraphSums GraphStep HandleModel HandleSpec.
Local Open Scope nat_scope.
Local Notation length := List.length.

(** ** builders *)
Lemma cb_fill : forall cap l acc, length acc + length l <= cap -> fold_left (cb_push cap) l acc = acc ++ l.
Proof.
  intros cap. induction l as [| c l IH]; intros acc H; cbn [fold_left length] in *; [rewrite app_nil_r; reflexivity |].
  unfold cb_push at 2. replace (length acc <? cap) with true by (symmetry; apply Nat.ltb_lt; lia).
  rewrite IH by (rewrite app_length; cbn [length]; lia). rewrite <- app_assoc. reflexivity.
Qed.
Lemma cb_ok : forall l cap, cap = length l -> cb cap l = Some l.
Proof. intros l cap ->. unfold cb, cb_finish. rewrite cb_fill by (cbn [length]; lia). cbn [app]. rewrite Nat.eqb_refl. reflexivity. Qed.
Lemma collect : forall (l acc : list chan), fold_left (fun acc c => acc ++ [c]) l acc = acc ++ l.
Proof. induction l as [| c l IH]; intros acc; cbn [fold_left]; [rewrite app_nil_r; reflexivity |]. rewrite IH, <- app_assoc. reflexivity. Qed.

(** ** connecting into a node nobody reads *)
Lemma right_graph : forall g id, id_graph id = g_id g -> wrong_graph g id = false.
Proof. intros g id H. unfold wrong_graph, not_u64. rewrite H. apply N.eqb_neq. change U64 with 18446744073709551616%N. lia. Qed.
Lemma set_nth_lt : forall A (l : list A) i x y, nth_error l i = Some y -> exists l', set_nth l i x = Some l'.
Proof.
  induction l as [| z l IH]; intros [| i] x y H; cbn [nth_error set_nth] in *; try discriminate; [eexists; reflexivity |].
  destruct (IH i x y H) as [l' E]. rewrite E. eexists. reflexivity.
Qed.
Lemma connect_fresh g s so si k n es : wf g -> source_ok g (s, so) -> lookup g k = Some n -> n_edges n = Some es -> nth_error es si = Some None ->
  si < n_inputs n -> unread g k -> src_of s <> Some k ->
  exists es', set_nth es si (Some (mk_edge (src_of s) so false)) = Some es' /\
    connect2 g s so si (NNode (mk_id k (g_id g))) true false = Some (update (set_recalc g true) k (fun n => n_set_edges n (Some es')), Ok).
Proof.
  intros Hw Hs Hk He Hn Hi Hu Hne. destruct (set_nth_lt _ es si (Some (mk_edge (src_of s) so false)) _ Hn) as [es' E]. exists es'. split; [exact E |].
  assert (C : connect_to_node g (src_of s) k so si true false = Some (update (set_recalc g true) k (fun n => n_set_edges n (Some es')))).
  { assert (L : edges_of (set_recalc g true) k = Some es) by (unfold edges_of; change (lookup (set_recalc g true) k) with (lookup g k); rewrite Hk; exact He).
    unfold connect_to_node. cbn [bind negb]. unfold get_edge, set_edge. rewrite !L. cbn [bind]. rewrite Hn. cbn [bind]. rewrite E. reflexivity. }
  destruct s as [| id]; cbn [connect2 src_of] in *.
  - unfold connect_input_to_node. rewrite right_graph by reflexivity. cbn [fst snd source_ok] in Hs. unfold source_ok in Hs. cbn [fst snd] in Hs. replace (g_inputs g <=? so) with false by (symmetry; apply Nat.leb_gt; exact Hs).
    cbn [id_key]. rewrite Hk. replace (n_inputs n <=? si) with false by (symmetry; apply Nat.leb_gt; exact Hi). rewrite C. reflexivity.
  - unfold source_ok in Hs. cbn [fst snd] in Hs. destruct Hs as (Hid & ns & Hns & Hso). unfold connect_nodes. rewrite (right_graph g id Hid), right_graph by reflexivity. rewrite Hns.
    replace (n_outputs ns <=? so) with false by (symmetry; apply Nat.leb_gt; exact Hso). cbn [id_key]. rewrite Hk. replace (n_inputs n <=? si) with false by (symmetry; apply Nat.leb_gt; exact Hi).
    destruct (has_path_spec g k (id_key id) (bi_nodup g (proj1 (proj1 Hw)))) as (b & Hb & Hr). rewrite Hb. cbn [bind]. destruct b.
    + exfalso. apply Hne. f_equal. apply (unread_reaches g k (id_key id) Hu). apply Hr. reflexivity.
    + rewrite C. reflexivity.
Qed.

(** ** growing *)
Record grows {F} (st st' : state F) : Prop := {
  gr_id : g_id (s_g st') = g_id (s_g st);
  gr_inputs : g_inputs (s_g st') = g_inputs (s_g st);
  gr_outs : g_outs (s_g st') = g_outs (s_g st);
  gr_next : g_next (s_g st) <= g_next (s_g st');
  gr_lookup : forall k, k < g_next (s_g st) -> lookup (s_g st') k = lookup (s_g st) k;
  gr_kinds : forall k, k < g_next (s_g st) -> find (fun e => fst e =? k) (s_kinds st') = find (fun e => fst e =? k) (s_kinds st) }.
Lemma grows_refl {F} (st : state F) : grows st st.
Proof. constructor; auto. Qed.
Lemma grows_trans {F} (a b c : state F) : grows a b -> grows b c -> grows a c.
Proof.
  intros [A1 A2 A3 A4 A5 A6] [B1 B2 B3 B4 B5 B6]. constructor; try congruence; [lia | |]; intros k Hk; [rewrite B5, A5 | rewrite B6, A6]; auto; lia.
Qed.
Lemma grows_in_edge {F} (st st' : state F) k c : grows st st' -> k < g_next (s_g st) -> in_edge (s_g st') k c = in_edge (s_g st) k c.
Proof. intros G H. unfold in_edge, edges_of. rewrite (gr_lookup _ _ G k H). reflexivity. Qed.
Lemma grows_kind {F} (st st' : state F) k : grows st st' -> k < g_next (s_g st) -> kind_of F st' k = kind_of F st k.
Proof. intros G H. unfold kind_of, summing. rewrite (gr_lookup _ _ G k H), (gr_kinds _ _ G k H). reflexivity. Qed.
Lemma grows_source {F} (st st' : state F) c : base_inv (s_g st) -> grows st st' -> source_ok (s_g st) c -> source_ok (s_g st') c.
Proof.
  intros B G H. destruct c as [[| id] ch]; unfold source_ok in *; cbn [fst snd] in *; [rewrite (gr_inputs _ _ G); exact H |].
  destruct H as (Hi & n & Hn & Hc). split; [rewrite (gr_id _ _ G); exact Hi |]. exists n. split; [| exact Hc]. rewrite (gr_lookup _ _ G); [exact Hn |]. apply (bi_lt _ B). eapply lookup_key; eauto.
Qed.
Lemma arrives_grows {F} zero den env (st st' : state F) o v : base_inv (s_g st) -> grows st st' -> arrives F zero den env st o v -> older (s_g st) o -> arrives F zero den env st' o v.
Proof.
  intros B G H. induction H as [| e He | e k He Hk | e k c He Hk | e k o x y He Hk _ IHx _ IHy]; intros Ho.
  - constructor.
  - apply ar_input. exact He.
  - apply ar_other; [exact He |]. rewrite (grows_kind _ _ _ G); [exact Hk | eapply Ho; eauto].
  - apply ar_const with (k := k); [exact He |]. rewrite (grows_kind _ _ _ G); [exact Hk | eapply Ho; eauto].
  - assert (L : k < g_next (s_g st)) by (eapply Ho; eauto).
    apply ar_math with (k := k); [exact He | rewrite (grows_kind _ _ _ G L); exact Hk | |]; rewrite (grows_in_edge _ _ _ _ G L); [apply IHx | apply IHy]; apply older_in; exact B.
Qed.
Lemma source_older g c : base_inv g -> source_ok g c -> older g (as_edge c).
Proof.
  intros B H e s E Hs. unfold as_edge in E. injection E as <-. cbn [e_src] in Hs. destruct c as [[| id] ch]; cbn [fst src_of] in Hs; [discriminate |]. injection Hs as <-.
  unfold source_ok in H. cbn [fst snd] in H. destruct H as (_ & n & Hn & _). apply (bi_lt _ B). eapply lookup_key; eauto.
Qed.
Lemma grows_push {F} (st : state F) i o d r kd : base_inv (s_g st) ->
  grows st (mk_state (fst (push_node (s_g st) i o d r)) ((snd (push_node (s_g st) i o d r), kd) :: s_kinds st)).
Proof.
  intros B. constructor; cbn [s_g s_kinds].
  - unfold push_node. destruct (g_slots (s_g st)); reflexivity.
  - unfold push_node. destruct (g_slots (s_g st)); reflexivity.
  - apply push_outs.
  - rewrite push_next. lia.
  - intros k Hk. rewrite push_lookup by exact B. destruct (Nat.eqb_spec (g_next (s_g st)) k); [lia | reflexivity].
  - intros k Hk. cbn [find fst]. rewrite push_key. destruct (Nat.eqb_spec (g_next (s_g st)) k); [lia | reflexivity].
Qed.

Section One.
Variable F : Type.
Variable zero : F.
Variable den : mop -> F -> F -> F.
Variable env : option key * nat -> F.
Local Notation arr := (arrives F zero den env).
Lemma math_node_ok (st : state F) o a b : wf (s_g st) -> source_ok (s_g st) a -> source_ok (s_g st) b ->
  exists st' c, math_node F st o a b = Some (st', c) /\ grows st st' /\ wf (s_g st') /\ source_ok (s_g st') c /\
    forall x y, arr st (as_edge a) x -> arr st (as_edge b) y -> arr st' (as_edge c) (den o x y).
Proof.
  intros Hw Ha Hb. set (g := s_g st) in *. set (p := push_node g 2 1 [] None). set (k := g_next g).
  pose proof (proj1 (proj1 Hw)) as B.
  assert (Kp : snd p = k) by apply push_key.
  assert (G1 : grows st (mk_state (fst p) ((snd p, KMath o) :: s_kinds st))) by (apply grows_push; exact B).
  assert (W1 : wf (fst p)) by (apply (step_wf g (OpPush 2 1 [] false) (fst p) Ok Hw); reflexivity).
  assert (Id1 : g_id (fst p) = g_id g) by exact (gr_id _ _ G1).
  set (n0 := mk_node 2 1 [] false false None None (Some [None; None]) (Some []) true).
  assert (L1 : lookup (fst p) k = Some n0) by (unfold p; rewrite push_lookup by exact B; unfold k; rewrite Nat.eqb_refl; reflexivity).
  assert (U1 : unread (fst p) k).
  { intros k' c e He. unfold p in He. rewrite push_in_edge in He by exact B. exact (fresh_unread g k B (Nat.le_refl _) k' c e He). }
  assert (Na : src_of (fst a) <> Some k).
  { intros E. pose proof (source_older g a B Ha _ k eq_refl) as X. cbn [e_src] in X. specialize (X E). unfold k in X. lia. }
  assert (Nb : src_of (fst b) <> Some k).
  { intros E. pose proof (source_older g b B Hb _ k eq_refl) as X. cbn [e_src] in X. specialize (X E). unfold k in X. lia. }
  pose proof (grows_source _ _ a B G1 Ha) as Ha1. cbn [s_g] in Ha1. pose proof (grows_source _ _ b B G1 Hb) as Hb1. cbn [s_g] in Hb1.
  destruct (connect_fresh (fst p) (fst a) (snd a) 0 k n0 [None; None] W1) as (es1 & S1 & C1); [destruct a; exact Ha1 | exact L1 | reflexivity | reflexivity | cbn; lia | exact U1 | exact Na |].
  cbn [set_nth] in S1. injection S1 as <-. set (g2 := update (set_recalc (fst p) true) k (fun n => n_set_edges n (Some [Some (mk_edge (src_of (fst a)) (snd a) false); None]))) in *.
  assert (W2 : wf g2) by (eapply (step_wf (fst p) (OpConnect _ _ _ _ _ _) g2 Ok W1); exact C1).
  assert (L2 : forall k', lookup g2 k' = if k =? k' then Some (n_set_edges n0 (Some [Some (mk_edge (src_of (fst a)) (snd a) false); None])) else lookup (fst p) k').
  { intros k'. unfold g2. rewrite lookup_update. change (lookup (set_recalc (fst p) true)) with (lookup (fst p)). destruct (Nat.eqb_spec k k') as [<- |]; [rewrite L1; reflexivity | reflexivity]. }
  assert (Hb2 : source_ok g2 b).
  { destruct b as [[| id] ch]; unfold source_ok in *; cbn [fst snd] in *; [exact Hb1 |]. destruct Hb1 as (I & n & Hn & Hc). split; [exact I |]. rewrite L2.
    destruct (Nat.eqb_spec k (id_key id)) as [E |]; [exfalso; apply Nb; cbn [src_of]; congruence | exists n; auto]. }
  assert (U2 : unread g2 k).
  { intros k' c e He. unfold in_edge, edges_of in He. rewrite L2 in He. destruct (Nat.eqb_spec k k').
    - cbn [bind n_set_edges n_edges] in He. destruct c as [| [| c]]; cbn [nth_error] in He; [| discriminate | destruct c; discriminate]. injection He as <-. exact Na.
    - exact (U1 k' c e He). }
  destruct (connect_fresh g2 (fst b) (snd b) 1 k (n_set_edges n0 (Some [Some (mk_edge (src_of (fst a)) (snd a) false); None])) [Some (mk_edge (src_of (fst a)) (snd a) false); None] W2) as (es2 & S2 & C2);
    [destruct b; exact Hb2 | rewrite L2, Nat.eqb_refl; reflexivity | reflexivity | reflexivity | cbn; lia | exact U2 | exact Nb |].
  cbn [set_nth] in S2. injection S2 as <-. set (g3 := update (set_recalc g2 true) k (fun n => n_set_edges n (Some [Some (mk_edge (src_of (fst a)) (snd a) false); Some (mk_edge (src_of (fst b)) (snd b) false)]))) in *.
  assert (W3 : wf g3) by (eapply (step_wf g2 (OpConnect _ _ _ _ _ _) g3 Ok W2); exact C2).
  assert (L3 : forall k', lookup g3 k' = if k =? k' then Some (n_set_edges n0 (Some [as_edge a; as_edge b])) else lookup (fst p) k').
  { intros k'. unfold g3. rewrite lookup_update. change (lookup (set_recalc g2 true)) with (lookup g2). rewrite L2. destruct (Nat.eqb_spec k k'); reflexivity. }
  change (g_id g2) with (g_id (fst p)) in C2. rewrite Id1 in C1, C2.
  set (st' := mk_state g3 ((k, KMath o) :: s_kinds st)). exists st', (NNode (mk_id k (g_id g)), 0).
  assert (G : grows st st').
  { constructor; unfold st'; cbn [s_g s_kinds].
    - exact Id1.
    - exact (gr_inputs _ _ G1).
    - exact (gr_outs _ _ G1).
    - exact (gr_next _ _ G1).
    - intros k' Hk. rewrite L3. destruct (Nat.eqb_spec k k'); [unfold k, g in *; lia |]. exact (gr_lookup _ _ G1 k' Hk).
    - intros k' Hk. cbn [find fst]. destruct (Nat.eqb_spec k k'); [unfold k, g in *; lia | reflexivity]. }
  split; [unfold math_node; fold g; fold p; rewrite Kp, C1; cbn [bind fst]; rewrite C2; reflexivity |]. split; [exact G |]. split; [exact W3 |]. split.
  - unfold source_ok. cbn [fst snd id_graph id_key]. split; [symmetry; exact Id1 |]. change (s_g st') with g3. rewrite (L3 k), Nat.eqb_refl. eexists. split; [reflexivity |]. cbn. lia.
  - intros x y Hx Hy. apply ar_math with (k := k); [reflexivity | | |].
    + unfold kind_of, summing. change (s_g st') with g3. change (s_kinds st') with ((k, KMath o) :: s_kinds st). cbn [find fst]. rewrite L3, !Nat.eqb_refl. reflexivity.
    + apply (arrives_grows zero den env st st' _ _ B G) in Hx; [| apply source_older; assumption]. change (s_g st') with g3. unfold in_edge, edges_of. rewrite L3, Nat.eqb_refl. exact Hx.
    + apply (arrives_grows zero den env st st' _ _ B G) in Hy; [| apply source_older; assumption]. change (s_g st') with g3. unfold in_edge, edges_of. rewrite L3, Nat.eqb_refl. exact Hy.
Qed.
Lemma math_loop_ok o : forall l (st : state F), wf (s_g st) -> (forall p, In p l -> source_ok (s_g st) (fst p) /\ source_ok (s_g st) (snd p)) ->
  exists st' cs, math_loop F st o l = Some (st', cs) /\ grows st st' /\ wf (s_g st') /\
    Forall2 (fun p c => source_ok (s_g st') c /\ forall x y, arr st (as_edge (fst p)) x -> arr st (as_edge (snd p)) y -> arr st' (as_edge c) (den o x y)) l cs.
Proof.
  induction l as [| [a b] l IH]; intros st Hw H; cbn [math_loop].
  - exists st, []. split; [reflexivity |]. split; [apply grows_refl |]. split; [exact Hw | constructor].
  - destruct (H (a, b) (or_introl eq_refl)) as [Ha Hb]. cbn [fst snd] in Ha, Hb.
    destruct (math_node_ok st o a b Hw Ha Hb) as (st1 & c & E1 & G1 & W1 & S1 & V1). pose proof (proj1 (proj1 Hw)) as B. pose proof (proj1 (proj1 W1)) as B1.
    destruct (IH st1 W1) as (st2 & cs & E2 & G2 & W2 & V2).
    { intros p Hp. destruct (H p (or_intror Hp)) as [H1 H2]. split; [exact (grows_source st st1 _ B G1 H1) | exact (grows_source st st1 _ B G1 H2)]. }
    exists st2, (c :: cs). rewrite E1. cbn [bind fst snd]. rewrite E2. split; [reflexivity |]. split; [eapply grows_trans; eauto |]. split; [exact W2 |]. constructor.
    + split; [eapply grows_source; eauto |]. cbn [fst snd]. intros x y Hx Hy. eapply arrives_grows; [exact B1 | exact G2 | apply V1; assumption | apply source_older; assumption].
    + assert (HI : forall p, In p l -> source_ok (s_g st) (fst p) /\ source_ok (s_g st) (snd p)) by (intros p Hp; apply H; right; exact Hp). clear - V2 HI G1 B.
      induction V2 as [| p c l cs [Hs Hv] V2 IHV]; constructor; [| apply IHV; intros q Hq; apply HI; right; exact Hq]. split; [exact Hs |]. intros x y Hx Hy.
      destruct (HI p (or_introl eq_refl)). apply Hv; eapply arrives_grows; eauto; apply source_older; assumption.
Qed.

(** Channels with values *)
Definition carries (st : state F) (l : list chan) (vs : list F) : Prop := Forall2 (fun c v => source_ok (s_g st) c /\ arr st (as_edge c) v) l vs.
Lemma carries_grows st st' l vs : base_inv (s_g st) -> grows st st' -> carries st l vs -> carries st' l vs.
Proof.
  intros B G H. induction H as [| c v l vs [Hs Hv] H IH]; constructor; [| exact IH]. split; [eapply grows_source; eauto | eapply arrives_grows; eauto; apply source_older; assumption].
Qed.
Lemma F2_len {A B} (R : A -> B -> Prop) l m : Forall2 R l m -> length l = length m.
Proof. induction 1; cbn [length]; congruence. Qed.
Lemma math_bin_ok st o a b xs ys : wf (s_g st) -> carries st (h_out a) xs -> carries st (h_out b) ys -> length xs = length ys ->
  exists st' h, math_bin F st o a b = Some (st', h) /\ grows st st' /\ wf (s_g st') /\ h_in h = [] /\ carries st' (h_out h) (map (fun p => den o (fst p) (snd p)) (combine xs ys)).
Proof.
  intros Hw Ha Hb L. unfold math_bin. pose proof (F2_len _ _ _ Ha) as La. pose proof (F2_len _ _ _ Hb) as Lb.
  replace (length (h_out a) =? length (h_out b)) with true by (symmetry; apply Nat.eqb_eq; lia). cbn [negb].
  destruct (math_loop_ok o (combine (h_out a) (h_out b)) st Hw) as (st' & cs & E & G & W & V).
  { intros [p q] Hp. split; [apply in_combine_l in Hp | apply in_combine_r in Hp].
    - clear - Hp Ha. induction Ha as [| c v l vs [Hs _] _ IH]; [destruct Hp |]. destruct Hp as [<- | Hp]; [exact Hs | apply IH; exact Hp].
    - clear - Hp Hb. induction Hb as [| c v l vs [Hs _] _ IH]; [destruct Hp |]. destruct Hp as [<- | Hp]; [exact Hs | apply IH; exact Hp]. }
  rewrite E. cbn [bind fst snd]. pose proof (F2_len _ _ _ V) as Lc. rewrite combine_length in Lc. rewrite cb_ok by lia. cbn [bind]. eexists. eexists. split; [reflexivity |]. split; [exact G |]. split; [exact W |]. split; [reflexivity |].
  cbn [h_out]. clear E La Lb Lc. revert b ys Hb L cs V. induction Ha as [| c v l vs [Hs Hv] Ha IH]; intros b ys Hb L cs V.
  - cbn [combine] in V. inversion V; subst. constructor.
  - destruct ys as [| y ys]; [cbn [length] in L; discriminate |]. inversion Hb as [| c' ? l' ? [Hs' Hv'] Hb' E1 E2]; subst. rewrite <- E1 in V. cbn [combine] in V. inversion V as [| ? d ? cs' [Hd Hx] V']; subst.
    cbn [combine map]. constructor; [split; [exact Hd | cbn [fst snd]; apply Hx; assumption] |].
    apply (IH (mk_handle [] l') ys); [exact Hb' | cbn [length] in L; lia | exact V'].
Qed.
Lemma math_const_ok st o a c xs : wf (s_g st) -> carries st (h_out a) xs ->
  exists st' h, math_const F st o a c = Some (st', h) /\ grows st st' /\ wf (s_g st') /\ h_in h = [] /\ carries st' (h_out h) (map (fun x => den o x c) xs).
Proof.
  intros Hw Ha. set (g := s_g st). set (p := push_node g 0 1 ["value"%string] None). pose proof (proj1 (proj1 Hw)) as B.
  set (st1 := mk_state (fst p) ((snd p, KConst c) :: s_kinds st)).
  assert (G1 : grows st st1) by (apply grows_push; exact B).
  assert (W1 : wf (s_g st1)) by (apply (step_wf g (OpPush 0 1 ["value"%string] false) (fst p) Ok Hw); reflexivity). pose proof (proj1 (proj1 W1)) as B1.
  assert (Kp : snd p = g_next g) by apply push_key.
  assert (L1 : lookup (s_g st1) (g_next g) = Some (mk_node 0 1 ["value"%string] false false None None (Some []) (Some []) true)) by (unfold st1, p; cbn [s_g]; rewrite push_lookup by exact B; rewrite Nat.eqb_refl; reflexivity).
  pose (kc := (NNode (mk_id (snd p) (g_id g)), 0) : chan).
  assert (Hc : source_ok (s_g st1) kc).
  { unfold kc, source_ok. cbn [fst snd id_graph id_key]. split; [symmetry; exact (gr_id _ _ G1) |]. rewrite Kp, L1. eexists. split; [reflexivity |]. cbn. lia. }
  assert (Vc : arr st1 (as_edge kc) c).
  { unfold kc. apply ar_const with (k := snd p); [reflexivity |]. unfold kind_of, summing. rewrite Kp, L1. cbn [n_auto_math]. unfold st1. cbn [s_kinds find fst]. rewrite Kp, Nat.eqb_refl. reflexivity. }
  pose proof (carries_grows st st1 _ _ B G1 Ha) as Ha1.
  destruct (math_loop_ok o (map (fun x => (x, kc)) (h_out a)) st1 W1) as (st' & cs & E & G & W & V).
  { intros q Hq. apply in_map_iff in Hq as (x & <- & Hx). cbn [fst snd]. split; [| exact Hc]. clear - Hx Ha1. induction Ha1 as [| d v l vs [Hs _] _ IH]; [destruct Hx |]. destruct Hx as [<- | Hx]; [exact Hs | apply IH; exact Hx]. }
  assert (E0 : math_const F st o a c = r <- math_loop F st1 o (map (fun x => (x, kc)) (h_out a));; h <- cb (length (h_out a)) (snd r);; Some (fst r, mk_handle [] h)) by reflexivity.
  rewrite E0. clear E0.
  rewrite E. cbn [bind fst snd]. pose proof (F2_len _ _ _ V) as Lc. rewrite map_length in Lc. rewrite cb_ok by lia. cbn [bind]. eexists. eexists. split; [reflexivity |]. split; [eapply grows_trans; eauto |]. split; [exact W |]. split; [reflexivity |].
  cbn [h_out]. clear E Lc Ha. revert cs V. induction Ha1 as [| d v l vs [Hs Hv] Ha IH]; intros cs V; cbn [map] in *; inversion V as [| ? e ? cs' [He Hx] V']; subst; constructor; [| apply IH; exact V'].
  split; [exact He |]. cbn [fst snd] in Hx. apply Hx; assumption.
Qed.
Lemma build_ok : forall e st vs, wf (s_g st) -> left_commutes F den e -> means F zero den env st e vs ->
  exists st' h, build F st e = Some (st', h) /\ grows st st' /\ wf (s_g st') /\ carries st' (h_out h) vs.
Proof.
  assert (MG : forall e st st' vs, base_inv (s_g st) -> grows st st' -> means F zero den env st e vs -> means F zero den env st' e vs).
  { induction e as [h | o a IHa b IHb | o a IHa c | o c a IHa]; intros st st' vs B G M; cbn [means] in *.
    - eapply carries_grows; eauto.
    - destruct M as (xs & ys & Ma & Mb & L & ->). exists xs, ys. eauto 6.
    - destruct M as (xs & Ma & ->). exists xs. eauto.
    - destruct M as (xs & Ma & ->). exists xs. eauto. }
  induction e as [h | o a IHa b IHb | o a IHa c | o c a IHa]; intros st vs Hw C M; cbn [means left_commutes build] in *.
  - exists st, h. split; [reflexivity |]. split; [apply grows_refl |]. auto.
  - destruct M as (xs & ys & Ma & Mb & L & ->). destruct C as [Ca Cb]. destruct (IHa st xs Hw Ca Ma) as (st1 & h1 & E1 & G1 & W1 & V1).
    destruct (IHb st1 ys W1 Cb (MG _ _ _ _ (proj1 (proj1 Hw)) G1 Mb)) as (st2 & h2 & E2 & G2 & W2 & V2).
    destruct (math_bin_ok st2 o h1 h2 xs ys W2 (carries_grows _ _ _ _ (proj1 (proj1 W1)) G2 V1) V2 L) as (st3 & h3 & E3 & G3 & W3 & _ & V3).
    exists st3, h3. rewrite E1. cbn [bind fst snd]. rewrite E2. cbn [bind fst snd]. split; [exact E3 |]. split; [eapply grows_trans; [exact G1 |]; eapply grows_trans; eauto |]. auto.
  - destruct M as (xs & Ma & ->). destruct (IHa st xs Hw C Ma) as (st1 & h1 & E1 & G1 & W1 & V1). destruct (math_const_ok st1 o h1 c xs W1 V1) as (st2 & h2 & E2 & G2 & W2 & _ & V2).
    exists st2, h2. rewrite E1. cbn [bind fst snd]. split; [exact E2 |]. split; [eapply grows_trans; eauto |]. auto.
  - destruct M as (xs & Ma & ->). destruct C as [Cc Ca]. destruct (IHa st xs Hw Ca Ma) as (st1 & h1 & E1 & G1 & W1 & V1). destruct (math_const_ok st1 o h1 c xs W1 V1) as (st2 & h2 & E2 & G2 & W2 & _ & V2).
    exists st2, h2. rewrite E1. cbn [bind fst snd]. split; [exact E2 |]. split; [eapply grows_trans; eauto |]. split; [exact W2 |].
    rewrite (map_ext _ (fun x => den o x c)) by (intros x; apply Cc). exact V2.
Qed.
End One.
