(** Property C71: nodes on the shared memory of a graph. Specification: [RawSpec], [RenderSpec]. *)
From Verif Require Import Base GraphModel GraphSpec GraphBase GraphPath GraphInv GraphShape GraphRefs GraphClean GraphProps
  OrderModel OrderSpec OrderProofs OrderProps AllocModel AllocProofs PlaceProofs RenderSpec PlanProofs PlanTotal RenderModel
  RenderProofs RenderMain AllocProps SessionModel SessionProofs FeedbackModel RenderProps SoundSpec SoundProofs SoundProps RawModel RawSpec RawProofs.
Local Open Scope nat_scope.

(** Whatever a node does, it changes nothing outside of its own output *)
Theorem C71_confined : forall F St bs size gin ins pars out outs p m r, 0 < bs -> raw_run F St bs size gin ins pars out outs p m = Some r ->
  forall x, x < out \/ out + outs * bs <= x -> snd r x = m x.
Proof. intros F St bs size gin ins pars out outs p m r Hbs H. exact (raw_confined F St bs size Hbs gin p ins pars out outs m r H). Qed.
Print Assumptions C71_confined.

(** A node with an output of its own can not tell that the memory is shared, in whatever order it reads and writes: it panics
    when it would on blocks of its own, and leaves the same state and the same output *)
Theorem C71_isolated : forall F St bs size gin t p m, 0 < bs -> isolated bs t ->
  (forall a, In (IBuf a) (t_ins t) -> a + bs <= size) -> (forall c, In (IGraph c) (t_ins t) -> List.length (gin c) = bs) ->
  (forall q, In q (t_pars t) -> snd q + bs <= size) -> t_out t + t_outs t * bs <= size ->
  match own_run bs (map (read_src F bs m gin) (t_ins t)) (map (read F bs m) (map snd (t_pars t))) (t_outs t) p (fun c f => m (t_out t + c * bs + f)) with
  | None => raw_run F St bs size gin (t_ins t) (map snd (t_pars t)) (t_out t) (t_outs t) p m = None
  | Some r => exists m', raw_run F St bs size gin (t_ins t) (map snd (t_pars t)) (t_out t) (t_outs t) p m = Some (fst r, m') /\
      forall c f, c < t_outs t -> f < bs -> m' (t_out t + c * bs + f) = snd r c f
  end.
Proof.
  intros F St bs size gin t p m Hbs [I1 I2] H1 H2 H3 H4.
  assert (T : there F bs size gin (t_ins t) (map snd (t_pars t)) (t_out t) (t_outs t)).
  { split; [| split; [| exact H4]]; [intros [a | c] Hi; auto |]. intros a Ha. apply in_map_iff in Ha as (q & <- & Hq). auto. }
  assert (I3 : forall a, In a (map snd (t_pars t)) -> separate a bs (t_out t) (t_outs t * bs)) by (intros a Ha; apply in_map_iff in Ha as (q & <- & Hq); auto).
  pose proof (raw_own F St bs size Hbs gin _ _ _ _ T I1 I3 m p m (fun c f => m (t_out t + c * bs + f)) (conj (fun x _ => eq_refl) (fun c f _ _ => eq_refl))) as Q.
  destruct (own_run bs _ _ _ p _) as [r |]; [| exact Q]. destruct Q as (m' & E & [_ L]). exists m'. auto.
Qed.
Print Assumptions C71_isolated.

(** With a sound plan (every plain graph has one, [C17_plain_graphs_sound]) every node that is heard has an output of its own *)
Theorem C71_apart_partial : forall g bs a old a1 td t, reachable g -> refs_ok g -> (N.of_nat (links g) < usize_max)%N ->
  (forall k c e, in_edge g k c = Some e -> e_fb e = false) -> 0 < bs -> plan g bs a old = Some (a1, td) -> sound_plan g bs td -> In t (td_tasks td) ->
  heard g (t_key t) -> isolated bs t.
Proof. intros g bs a old a1 td t Hr Hrefs Hl Hfb. exact (heard_isolated g bs a old a1 td t (Build_forward_graph g (reachable_wf g Hr) Hrefs Hl Hfb)). Qed.
Print Assumptions C71_apart_partial.

(** Any number of blocks, the nodes reading and writing sample by sample: no assertion fails, nothing is accessed outside of the
    allocation, and what is heard is what evaluating the nodes along the connections gives. The code of a node only has to stay
    within its blocks and to leave an output that does not depend on what was there.
    Missing: plans that are not sound (see C17 and below), which plain graphs do not have ([C17_plain_graphs_sound]). *)
Theorem C71_blocks_partial : forall F (zero : F) St (code : key -> St -> prog F St) bs g a old a1 td, reachable g -> refs_ok g -> (N.of_nat (links g) < usize_max)%N ->
  (forall k c e, in_edge g k c = Some e -> e_fb e = false) -> 0 < bs -> plan g bs a old = Some (a1, td) -> sound_plan g bs td ->
  (forall k n es ps s, lookup g k = Some n -> edges_of g k = Some es -> pedges_of g k = Some ps ->
    fits bs (List.length es) (List.length ps) (n_outputs n) (code k s) /\ covers bs (List.length es) (List.length ps) (n_outputs n) (code k s)) ->
  forall gins m st, Forall (fun gin => forall c, c < g_inputs g -> List.length (gin c) = bs) gins -> (forall x, x < bs -> m x = zero) ->
  exists ms outs, raw_render_n F St bs (a_size a1) zero code td gins (m, st) = Some (ms, outs) /\
    plays F zero St (fun k s ins pars => computed bs zero (nouts g k) (code k s) s ins pars) bs g gins st outs.
Proof.
  intros F zero St code bs g a old a1 td Hr Hrefs Hl Hfb Hbs Hp Hs Hc gins m st Hi Hm.
  exact (raw_blocks F St zero bs g code Hc a old a1 td (Build_forward_graph g (reachable_wf g Hr) Hrefs Hl Hfb) Hbs Hp Hs gins m st Hi Hm).
Qed.
Print Assumptions C71_blocks_partial.

(** The default block code, frame by frame, is such code, for every generator; what it computes are the frames one by one *)
Theorem C71_frames : forall F (zero : F) St step ins pars outs bs s, (forall s xs qs, List.length (snd (step s xs qs)) = outs) ->
  fits bs ins pars outs (frame_loop F St step ins pars bs 0 s) /\ covers bs ins pars outs (frame_loop F St step ins pars bs 0 s) /\
  forall ls qs, List.length ls = ins -> List.length qs = pars -> Forall (fun l => List.length l = bs) ls -> Forall (fun q => List.length (snd q) = bs) qs ->
  let r := computed bs zero outs (frame_loop F St step ins pars bs 0 s) s ls qs in let q := in_frames step zero s ls (map snd qs) bs 0 in
  fst r = fst q /\ forall c i, c < outs -> i < bs -> snd r c i = nth c (nth i (snd q) []) zero.
Proof.
  intros F zero St step ins pars outs bs s H. split; [| split].
  - apply frames_fit; [exact H | lia].
  - exact (frames_cover F St zero bs step ins pars outs H s).
  - intros ls qs. exact (frames_computed F St zero bs step ins pars outs H s s ls qs).
Qed.
Print Assumptions C71_frames.

(** The graph of [C17_case]: two counters, summed, and a node that adds its two inputs, one not connected *)
Definition ex71_step (k : key) (s : nat) (xs _ : list nat) : nat * list nat := if k <? 2 then (S s, [s]) else (s, [fold_right Nat.add 0 xs]).
Definition ex71_code (k : key) (s : nat) : prog nat nat := frame_loop nat nat (ex71_step k) (if k <? 2 then 0 else 2) 0 2 0 s.
Lemma ex71_well : forall k n es ps s, lookup ex17_g k = Some n -> edges_of ex17_g k = Some es -> pedges_of ex17_g k = Some ps ->
  fits 2 (List.length es) (List.length ps) (n_outputs n) (ex71_code k s) /\ covers 2 (List.length es) (List.length ps) (n_outputs n) (ex71_code k s).
Proof.
  intros k n es ps s H1 H2 H3. assert (S : List.length es = (if k <? 2 then 0 else 2) /\ List.length ps = 0 /\ n_outputs n = 1).
  { revert H1 H2 H3. do 4 (destruct k as [| k]; [vm_compute; intros H1 H2 H3; injection H1 as <-; injection H2 as <-; injection H3 as <-; repeat split |]). vm_compute. discriminate. }
  destruct S as (-> & -> & ->). unfold ex71_code. destruct (C71_frames nat 0 nat (ex71_step k) (if k <? 2 then 0 else 2) 0 1 2 s) as (A & B & _); [| split; [exact A | exact B]].
  intros s' xs qs. unfold ex71_step. destruct (k <? 2); reflexivity.
Qed.
Example C71_case : plain_graph ex17_g /\ match plan ex17_g 2 (alloc_new 8) (fun _ => false) with
  | Some (a1, td) => match raw_render_n nat nat 2 (a_size a1) 0 ex71_code td [(fun _ => [8; 9]); (fun _ => [8; 9])] (fun _ => 0, fun k => 10 * k) with
      | Some (_, outs) => outs = [[[10; 12]; [0; 0]]; [[14; 16]; [0; 0]]] | None => False end
  | None => False end.
Proof. split; [exact (proj1 C17_case) | vm_compute; reflexivity]. Qed.

(** False for nodes that are not heard: node 2 runs before its source 0, which is given the memory of node 2 (read by node 1 by then).
    The input of node 2 is its own output: a shared and a mutable slice of the same samples, undefined behaviour *)
Definition unheard_ops : list op := [ OpPush 0 1 [] false; OpPush 1 1 [] false; OpPush 1 1 [] false;
  OpConnect (nd 0) 0 0 (nd 2) true false; OpConnect (nd 2) 0 0 (nd 1) true false].
Theorem C71_unheard_alias_refuted : exists g a1 td t, plain_run (graph_new 7 0 1 [0; 0; 0]) unheard_ops g /\ ~ has_cycle g /\
  plan g 2 (alloc_new 8) (fun _ => false) = Some (a1, td) /\ In t (td_tasks td) /\ t_key t = 2 /\ t_ins t = [IBuf (t_out t)] /\ t_outs t = 1 /\ ~ isolated 2 t.
Proof.
  assert (E : exists g, plain_run (graph_new 7 0 1 [0; 0; 0]) unheard_ops g /\ run (graph_new 7 0 1 [0; 0; 0]) unheard_ops = Some g).
  { eexists. split; [| vm_compute; reflexivity]. unfold unheard_ops. do 5 (eapply plain_cons; [first [exact I | split; [reflexivity | live_tac]] | vm_compute; reflexivity |]). vm_compute. constructor. }
  destruct E as (g & E1 & E2). exists g. destruct (plan g 2 (alloc_new 8) (fun _ => false)) as [[a1 td] |] eqn:Ep; [| vm_compute in E2; injection E2 as <-; vm_compute in Ep; discriminate].
  exists a1, td. eexists. split; [exact E1 |]. split; [apply C08_never_cyclic; exists 7%N, 0, 1, [0; 0; 0], unheard_ops; exact E2 |]. split; [reflexivity |].
  vm_compute in E2. injection E2 as <-. vm_compute in Ep. injection Ep as <- <-. split; [left; reflexivity |]. repeat split. intros [H _]. apply (H 2 (or_introl eq_refl) 2); cbn; lia.
Qed.
Print Assumptions C71_unheard_alias_refuted.

(** False for a node that modulates itself: the parameter is read from its own output. Code that fills one channel after the other
    puts the samples of this block on channel 1, not those that were there *)
Definition self_ops : list op := [ OpPush 0 2 ["freq"%string] false; OpConnectParam (mk_id 0 7) 0 (PDesc "freq"%string) (mk_id 0 7) true;
  OpConnect (nd 0) 0 0 NGraph true false; OpConnect (nd 0) 1 1 NGraph true false ].
Definition self_code (_ : key) (s : nat) : prog nat nat :=
  Wr 0 0 5 (Wr 0 1 5 (RdPar 0 0 (fun x => Wr 1 0 x (RdPar 0 1 (fun y => Wr 1 1 y (Done s)))))).
Theorem C71_self_modulation_refuted : exists g a1 td t, run (graph_new 7 0 2 [0]) self_ops = Some g /\ heard g 0 /\
  plan g 2 (alloc_new 8) (fun _ => false) = Some (a1, td) /\ td_tasks td = [t] /\ ~ isolated 2 t /\
  (forall s, fits 2 0 1 2 (self_code 0 s) /\ covers 2 0 1 2 (self_code 0 s)) /\
  exists ms, raw_render nat nat 2 (a_size a1) no_in 0 self_code td (fun _ => 0, fun _ => 0) = Some (ms, [[5; 5]; [5; 5]]) /\
  snd (render nat 0 nat (node_proc nat nat 0 2 g self_code) 2 td no_in (fun _ => 0, fun _ => 0)) = [[5; 5]; [0; 0]].
Proof.
  destruct (run (graph_new 7 0 2 [0]) self_ops) as [g |] eqn:E; [| vm_compute in E; discriminate]. destruct (plan g 2 (alloc_new 8) (fun _ => false)) as [[a1 td] |] eqn:Ep;
    [| vm_compute in E; injection E as <-; vm_compute in Ep; discriminate].
  exists g, a1, td. vm_compute in E. injection E as <-. vm_compute in Ep. injection Ep as <- <-. eexists. split; [reflexivity |].
  split; [exists 0; split; [exists 0; eexists; split; vm_compute; reflexivity | apply rt_refl] |]. split; [vm_compute; reflexivity |]. split; [reflexivity |].
  split; [intros [_ H]; eapply (H _ (or_introl eq_refl) 2); cbn; lia |]. split.
  - intros s. split; [cbn; repeat split; lia |]. intros ls ps o1 o2 r1 r2 L1 L2 F1 F2. destruct ps as [| p [|]]; try discriminate L2. inversion F2 as [| ? ? F3 _]; subst.
    destruct p as [| x [| y [|]]]; try discriminate F3. cbn. intros H1 H2. injection H1 as <-. injection H2 as <-. split; [reflexivity |]. intros [| [| c]] [| [| f]] Hc Hf; try lia; reflexivity.
  - eexists. split; vm_compute; reflexivity.
Qed.
Print Assumptions C71_self_modulation_refuted.
