(** C17: exactly which plans render their graph. Specification: [SoundSpec], [RenderSpec]. *)
From Verif Require Import Base GraphModel GraphSpec GraphBase GraphPath GraphInv GraphShape GraphRefs GraphClean GraphProps
  OrderModel OrderSpec OrderProofs OrderProps AllocModel AllocProofs PlaceProofs RenderSpec PlanProofs PlanTotal RenderModel
  RenderProofs RenderMain AllocProps SessionModel SessionProofs FeedbackModel RenderProps SoundSpec SoundProofs.
Local Open Scope nat_scope.

(** For every reachable graph without feedback whose connections come from existing outputs, nodes on graph outputs that also feed
    others included: the plan renders the meaning of the graph for all sample types, node behaviours, states, inputs and block
    counts if and only if the plan is sound. *)
Theorem C17_exactly_sound_plans : forall bs g a old a1 td, reachable g -> refs_ok g -> (N.of_nat (links g) < usize_max)%N ->
  (forall k c e, in_edge g k c = Some e -> e_fb e = false) -> 0 < bs -> plan g bs a old = Some (a1, td) ->
  (sound_plan g bs td <->
   forall F zero St proc gins m st m' st' outs, (forall x, x < bs -> m x = zero) ->
     render_n F zero St proc bs td gins (m, st) = (m', st', outs) -> plays F zero St proc bs g gins st outs).
Proof.
  intros bs g a old a1 td Hreach Hrefs Hl Hfb Hbs Hp. pose proof (reachable_wf g Hreach) as Hw.
  assert (Hg : forward_graph g) by (constructor; assumption). split.
  - intros Hs F zero St proc gins m st m' st' outs Hm H. exact (proj2 (sound_blocks F zero St proc bs g a old a1 td Hg Hbs Hp Hs gins m st m' st' outs Hm H)).
  - intros H. destruct (plan_placed g bs a old a1 td Hw Hrefs Hbs Hl Hp) as (order & off & Ho & _ & Ht & Htd & Hoe).
    destruct (order_once g order Hw Ho) as [Hnd _].
    set (gin := fun _ : nat => repeat Silent bs). set (m := fun _ : nat => Silent). set (st := fun _ : key => tt).
    destruct (render trace Silent unit tracer bs td gin (m, st)) as [[m1 st1] o] eqn:E.
    assert (P : plays trace Silent unit tracer bs g [gin] st [o]).
    { apply (H trace Silent unit tracer [gin] m st m1 st1 [o]); [reflexivity|]. cbn [render_n]. rewrite E. reflexivity. }
    inversion P as [|? ? ? st2 V ? HV _ _ E1 E2 [E3 E4]]; subst.
    eapply (render_sound bs Hbs g gin st order off (td_tasks td) Hnd Hrefs Ht m (fun _ => eq_refl) V td eq_refl Htd Hfb Hoe).
    + intros k Hk. pose proof Ho as Ho'. unfold node_order in Ho'. destruct (node_order2 g) as [[o1 o2]|] eqn:En; cbn in Ho'; [|discriminate].
      injection Ho' as <-. apply in_or_app. left. eapply heard_connected; eauto.
    + exact HV.
    + exact (f_equal snd E).
Qed.
Print Assumptions C17_exactly_sound_plans.

(** The graphs of [C17_blocks_partial] have sound plans. *)
Theorem C17_plain_graphs_sound : forall bs g a old a1 td, plain_graph g -> 0 < bs -> plan g bs a old = Some (a1, td) -> sound_plan g bs td.
Proof.
  intros bs g a old a1 td Hg Hbs Hp. pose proof Hg as (Hreach & Hrefs & Hl & Hfb & _).
  apply (C17_exactly_sound_plans bs g a old a1 td Hreach Hrefs Hl Hfb Hbs Hp).
  intros F zero St proc gins m st m' st' outs Hm H. eapply C17_blocks_partial; eauto.
Qed.
Print Assumptions C17_plain_graphs_sound.

(** ** cases *)
(** a check of [sound_plan] *)
Fixpoint order_b (g : graph) (seen : list key) (ts : list task) : bool :=
  match ts with [] => true | t :: ts => forallb (fun s => mem s seen) (sources g (t_key t)) && order_b g (t_key t :: seen) ts end.
Fixpoint kept_b (bs c : nat) (s : key) (ts : list task) : bool :=
  match ts with
  | [] => true
  | t :: ts => (if t_key t =? s then forallb (fun t' => (t_out t + c * bs + bs <=? t_out t') || (t_out t' + t_outs t' * bs <=? t_out t + c * bs)) ts
                else true) && kept_b bs c s ts
  end.
Definition sound_b (g : graph) (bs : nat) (td : task_data) : bool :=
  order_b g [] (td_tasks td) &&
  forallb (fun o => match o with Some e => match e_src e with Some s => kept_b bs (e_chan e) s (td_tasks td) | None => true end | None => true end) (g_outs g).
Lemma sound_b_ok g bs td : sound_b g bs td = true -> sound_plan g bs td.
Proof.
  intros H. apply andb_prop in H as [H1 H2]. split.
  - intros k _ l1 l2 s E Hs.
    assert (Hsrc : In s (sources g k)).
    { apply sources_spec. destruct Hs as [(c & e & He & Hs & _)|Hs]; [left; exists c, e; auto|right; exact Hs]. }
    assert (Hgen : forall ts seen l1, order_b g seen ts = true -> map t_key ts = l1 ++ k :: l2 -> In s l1 \/ In s seen).
    { clear - Hsrc. induction ts as [|t ts IH]; intros seen l1 H E; cbn [map] in E; [destruct l1; discriminate|].
      cbn [order_b] in H. apply andb_prop in H as [Ha Hb]. destruct l1 as [|x l1]; cbn [app] in E; injection E as Ex E.
      - right. rewrite forallb_forall in Ha. rewrite Ex in Ha. apply mem_In. apply Ha. exact Hsrc.
      - destruct (IH _ _ Hb E) as [Hl|[Hl|Hl]]; [left; right; exact Hl|left; left; congruence|right; exact Hl]. }
    destruct (Hgen _ _ _ H1 E) as [Hl|[]]. exact Hl.
  - intros c e s He Hs l1 t l2 E Ek t' i Ht' Hi Hw.
    rewrite forallb_forall in H2. assert (Hin : In (Some e) (g_outs g)).
    { unfold out_edge in He. destruct (nth_error (g_outs g) c) as [o|] eqn:Ec; [subst o; eapply nth_error_In; exact Ec|discriminate]. }
    specialize (H2 _ Hin). cbv beta iota in H2. rewrite Hs, E in H2. clear - H2 Ek Ht' Hi Hw.
    induction l1 as [|a l1 IH]; cbn [app kept_b] in H2; apply andb_prop in H2 as [H2 H3]; [|apply IH; exact H3].
    rewrite Ek, Nat.eqb_refl, forallb_forall in H2. specialize (H2 t' Ht'). unfold writes in Hw.
    apply orb_prop in H2 as [H2|H2]; apply Nat.leb_le in H2; lia.
Qed.
(** Dry and wet: a source goes to output 0 and through an effect to output 1. The source feeds an output and another node. *)
Definition wet_ops : list op :=
  [ OpPush 0 1 [] false; OpPush 1 1 [] false; OpConnect (nd 0) 0 0 (nd 1) true false;
    OpConnect (nd 0) 0 0 NGraph true false; OpConnect (nd 1) 0 1 NGraph true false ].
Definition wet_g : graph := match run (graph_new 7 0 2 [0; 1]) wet_ops with Some g => g | None => ex_start end.
Example C17_dry_wet : exists a1 td, reachable wet_g /\ refs_ok wet_g /\ (N.of_nat (links wet_g) < usize_max)%N /\
  (forall k c e, in_edge wet_g k c = Some e -> e_fb e = false) /\ feeds_output wet_g 0 /\ depends wet_g 0 1 /\
  plan wet_g 2 (alloc_new 8) (fun _ => false) = Some (a1, td) /\ sound_plan wet_g 2 td.
Proof.
  assert (Hp : plain_run (graph_new 7 0 2 [0; 1]) wet_ops wet_g).
  { unfold wet_ops. do 5 (eapply plain_cons; [first [exact I|split; [reflexivity|live_tac]]|vm_compute; reflexivity|]).
    vm_compute. constructor. }
  destruct (plan wet_g 2 (alloc_new 8) (fun _ => false)) as [[a1 td]|] eqn:Ep; [|vm_compute in Ep; discriminate].
  exists a1, td. split; [exists 7%N, 0, 2, [0; 1], wet_ops; vm_compute; reflexivity|].
  split; [exact (proj1 (plain_run_refs _ _ _ Hp (graph_new_wf _ _ _ _) (graph_new_refs _ _ _ _)))|]. split; [vm_compute; reflexivity|].
  split.
  { intros k c e. do 2 (destruct k as [|k]; [do 3 (destruct c as [|c]; [vm_compute; try discriminate; intros H; injection H as <-; reflexivity|]);
      vm_compute; destruct c; discriminate|]). vm_compute. discriminate. }
  split; [exists 0; eexists; split; vm_compute; reflexivity|].
  split; [left; exists 0; eexists; split; vm_compute; reflexivity|]. split; [reflexivity|].
  apply sound_b_ok. vm_compute in Ep. injection Ep as <- <-. vm_compute. reflexivity.
Qed.
(** The chain of [C17_output_reuse_refuted] has a plan that is not sound. *)
Example C17_chain_unsound : exists a1 td, plan chain_g 2 (alloc_new 8) (fun _ => false) = Some (a1, td) /\ ~ sound_plan chain_g 2 td.
Proof.
  destruct (plan chain_g 2 (alloc_new 8) (fun _ => false)) as [[a1 td]|] eqn:Ep; [|vm_compute in Ep; discriminate].
  exists a1, td. split; [reflexivity|]. vm_compute in Ep. injection Ep as <- <-. intros [_ H].
  refine (H 1 _ 0 _ _ [] _ _ eq_refl _ _ 0 (or_intror (or_introl eq_refl)) _ _); [vm_compute; reflexivity|reflexivity|reflexivity|lia|].
  unfold writes. cbn. lia.
Qed.
