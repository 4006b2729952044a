(** Properties C17, C18 and C20: rendering. Specification: [RenderSpec], [OrderSpec]. *)
From Verif Require Import Base GraphModel GraphSpec GraphBase GraphPath GraphInv GraphShape GraphRefs GraphClean GraphProps
  OrderModel OrderSpec OrderProofs OrderProps AllocModel AllocProofs PlaceProofs RenderSpec PlanProofs PlanTotal RenderModel
  RenderProofs RenderMain AllocProps SessionModel SessionProofs FeedbackModel.
Local Open Scope nat_scope.

(** ** C17 *)
(** The conditions on the graph: connections come from existing outputs and are not feedback, no node
    modulates itself through parameter links, and a node connected to a graph output feeds nothing else. *)
Definition plain_graph (g : graph) : Prop :=
  reachable g /\ refs_ok g /\ (N.of_nat (links g) < usize_max)%N /\
  (forall k c e, in_edge g k c = Some e -> e_fb e = false) /\ (forall k, ~ upstream g k k) /\
  (forall s k, feeds_output g s -> ~ depends g s k).
Lemma plain_renderable g : plain_graph g -> renderable g.
Proof. intros (Hg & Hr & Hl & Hf & Ha & He). constructor; auto. exact (reachable_wf g Hg). Qed.

(** Any number of blocks, whatever the nodes do and whatever the buffers contain: what comes out is what
    evaluating the nodes along the connections gives.  Missing: graphs with feedback or where an output node
    also feeds other nodes (false there, see below). *)
Theorem C17_blocks_partial : forall F zero St proc bs g a old a1 td, plain_graph g -> 0 < bs ->
  plan g bs a old = Some (a1, td) ->
  forall gins m st m' st' outs, (forall x, x < bs -> m x = zero) ->
  render_n F zero St proc bs td gins (m, st) = (m', st', outs) ->
  plays F zero St proc bs g gins st outs.
Proof.
  intros F zero St proc bs g a old a1 td Hg Hbs Hp gins m st m' st' outs Hm H.
  exact (proj2 (render_blocks F zero St proc bs g a old a1 td (plain_renderable g Hg) Hbs Hp gins m st m' st' outs Hm H)).
Qed.
Print Assumptions C17_blocks_partial.
(** One block, in full: it is the only evaluation there is, and the states of the heard nodes follow it. *)
Theorem C17_block_partial : forall F zero St proc bs g a old a1 td, plain_graph g -> 0 < bs ->
  plan g bs a old = Some (a1, td) ->
  forall gin m st m' st' out, (forall x, x < bs -> m x = zero) ->
  render F zero St proc bs td gin (m, st) = (m', st', out) ->
  (exists V, forall k, heard g k -> solves F zero St proc bs g gin st V k) /\
  forall V, (forall k, heard g k -> solves F zero St proc bs g gin st V k) ->
    out = map (signal F zero bs gin V) (g_outs g).
Proof.
  intros F zero St proc bs g a old a1 td Hg Hbs Hp gin m st m' st' out Hm H.
  pose proof (plain_renderable g Hg) as Hr.
  destruct (render_block F zero St proc bs g a old a1 td gin m st m' st' out Hr Hbs Hp Hm H) as (_ & V0 & H1 & _ & ->).
  split; [eauto|]. intros V HV.
  exact (proj2 (solution_unique F zero St proc bs g a old a1 td gin st Hr Hbs Hp V0 V H1 HV)).
Qed.
Print Assumptions C17_block_partial.

(** A sum of two sources, through a third node, to the output. *)
Definition ex17_ops : list op :=
  [ OpPush 0 1 [] false; OpPush 0 1 [] false; OpPush 2 1 [] false;
    OpConnect (nd 0) 0 0 (nd 2) true false; OpConnect (nd 1) 0 0 (nd 2) true false;
    OpConnect (nd 2) 0 0 NGraph true false ].
Definition ex17_g : graph := match run ex_start ex17_ops with Some g => g | None => ex_start end.
Lemma ex17_plain_run : plain_run ex_start ex17_ops ex17_g.
Proof.
  unfold ex17_ops. do 6 (eapply plain_cons; [first [exact I|split; [reflexivity|live_tac]]|vm_compute; reflexivity|]).
  vm_compute. constructor.
Qed.
Lemma ex17_no_par : forall s k, ~ par_feeds ex17_g s k.
Proof.
  intros s k (n & ps & p & El & E & Hin & _). revert n ps E Hin El.
  do 4 (destruct k as [|k]; [intros n ps E Hin; vm_compute; intros El; injection El as <-; cbn in E; injection E as <-; destruct Hin|]).
  intros n ps _ _. vm_compute. discriminate.
Qed.
Example C17_case : plain_graph ex17_g /\ (exists r, plan ex17_g 2 (alloc_new 8) (fun _ => false) = Some r) /\ heard ex17_g 0.
Proof.
  assert (Hr : refs_ok ex17_g) by exact (proj1 (plain_run_refs _ _ _ ex17_plain_run (graph_new_wf _ _ _ _) (graph_new_refs _ _ _ _))).
  assert (Hre : reachable ex17_g) by (exists 7%N, 1, 2, [0; 0], ex17_ops; vm_compute; reflexivity).
  assert (Hfb : forall k c e, in_edge ex17_g k c = Some e -> e_fb e = false).
  { intros k c e. do 4 (destruct k as [|k]; [do 3 (destruct c as [|c]; [vm_compute; try discriminate; intros H; injection H as <-; reflexivity|]);
      vm_compute; destruct c; discriminate|]). vm_compute. discriminate. }
  split; [|split].
  - split; [exact Hre|]. split; [exact Hr|]. split; [vm_compute; reflexivity|]. split; [exact Hfb|]. split.
    + intros k Hk. apply (C08_never_cyclic ex17_g Hre). exists k. revert Hk. unfold upstream. generalize k at 2 4. intros k'.
      clear Hr Hre. induction 1 as [x y [(c & e & H1 & H2 & _)|H]|x y z _ IH1 _ IH2].
      * apply t_step. exists c, e. auto.
      * exfalso. exact (ex17_no_par _ _ H).
      * eapply t_trans; eauto.
    + intros s k (c & e & He & Hs) [(d & e' & He' & Hs')|H]; [|exact (ex17_no_par _ _ H)].
      assert (s = 2). { destruct c as [|[|c]]; vm_compute in He; try discriminate; [|destruct c; discriminate].
        injection He as <-. cbn in Hs. congruence. }
      subst s. revert He' Hs'. do 4 (destruct k as [|k]; [do 3 (destruct d as [|d]; [vm_compute; intros H; try discriminate H; injection H as <-; cbn; congruence|]);
        vm_compute; destruct d; discriminate|]). vm_compute. discriminate.
  - eexists. vm_compute. reflexivity.
  - exists 2. split; [exists 0; eexists; split; vm_compute; reflexivity|].
    apply rt_trans with (y := 3); apply rt_step; left; exists 0; eexists; repeat split; vm_compute; reflexivity.
Qed.

(** False when a node connected to a graph output also feeds other nodes.  Nodes 0 -> 1 -> 2 -> 3, node 3 to
    output 0 and node 0 to output 1; node [k] outputs the constant [k+1].  Output 1 carries the signal of
    node 2, which was given the memory of node 0: graph outputs are not counted as readers. *)
Definition chain_ops : list op :=
  [ OpPush 0 1 [] false; OpPush 1 1 [] false; OpPush 1 1 [] false; OpPush 1 1 [] false;
    OpConnect (nd 0) 0 0 (nd 1) true false; OpConnect (nd 1) 0 0 (nd 2) true false; OpConnect (nd 2) 0 0 (nd 3) true false;
    OpConnect (nd 3) 0 0 NGraph true false; OpConnect (nd 0) 0 1 NGraph true false ].
Definition const_proc (k : key) (st : unit) (_ : list (list nat)) (_ : list (N * list nat)) : unit * (nat -> nat -> nat) :=
  (st, fun _ _ => S k).
Definition chain_g : graph := match run (graph_new 7 0 2 [0; 1; 2; 3]) chain_ops with Some g => g | None => ex_start end.
Definition no_in (_ : nat) : list nat := [].
Theorem C17_output_reuse_refuted : exists g a1 td m' st' out,
  plain_run (graph_new 7 0 2 [0; 1; 2; 3]) chain_ops g /\ ~ has_cycle g /\ (forall k c e, in_edge g k c = Some e -> e_fb e = false) /\
  plan g 2 (alloc_new 8) (fun _ => false) = Some (a1, td) /\
  render nat 0 unit const_proc 2 td no_in (fun _ => 0, fun _ => tt) = (m', st', out) /\
  out = [[4; 4]; [3; 3]] /\
  forall V, (forall k, heard g k -> solves nat 0 unit const_proc 2 g no_in (fun _ => tt) V k) ->
    map (signal nat 0 2 no_in V) (g_outs g) = [[4; 4]; [1; 1]].
Proof.
  assert (Hp : plain_run (graph_new 7 0 2 [0; 1; 2; 3]) chain_ops chain_g).
  { unfold chain_ops. do 9 (eapply plain_cons; [first [exact I|split; [reflexivity|live_tac]]|vm_compute; reflexivity|]).
    vm_compute. constructor. }
  destruct (plan chain_g 2 (alloc_new 8) (fun _ => false)) as [[a1 td]|] eqn:Ep; [|vm_compute in Ep; discriminate].
  destruct (render nat 0 unit const_proc 2 td no_in (fun _ => 0, fun _ => tt)) as [[m' st'] out] eqn:Er.
  exists chain_g, a1, td, m', st', out. split; [exact Hp|]. split.
  { apply C08_never_cyclic. exists 7%N, 0, 2, [0; 1; 2; 3], chain_ops. vm_compute. reflexivity. }
  split.
  { intros k c e. do 4 (destruct k as [|k]; [do 3 (destruct c as [|c]; [vm_compute; try discriminate; intros H; injection H as <-; reflexivity|]);
      vm_compute; destruct c; discriminate|]). vm_compute. discriminate. }
  split; [exact Ep|]. split; [exact Er|]. split.
  { vm_compute in Ep. injection Ep as <- <-. vm_compute in Er. injection Er as _ _ <-. reflexivity. }
  intros V HV.
  assert (H0 : heard chain_g 0) by (exists 0; split; [exists 1; eexists; split; vm_compute; reflexivity|apply rt_refl]).
  assert (H3 : heard chain_g 3) by (exists 3; split; [exists 0; eexists; split; vm_compute; reflexivity|apply rt_refl]).
  apply HV in H0. apply HV in H3.
  destruct H0 as (n0 & r0 & L0 & (es0 & ps0 & _ & _ & ->) & S0). destruct H3 as (n3 & r3 & L3 & (es3 & ps3 & _ & _ & ->) & S3).
  vm_compute in L0. injection L0 as <-. vm_compute in L3. injection L3 as <-. cbn [n_outputs const_proc snd] in S0, S3.
  change (g_outs chain_g) with (g_outs chain_g). unfold signal, chan. vm_compute (g_outs chain_g). cbn [map e_src e_chan seq].
  rewrite !S0, !S3 by lia. reflexivity.
Qed.
Print Assumptions C17_output_reuse_refuted.

(** In a session, no edit and no commit touches the states of the nodes. *)
Theorem C17_edits_keep_states : forall F zero St proc bs s o s' out,
  session_step F zero St proc bs s (SEdit F o) = Some (s', out) -> s_st _ _ s' = s_st _ _ s /\ out = [].
Proof.
  intros F zero St proc bs s o s' out H.
  assert (D : (exists fl, o = OpCommit fl) \/ (gr <- step (s_graph _ _ s) o ;;
      Some (mk_session F St (fst gr) (s_alloc _ _ s) (s_old _ _ s) (s_td _ _ s) (s_mem _ _ s) (s_st _ _ s) (s_planned _ _ s), @nil (list F))) = Some (s', out)).
  { destruct o; cbn [session_step] in H; try (right; exact H). left. eauto. }
  destruct D as [[fl ->]|D].
  - cbn [session_step] in H. destruct (session_commit F zero St bs s (fun f => existsb (Nat.eqb f) fl)) as [s1|] eqn:C; [|discriminate H]. injection H as <- <-. split; [|reflexivity].
    unfold session_commit in C. destruct (free_old (fun f => existsb (Nat.eqb f) fl) (s_graph _ _ s)) as [g1|]; [cbn [bind] in C|discriminate C].
    destruct (g_recalc g1); [|injection C as <-; reflexivity]. destruct (plan g1 bs (s_alloc _ _ s) (s_old _ _ s)) as [[a1 td]|]; [|discriminate C]. injection C as <-. reflexivity.
  - destruct (step (s_graph _ _ s) o) as [gr|]; [|discriminate D]. injection D as <- <-. split; reflexivity.
Qed.
Print Assumptions C17_edits_keep_states.
(** So from a commit of a plain graph on, in any session, the blocks are those of that graph, starting in the states the nodes had
    before the commit. Missing: as in [C17_blocks_partial]. *)
Theorem C17_after_commit_partial : forall F zero St proc bs s applied g1 s1 gins m' st' outs, in_session F zero St proc bs s -> 0 < bs ->
  free_old applied (s_graph _ _ s) = Some g1 -> g_recalc g1 = true -> plain_graph g1 -> session_commit F zero St bs s applied = Some s1 ->
  render_n F zero St proc bs (s_td _ _ s1) gins (s_mem _ _ s1, s_st _ _ s1) = (m', st', outs) ->
  plays F zero St proc bs g1 gins (s_st _ _ s) outs.
Proof.
  intros F zero St proc bs s applied g1 s1 gins m' st' outs Hs Hbs Hf Hr Hg C R. destruct (session_inv F zero St proc bs s Hs) as (_ & Hm & _).
  unfold session_commit in C. rewrite Hf in C. cbn [bind] in C. rewrite Hr in C. destruct (plan g1 bs (s_alloc _ _ s) (s_old _ _ s)) as [[a1 td]|] eqn:P; [|discriminate C].
  injection C as <-. cbn [s_td s_mem s_st] in R. refine (C17_blocks_partial F zero St proc bs g1 _ _ a1 td Hg Hbs P gins _ _ m' st' outs _ R).
  intros x Hx. destruct (a_size a1 =? a_size (s_alloc _ _ s)); [apply Hm; exact Hx|reflexivity].
Qed.
Print Assumptions C17_after_commit_partial.

(** ** C18 *)
(** In every block of every session of edits, commits and blocks: while the tasks of the last commit run, an
    input that was unconnected in the graph committed reads zeros, and an unconnected graph output is zero. *)
Theorem C18_unconnected_input : forall F zero St proc bs s gin ts1 t ts2 m st es c,
  in_session F zero St proc bs s -> td_tasks (s_td _ _ s) = ts1 ++ t :: ts2 ->
  run_tasks F St proc bs gin ts1 (s_mem _ _ s, s_st _ _ s) = (m, st) ->
  edges_of (s_planned _ _ s) (t_key t) = Some es -> nth_error es c = Some None ->
  exists i, nth_error (t_ins t) c = Some i /\ read_src F bs m gin i = repeat zero bs.
Proof.
  intros F zero St proc bs s gin ts1 t ts2 m st es c Hs Hts Hrun He Hc.
  destruct (session_inv F zero St proc bs s Hs) as (_ & Hm & Hsp & Hpl).
  assert (Hsil : silent F zero bs m).
  { pose proof (tasks_silent F zero St proc bs gin ts1) as H. specialize (H ltac:(intros t' Ht'; apply Hsp; rewrite Hts; apply in_or_app; left; exact Ht')).
    specialize (H _ (s_st _ _ s) Hm). rewrite Hrun in H. exact H. }
  destruct Hpl as [(E & _)|(off & order & Ht & _)]; [rewrite E in Hts; destruct ts1; discriminate|].
  destruct (Forall2_in_right _ _ _ Ht t) as (k & Hk & n & es' & ps & _ & E2 & _ & Et & _).
  { rewrite Hts. apply in_or_app. right. left. reflexivity. }
  rewrite Et in He |- *. cbn [t_key t_ins] in *. rewrite E2 in He. injection He as ->.
  exists (IBuf 0). split; [rewrite nth_error_map, Hc; reflexivity|]. cbn. eapply silent_read; [exact proc|exact Hsil].
Qed.
Print Assumptions C18_unconnected_input.
Theorem C18_unconnected_output : forall F zero St proc bs s gin s' outs c,
  in_session F zero St proc bs s -> session_step F zero St proc bs s (SBlock F gin) = Some (s', outs) ->
  nth_error (g_outs (s_planned _ _ s)) c = Some None -> nth_error outs c = Some (repeat zero bs).
Proof.
  intros F zero St proc bs s gin s' outs c Hs H Hc. destruct (session_inv F zero St proc bs s Hs) as (_ & _ & _ & Hpl).
  cbn [session_step] in H. unfold render in H.
  destruct (run_tasks F St proc bs gin (td_tasks (s_td _ _ s)) (s_mem _ _ s, s_st _ _ s)) as [m st]. injection H as _ <-.
  rewrite nth_error_map. destruct Hpl as [(_ & -> & _)|(off & order & _ & ->)]; rewrite nth_error_map, Hc; reflexivity.
Qed.
Print Assumptions C18_unconnected_output.

(** A session: the graph of the examples is built, committed, played for two blocks; node 2 is freed and the
    graph committed again. *)
Fixpoint session_run (s : session nat unit) (l : list (sop nat)) : option (session nat unit) :=
  match l with
  | [] => Some s
  | o :: l' => r <- session_step nat 0 unit const_proc 2 s o ;; session_run (fst r) l'
  end.
Fixpoint session_few (s : session nat unit) (l : list (sop nat)) : bool :=
  match l with
  | [] => true
  | o :: l' => match session_step nat 0 unit const_proc 2 s o with
               | None => true
               | Some r => N.ltb (N.of_nat (List.length (flat_map (sources (s_planned _ _ (fst r))) (map fst (g_nodes (s_planned _ _ (fst r)))))))
                             usize_max && session_few (fst r) l'
               end
  end.
Lemma session_run_in l : forall s s', in_session nat 0 unit const_proc 2 s -> session_few s l = true -> session_run s l = Some s' ->
  in_session nat 0 unit const_proc 2 s'.
Proof.
  induction l as [|o l IH]; intros s s' Hs Hf H; cbn [session_run session_few] in *; [injection H as <-; exact Hs|].
  destruct (session_step nat 0 unit const_proc 2 s o) as [[s1 out]|] eqn:E; cbn [bind] in H; [|discriminate].
  apply andb_true_iff in Hf as [Hf1 Hf2]. apply N.ltb_lt in Hf1. eapply IH; [|exact Hf2|exact H].
  eapply is_step; [exact Hs|exact E|exact Hf1].
Qed.
Definition ex_session0 : session nat unit := session_new nat 0 unit 2 ex_start (fun _ => tt).
Definition ex_session_ops : list (sop nat) :=
  map (SEdit nat) ex_ops ++ [SEdit nat (OpCommit []); SBlock nat no_in; SBlock nat no_in].
Definition ex_session : session nat unit :=
  match session_run ex_session0 ex_session_ops with Some s => s | None => ex_session0 end.
Lemma ex_session_in : in_session nat 0 unit const_proc 2 ex_session.
Proof.
  apply session_run_in with (l := ex_session_ops) (s := ex_session0); [apply is_new|vm_compute; reflexivity|].
  unfold ex_session. destruct (session_run ex_session0 ex_session_ops) as [s|] eqn:E; [reflexivity|].
  exfalso. assert (H : match session_run ex_session0 ex_session_ops with Some _ => true | None => false end = true) by (vm_compute; reflexivity).
  rewrite E in H. discriminate.
Qed.
(** The hypotheses of [C17_after_commit_partial] are met: the graph of [C17_case], built in a session and committed. *)
Definition ex17_session : session nat unit :=
  match session_run ex_session0 (map (SEdit nat) ex17_ops) with Some s => s | None => ex_session0 end.
Example C17_commit_case : in_session nat 0 unit const_proc 2 ex17_session /\ free_old (fun _ => false) (s_graph _ _ ex17_session) = Some ex17_g /\
  g_recalc ex17_g = true /\ plain_graph ex17_g /\ session_commit nat 0 unit 2 ex17_session (fun _ => false) <> None.
Proof.
  split; [|split; [vm_compute; reflexivity|split; [vm_compute; reflexivity|split; [exact (proj1 C17_case)|]]]].
  - apply session_run_in with (l := map (SEdit nat) ex17_ops) (s := ex_session0); [apply is_new|vm_compute; reflexivity|].
    unfold ex17_session. destruct (session_run ex_session0 (map (SEdit nat) ex17_ops)) as [s|] eqn:E; [reflexivity|].
    exfalso. assert (H : match session_run ex_session0 (map (SEdit nat) ex17_ops) with Some _ => true | None => false end = true) by (vm_compute; reflexivity).
    rewrite E in H. discriminate.
  - assert (H : match session_commit nat 0 unit 2 ex17_session (fun _ => false) with Some _ => true | None => false end = true) by (vm_compute; reflexivity).
    destruct (session_commit nat 0 unit 2 ex17_session (fun _ => false)); [discriminate|discriminate H].
Qed.
Example C18_case : in_session nat 0 unit const_proc 2 ex_session /\
  map t_key (td_tasks (s_td _ _ ex_session)) = [0; 1; 3; 2] /\
  edges_of (s_planned _ _ ex_session) 2 = Some [Some (mk_edge (Some 3) 0 false); None] /\
  map (s_mem _ _ ex_session) (seq 0 8) = [0; 0; 1; 1; 3; 3; 4; 4].
Proof. split; [exact ex_session_in|]. vm_compute. auto. Qed.

(** The conditions speak of the graph as committed: removing the connection to a graph output and committing
    does not silence the output, because that edit does not ask for new tasks (graph.rs:1083-1093). *)
Definition ex_off_ops : list (sop nat) := [SEdit nat (OpDisconnectIn 0 NGraph); SEdit nat (OpCommit [])].
Theorem C18_disconnected_output_refuted : exists s s' out,
  in_session nat 0 unit const_proc 2 s /\ session_run ex_session ex_off_ops = Some s /\
  nth_error (g_outs (s_graph _ _ s)) 0 = Some None /\
  session_step nat 0 unit const_proc 2 s (SBlock nat no_in) = Some (s', out) /\ nth_error out 0 = Some [3; 3].
Proof.
  destruct (session_run ex_session ex_off_ops) as [s|] eqn:E.
  2: { exfalso. assert (H : match session_run ex_session ex_off_ops with Some _ => true | None => false end = true) by (vm_compute; reflexivity).
       rewrite E in H. discriminate. }
  destruct (session_step nat 0 unit const_proc 2 s (SBlock nat no_in)) as [[s' out]|] eqn:E'.
  2: { exfalso. cbn [session_step] in E'. destruct (render _ _ _ _ _ _ _ _) as [[? ?] ?]. discriminate. }
  exists s, s', out. split; [apply session_run_in with (s := ex_session) (l := ex_off_ops); [exact ex_session_in|vm_compute; reflexivity|exact E]|]. split; [reflexivity|].
  assert (H : (x <- session_run ex_session ex_off_ops ;; Some (nth_error (g_outs (s_graph _ _ x)) 0)) = Some (Some None)) by (vm_compute; reflexivity).
  rewrite E in H. injection H as H. split; [exact H|]. split; [exact E'|].
  assert (H' : (x <- session_run ex_session ex_off_ops ;; y <- session_step nat 0 unit const_proc 2 x (SBlock nat no_in) ;; nth_error (snd y) 0) = Some [3; 3])
    by (vm_compute; reflexivity).
  rewrite E in H'. cbn [bind] in H'. rewrite E' in H'. exact H'.
Qed.
Print Assumptions C18_disconnected_output_refuted.

(** ** C20 *)
(** The pair of generators, the storing one run before the playing one in every block: exactly one block. *)
Lemma feedback_delay_gen F ins : forall (s : fbuf F),
  feedback_run F true s ins = firstn (List.length ins) (f_bufs F s (negb (f_num F s)) :: ins).
Proof.
  induction ins as [|i ins IH]; intros s; [reflexivity|].
  cbn [feedback_run feedback_block source_block sink_block f_bufs f_num List.length firstn].
  destruct s as [bufs b]. cbn [f_bufs f_num]. rewrite IH. cbn [f_bufs f_num].
  destruct b; cbn [negb Bool.eqb]; reflexivity.
Qed.
Theorem C20_pair_delays_one_block_partial : forall F zero bs ins n, n < List.length ins ->
  nth_error (feedback_run F true (fbuf_new F zero bs) ins) n =
  match n with 0 => Some (repeat zero bs) | S n' => nth_error ins n' end.
Proof.
  intros F zero bs ins n Hn. rewrite feedback_delay_gen. cbn [fbuf_new f_bufs].
  assert (forall (l : list (list F)) k j, j < k -> nth_error (firstn k l) j = nth_error l j) as Hf.
  { induction l as [|x l IH]; intros [|k] [|j] H; cbn; try reflexivity; try lia. apply IH. lia. }
  rewrite Hf by exact Hn. destruct n; reflexivity.
Qed.
Print Assumptions C20_pair_delays_one_block_partial.
Example C20_pair_case : feedback_run nat true (fbuf_new nat 0 2) [[1; 2]; [3; 4]; [5; 6]] = [[0; 0]; [1; 2]; [3; 4]].
Proof. reflexivity. Qed.
(** The other order delays by two blocks (the order is that of the node processing order, in which nothing
    ties the two generators together). *)
Lemma feedback_late_gen F ins : forall (s : fbuf F),
  feedback_run F false s ins =
  firstn (List.length ins) (f_bufs F s (negb (f_num F s)) :: f_bufs F s (f_num F s) :: ins).
Proof.
  induction ins as [|i ins IH]; intros s; [reflexivity|].
  cbn [feedback_run feedback_block source_block sink_block f_bufs f_num List.length firstn].
  destruct s as [bufs b]. cbn [f_bufs f_num]. rewrite IH. cbn [f_bufs f_num].
  destruct b; cbn [negb Bool.eqb]; destruct ins; reflexivity.
Qed.
Theorem C20_pair_other_order_refuted : exists ins, feedback_run nat false (fbuf_new nat 0 2) ins = [[0; 0]; [0; 0]; [1; 2]] /\
  ins = [[1; 2]; [3; 4]; [5; 6]].
Proof. eexists. split; [|reflexivity]. vm_compute. reflexivity. Qed.
Print Assumptions C20_pair_other_order_refuted.

(** In the graph itself: both nodes created for a feedback connection are storing ones, without outputs.
    Node 0 outputs the number of the block (from 1), node 1 copies its input; node 0 is connected to node 1
    with feedback, node 1 to output 0 and node 0 to output 1.  Node 1 reads the current block of node 0. *)
Definition fb_ops : list op :=
  [ OpPush 0 1 [] false; OpPush 1 1 [] false; OpConnect (nd 0) 0 0 (nd 1) true true;
    OpConnect (nd 1) 0 0 NGraph true false; OpConnect (nd 0) 0 1 NGraph true false ].
Definition fb_proc (k : key) (st : nat) (ins : list (list nat)) (_ : list (N * list nat)) : nat * (nat -> nat -> nat) :=
  match k with
  | 0 => (S st, fun c i => S st)
  | _ => (st, fun c i => nth i (nth 0 ins []) 0)
  end.
Theorem C20_feedback_not_delayed_refuted : exists g a1 td ms outs, run (graph_new 7 0 2 [0; 1; 2; 3]) fb_ops = Some g /\
  plan g 2 (alloc_new 8) (fun _ => false) = Some (a1, td) /\
  render_n nat 0 nat fb_proc 2 td [no_in; no_in; no_in] (fun _ => 0, fun _ => 0) = (ms, outs) /\
  map (fun o => nth 1 o []) outs = [[1; 1]; [2; 2]; [3; 3]] /\
  map (fun o => nth 0 o []) outs = [[1; 1]; [2; 2]; [3; 3]].
Proof. do 5 eexists. split; [vm_compute; reflexivity|]. split; [vm_compute; reflexivity|]. split; [vm_compute; reflexivity|]. vm_compute. auto. Qed.
Print Assumptions C20_feedback_not_delayed_refuted.
