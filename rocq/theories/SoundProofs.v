(** Proofs: plans that satisfy the condition render their graph, and others do not. *)
From Verif Require Import Base GraphModel GraphSpec GraphBase GraphPath GraphInv GraphShape GraphRefs GraphClean
  OrderModel OrderSpec OrderProofs AllocModel AllocProofs PlaceProofs RenderSpec PlanProofs RenderModel RenderProofs RenderMain SoundSpec.
Local Open Scope nat_scope.

(** Graphs without feedback whose connections come from existing outputs. *)
Record forward_graph (g : graph) : Prop := {
  fg_wf : wf g;
  fg_refs : refs_ok g;
  fg_links : (N.of_nat (links g) < usize_max)%N;
  fg_nofb : forall k c e, in_edge g k c = Some e -> e_fb e = false }.

Lemma task_keys g bs order off ts : Forall2 (task_of g bs order off) order ts -> map t_key ts = order.
Proof.
  generalize order at 1. intros o. enough (H : forall l, Forall2 (task_of g bs o off) l ts -> map t_key ts = l) by apply H.
  intros l H. induction H as [|k t l ts (n & es & ps & _ & _ & _ & -> & _) _ IH]; [reflexivity|]. cbn. rewrite IH. reflexivity.
Qed.
Lemma task_at g bs order off : forall l ts, Forall2 (task_of g bs order off) l ts -> forall l1 k l2, l = l1 ++ k :: l2 ->
  exists ts1 t ts2, ts = ts1 ++ t :: ts2 /\ task_of g bs order off k t /\ Forall2 (task_of g bs order off) l1 ts1 /\ Forall2 (task_of g bs order off) l2 ts2.
Proof.
  intros l ts H. induction H as [|x y l ts Hxy H IH]; intros l1 k l2 E; [destruct l1; discriminate|].
  destruct l1 as [|z l1]; cbn [app] in E; injection E as -> E.
  - subst l2. exists [], y, ts. repeat split; auto.
  - destruct (IH l1 k l2 E) as (ts1 & t & ts2 & -> & A & B & C). exists (y :: ts1), t, ts2. repeat split; auto.
Qed.
Lemma task_region g bs order off k t : task_of g bs order off k t -> t_key t = k /\ t_out t = off k /\ t_outs t = nouts g k.
Proof. intros (n & es & ps & E & _ & _ & -> & _). cbn. unfold nouts. rewrite E. auto. Qed.

(** The condition in terms of order and placement. *)
Lemma sound_order g bs td order off : forward_graph g -> Forall2 (task_of g bs order off) order (td_tasks td) -> node_order g = Some order ->
  sound_plan g bs td -> forall k, heard g k -> In k order /\ good g order k.
Proof.
  intros [Hw Hr Hl Hfb] Ht Ho [Hs _] k Hk. rewrite (task_keys _ _ _ _ _ Ht) in Hs.
  pose proof Ho as H. unfold node_order in H. destruct (node_order2 g) as [[o1 o2]|] eqn:E; cbn in H; [|discriminate]. injection H as <-.
  split; [apply in_or_app; left; eapply heard_connected; eauto|].
  intros l1 l2 Eo s Hsrc. eapply (Hs k Hk); [exact Eo|]. apply depends_same; [exact Hfb|]. apply sources_spec. exact Hsrc.
Qed.
Lemma forward_source g s k : forward_graph g -> heard g k -> In s (sources g k) -> heard g s.
Proof.
  intros Hg (r & Hout & Hk) Hs. exists r. split; [exact Hout|]. eapply rt_trans; [|exact Hk]. apply rt_step.
  apply depends_same; [apply fg_nofb; exact Hg|]. apply sources_spec. exact Hs.
Qed.

Section Main.
Variable F : Type.
Variable zero : F.
Variable St : Type.
Variable proc : key -> St -> list (list F) -> list (N * list F) -> St * (nat -> nat -> F).
Variable bs : nat.
Notation silent := (silent F zero bs).
Notation solves := (solves F zero St proc bs).
Notation computes := (computes F zero St proc bs).
Notation signal := (signal F zero bs).

Lemma sound_block g a old a1 td gin m st m' st' out : forward_graph g -> 0 < bs ->
  plan g bs a old = Some (a1, td) -> sound_plan g bs td -> silent m -> render F zero St proc bs td gin (m, st) = (m', st', out) ->
  silent m' /\ exists V, (forall k, heard g k -> solves g gin st V k) /\
    (forall k, heard g k -> exists r, computes g gin st V k r /\ st' k = fst r) /\
    out = map (signal gin V) (g_outs g).
Proof.
  intros Hg Hbs Hp Hsound Hm H. pose proof Hg as [Hw Hrefs Hl Hfb].
  destruct (plan_placed g bs a old a1 td Hw Hrefs Hbs Hl Hp) as (order & off & Ho & Hpl & Ht & Htd & Hoe).
  destruct (order_once g order Hw Ho) as [Hnd _].
  pose proof (sound_order g bs td order off Hg Ht Ho Hsound) as Hgood.
  destruct (tasks_run F zero St proc bs Hbs g order off _ Hnd Hpl Hrefs gin st order _ Ht [] m st (fun _ _ _ => zero) eq_refl)
    as [V Hi]; [eapply rinv_start; eassumption|].
  unfold render in H. destruct (run_tasks F St proc bs gin (td_tasks td) (m, st)) as [m1 st1]. cbn in Hi, H.
  injection H as <- <- <-. split; [apply (r_zero _ _ _ _ _ _ _ _ _ _ _ _ _ _ Hi)|].
  exists V. pose proof (r_solved _ _ _ _ _ _ _ _ _ _ _ _ _ _ Hi) as Hsolved.
  split; [|split].
  - intros k Hk. destruct (Hgood k Hk) as [Hin Hgk].
    destruct (Hsolved k Hin Hgk) as (n & r & E1 & E2 & E3 & _). exists n, r. rewrite E3. auto.
  - intros k Hk. destruct (Hgood k Hk) as [Hin Hgk].
    destruct (Hsolved k Hin Hgk) as (n & r & E1 & E2 & E3 & E4). exists r. auto.
  - rewrite Htd, map_map. apply map_ext_in. intros [e|] Hin; [|reflexivity]. cbn.
    destruct (e_src e) as [s|] eqn:Es; [|reflexivity]. cbn. unfold read, chan. apply map_ext_in. intros i Hi'.
    apply in_seq in Hi'. destruct (Hoe e s Hin Es) as [Hs Hc].
    destruct (in_split _ _ Hs) as (l1 & l2 & El).
    apply (r_intact _ _ _ _ _ _ _ _ _ _ _ _ _ _ Hi l1 s l2 El); [exact Hc|lia|].
    intros y Hy. destruct (task_at _ _ _ _ _ _ Ht l1 s l2 El) as (ts1 & t & ts2 & Ets & Hts & _ & H2).
    apply in_split in Hy as (m1' & m2' & Ey). destruct (task_at _ _ _ _ _ _ H2 m1' y m2' Ey) as (u1 & t' & u2 & Eu & Hty & _).
    destruct (task_region _ _ _ _ _ _ Hts) as (K1 & K2 & K3). destruct (task_region _ _ _ _ _ _ Hty) as (K1' & K2' & K3').
    apply In_nth_error in Hin as [c Hc'].
    pose proof (proj2 Hsound c e s ltac:(unfold out_edge; rewrite Hc'; reflexivity) Es ts1 t ts2 Ets K1 t' i
      ltac:(rewrite Eu; apply in_or_app; right; left; reflexivity) ltac:(lia)) as Hno.
    unfold writes in Hno. rewrite K2, K2', K3' in Hno. exact Hno.
Qed.
Lemma sound_blocks g a old a1 td : forward_graph g -> 0 < bs -> plan g bs a old = Some (a1, td) -> sound_plan g bs td ->
  forall gins m st m' st' outs, silent m -> render_n F zero St proc bs td gins (m, st) = (m', st', outs) ->
  silent m' /\ plays F zero St proc bs g gins st outs.
Proof.
  intros Hr Hbs Hp Hs gins. induction gins as [|gin gins IH]; intros m st m' st' outs Hm H; cbn [render_n] in H.
  - injection H as <- <- <-. split; [exact Hm|constructor].
  - destruct (render F zero St proc bs td gin (m, st)) as [[m1 st1] o] eqn:E1.
    destruct (render_n F zero St proc bs td gins (m1, st1)) as [[m2 st2] os] eqn:E2. injection H as <- <- <-.
    destruct (sound_block g a old a1 td gin m st m1 st1 o Hr Hbs Hp Hs Hm E1) as (Hm1 & V & V1 & V2 & ->).
    destruct (IH _ _ _ _ _ Hm1 E2) as [Hm2 Hpl]. split; [exact Hm2|]. eapply plays_cons; eauto.
Qed.
End Main.

(** ** the converse: nodes that put out what they read *)
(** A sample that tells which node made it, for which channel and frame, and from what. *)
Inductive trace := Silent | Made (k c i : nat) (ins : list (list trace)) (pars : list (N * list trace)).
Definition tracer (k : key) (st : unit) (ins : list (list trace)) (pars : list (N * list trace)) : unit * (nat -> nat -> trace) :=
  (st, fun c i => Made k c i ins pars).

Section Converse.
Variable bs : nat.
Hypothesis Hbs : 0 < bs.
Variable g : graph.
Variable gin : nat -> list trace.
Notation memory := (memory trace).
Notation run_task := (run_task trace unit tracer bs gin).
Notation run_tasks := (run_tasks trace unit tracer bs gin).
(** what the task makes of memory [m] *)
Definition makes (m : memory) (t : task) : nat -> nat -> trace :=
  fun c i => Made (t_key t) c i (map (read_src trace bs m gin) (t_ins t)) (map (fun p => (fst p, read trace bs m (snd p))) (t_pars t)).
Lemma run_task_mem m st t : fst (run_task (m, st) t) = write trace bs m (t_out t) (t_outs t) (makes m t).
Proof. reflexivity. Qed.
Lemma run_tasks_app ts1 ts2 ms : run_tasks (ts1 ++ ts2) ms = run_tasks ts2 (run_tasks ts1 ms).
Proof. unfold RenderModel.run_tasks. apply fold_left_app. Qed.
(** the memory before the tasks [ts] have run is [m0]; afterwards every sample is what it was or was made by one of the tasks, from the
    memory that it found *)
Lemma made_by : forall ts (m0 : memory) (st : key -> unit) x,
  let m := fst (run_tasks ts (m0, st)) in
  m x = m0 x \/ exists ts1 t ts2 c i, ts = ts1 ++ t :: ts2 /\ m x = makes (fst (run_tasks ts1 (m0, st))) t c i.
Proof.
  induction ts as [|t ts IH] using rev_ind; intros m0 st x m; [left; reflexivity|].
  unfold m. rewrite run_tasks_app. destruct (run_tasks ts (m0, st)) as [m1 st1] eqn:E.
  change (fst (run_tasks [t] (m1, st1))) with (fst (run_task (m1, st1) t)). rewrite run_task_mem. unfold write.
  destruct (_ && _).
  - right. exists ts, t, [], ((x - t_out t) / bs), ((x - t_out t) mod bs). rewrite E. split; reflexivity.
  - specialize (IH m0 st x). rewrite E in IH. cbn [fst] in IH. destruct IH as [IH|(ts1 & t' & ts2 & c & i & E1 & E2)]; [left; exact IH|].
    right. exists ts1, t', (ts2 ++ [t]), c, i. rewrite E1, <- app_assoc. auto.
Qed.
Lemma made_in : forall ts (m0 : memory) (st : key -> unit) x, m0 x = Silent ->
  forall k c i ins pars, fst (run_tasks ts (m0, st)) x = Made k c i ins pars ->
  exists ts1 t ts2, ts = ts1 ++ t :: ts2 /\ t_key t = k /\ Made k c i ins pars = makes (fst (run_tasks ts1 (m0, st))) t c i.
Proof.
  intros ts m0 st x H0 k c i ins pars H. pose proof (made_by ts m0 st x) as M. cbv zeta in M.
  destruct M as [E|(ts1 & t & ts2 & c' & i' & E1 & E2)]; [rewrite E, H0 in H; discriminate|].
  rewrite H in E2. exists ts1, t, ts2. split; [exact E1|].
  assert (Hk : k = t_key t /\ c = c' /\ i = i') by (unfold makes in E2; injection E2; auto).
  destruct Hk as (-> & -> & ->). split; [reflexivity|exact E2].
Qed.

Variable st : key -> unit.
Variable order : list key.
Variable off : key -> nat.
Variable ts : list task.
Hypothesis Hnd : NoDup order.
Hypothesis Hrefs : refs_ok g.
Hypothesis Hts : Forall2 (task_of g bs order off) order ts.
Variable m0 : memory.
Hypothesis Hm0 : forall x, m0 x = Silent.
Variable V : key -> nat -> nat -> trace.
Notation signal := (signal trace Silent bs gin).
Notation par_signal := (par_signal trace bs).
Notation solves := (solves trace Silent unit tracer bs g gin st).

Lemma keys_eq : map t_key ts = order.
Proof. exact (task_keys _ _ _ _ _ Hts). Qed.
(** the meaning of a node is a sample of that node *)
Lemma meaning k : solves V k -> exists es ps, edges_of g k = Some es /\ pedges_of g k = Some ps /\
  forall c i, c < nouts g k -> i < bs -> V k c i = Made k c i (map (signal V) es) (map (par_signal V) ps).
Proof.
  intros (n & r & El & (es & ps & E1 & E2 & ->) & H). exists es, ps. split; [exact E1|]. split; [exact E2|].
  intros c i Hc Hi. unfold nouts in Hc. rewrite El in Hc. rewrite H by assumption. reflexivity.
Qed.
(** [k] really made one of the samples that it should make *)
Definition right_at (k : key) : Prop := exists ts1 t ts2 c i, ts = ts1 ++ t :: ts2 /\ t_key t = k /\ c < nouts g k /\ i < bs /\
  V k c i = makes (fst (run_tasks ts1 (m0, st))) t c i.
(** if a node is right then so are its sources, and they ran before it *)
Lemma right_source ts1 t ts2 s : ts = ts1 ++ t :: ts2 -> right_at (t_key t) -> solves V (t_key t) -> In s (sources g (t_key t)) -> solves V s ->
  right_at s /\ In s (map t_key ts1).
Proof.
  intros E (u1 & t' & u2 & c & i & E' & Ek & Hc & Hi & Hv) Hk Hs Hsol.
  assert (u1 = ts1 /\ t' = t /\ u2 = ts2) as (-> & -> & ->).
  { pose proof keys_eq as K. rewrite E in E'. clear - E' Ek K Hnd E. rewrite <- K, E, map_app in Hnd. clear K E. cbn [map] in Hnd.
    revert u1 E'. induction ts1 as [|a l IH]; intros [|b u1] E'; cbn [app] in *.
    - injection E' as -> ->. auto.
    - exfalso. injection E' as -> ->. apply NoDup_cons_iff in Hnd as [H _]. apply H. cbn. rewrite map_app. apply in_or_app. right. left. exact Ek.
    - exfalso. injection E' as -> <-. cbn in Hnd. apply NoDup_cons_iff in Hnd as [H _]. apply H. apply in_or_app. right. left. symmetry. exact Ek.
    - injection E' as <- E'. cbn in Hnd. apply NoDup_cons_iff in Hnd as [_ H]. destruct (IH H u1 E') as (-> & -> & ->). auto. }
  destruct (meaning _ Hk) as (es & ps & Ee & Ep & Hm). rewrite (Hm c i Hc Hi) in Hv. unfold makes in Hv. injection Hv as Hins Hpars.
  assert (Htask : task_of g bs order off (t_key t) t).
  { clear - Hts E. rewrite E in Hts. apply Forall2_app_inv_r in Hts as (o1 & o2 & _ & H & _).
    inversion H as [|k0 t0 l0 l0' H0 _]; subst. destruct (task_region _ _ _ _ _ _ H0) as (-> & _). exact H0. }
  destruct Htask as (n & es' & ps' & E1 & E2 & E3 & Et & Hpar & Hedge).
  assert (es' = es) by congruence. assert (ps' = ps) by congruence. subst es' ps'.
  assert (Hgoal : forall x ch, ch < nouts g s -> fst (run_tasks ts1 (m0, st)) x = V s ch 0 -> right_at s /\ In s (map t_key ts1)).
  { intros x ch Hch Hx. destruct (meaning s Hsol) as (es2 & ps2 & _ & _ & Hm2). rewrite (Hm2 ch 0 Hch Hbs) in Hx.
    destruct (made_in ts1 m0 st x (Hm0 x) _ _ _ _ _ Hx) as (v1 & t2 & v2 & Ev & Ekey & Hmk). split.
    - exists v1, t2, (v2 ++ t :: ts2), ch, 0. rewrite E, Ev, <- app_assoc. split; [reflexivity|]. split; [exact Ekey|].
      split; [exact Hch|]. split; [exact Hbs|]. rewrite (Hm2 ch 0 Hch Hbs). exact Hmk.
    - rewrite Ev, map_app. apply in_or_app. right. left. exact Ekey. }
  apply sources_spec in Hs. destruct Hs as [(d & e & He & Hes)|Hp].
  - (* an audio input *)
    assert (Hd : nth_error es d = Some (Some e)).
    { unfold in_edge in He. rewrite Ee in He. destruct (nth_error es d) as [o|]; [subst o; reflexivity|discriminate]. }
    pose proof (proj1 Hrefs _ d e He) as Hok. unfold edge_ok in Hok. rewrite Hes in Hok. destruct Hok as (m' & El & _ & Hlt).
    apply (Hgoal (off s + e_chan e * bs) (e_chan e)); [unfold nouts; rewrite El; exact Hlt|].
    assert (H1 : nth_error (map (signal V) es) d = Some (signal V (Some e))) by (apply map_nth_error; exact Hd).
    rewrite Hins, Et in H1. cbn [t_ins] in H1.
    rewrite (map_nth_error _ d (map (in_of bs off) es) (map_nth_error (in_of bs off) d es Hd)) in H1. injection H1 as H1.
    cbn in H1. rewrite Hes in H1. cbn in H1. unfold read, chan in H1. destruct bs as [|b]; [lia|]. cbn [seq map] in H1. injection H1 as H1 _.
    rewrite Nat.add_0_r in H1. exact H1.
  - (* a parameter *)
    destruct Hp as (n2 & ps2 & p & El & Epe & Hin & Hps).
    assert (ps2 = ps) by (unfold pedges_of in E3; rewrite El in E3; cbn in E3; congruence). subst ps2.
    apply In_nth_error in Hin as Hd. destruct Hd as [d Hd].
    destruct (Hpar p Hin) as [_ Hlt]. rewrite Hps in Hlt.
    apply (Hgoal (off s + p_chan p * bs) (p_chan p) Hlt).
    assert (H1 : nth_error (map (par_signal V) ps) d = Some (par_signal V p)) by (apply map_nth_error; exact Hd).
    rewrite Hpars, Et in H1. cbn [t_pars] in H1.
    rewrite (map_nth_error _ d (map (par_of bs off) ps) (map_nth_error (par_of bs off) d ps Hd)) in H1. injection H1 as H1.
    cbn in H1. rewrite Hps in H1. unfold read, chan in H1. destruct bs as [|b]; [lia|]. cbn [seq map] in H1. injection H1 as H1 _.
    rewrite Nat.add_0_r in H1. exact H1.
Qed.
(** a sample at an address that a task writes is not made by an earlier task *)
Lemma overwritten ts1 t ts2 x k c i ins pars : ts = ts1 ++ t :: ts2 -> writes bs t x ->
  fst (run_tasks ts (m0, st)) x = Made k c i ins pars -> In k (map t_key (t :: ts2)).
Proof.
  intros E Hw H. rewrite E, run_tasks_app in H. change (t :: ts2) with ([t] ++ ts2) in H. rewrite run_tasks_app in H.
  destruct (run_tasks ts1 (m0, st)) as [m1 st1]. change (run_tasks [t] (m1, st1)) with (run_task (m1, st1) t) in H.
  destruct (run_task (m1, st1) t) as [m2 st2] eqn:E2.
  assert (Hx : m2 x = makes m1 t ((x - t_out t) / bs) ((x - t_out t) mod bs)).
  { pose proof (run_task_mem m1 st1 t) as Hr. rewrite E2 in Hr. cbn [fst] in Hr. rewrite Hr. unfold write.
    destruct Hw as [A B]. rewrite (proj2 (Nat.leb_le _ _) A), (proj2 (Nat.ltb_lt _ _) B). reflexivity. }
  pose proof (made_by ts2 m2 st2 x) as M. cbv zeta in M. destruct M as [Hy|(u1 & t' & u2 & c' & i' & Eu & Hy)]; rewrite H in Hy.
  - rewrite Hx in Hy. unfold makes in Hy. injection Hy as -> _ _ _ _. left. reflexivity.
  - unfold makes in Hy. injection Hy as -> _ _ _ _. right. rewrite Eu, map_app. apply in_or_app. right. left. reflexivity.
Qed.

(** if the tracing nodes are rendered right then the plan is sound *)
Lemma render_sound td : td_tasks td = ts -> td_out td = map (out_of bs off) (g_outs g) ->
  (forall k c e, in_edge g k c = Some e -> e_fb e = false) ->
  (forall e s, In (Some e) (g_outs g) -> e_src e = Some s -> In s order /\ e_chan e < nouts g s) ->
  (forall k, heard g k -> In k order) -> (forall k, heard g k -> solves V k) ->
  snd (render trace Silent unit tracer bs td gin (m0, st)) = map (signal V) (g_outs g) -> sound_plan g bs td.
Proof.
  intros Etd Etdo Hfb Hoe Hin Hsol H. unfold render in H. cbn [snd] in H. rewrite Etd, Etdo in H.
  assert (Hout : forall c e s, out_edge g c = Some e -> e_src e = Some s -> forall i, i < bs ->
    fst (run_tasks ts (m0, st)) (off s + e_chan e * bs + i) = V s (e_chan e) i).
  { intros c e s He Hs i Hi. assert (Hc : nth_error (g_outs g) c = Some (Some e)).
    { unfold out_edge in He. destruct (nth_error (g_outs g) c) as [o|]; [subst o; reflexivity|discriminate]. }
    assert (H1 : nth_error (map (signal V) (g_outs g)) c = Some (signal V (Some e))) by (apply map_nth_error; exact Hc).
    rewrite <- H, (map_nth_error _ c (map (out_of bs off) (g_outs g)) (map_nth_error (out_of bs off) c (g_outs g) Hc)) in H1.
    injection H1 as H1. cbn in H1. rewrite Hs in H1. cbn in H1. unfold read, chan in H1.
    assert (Hn : nth_error (seq 0 bs) i = Some i) by (rewrite nth_error_nth' with (d := 0) by (rewrite seq_length; exact Hi); rewrite seq_nth by exact Hi; reflexivity).
    pose proof (map_nth_error (V s (e_chan e)) i (seq 0 bs) Hn) as H2.
    rewrite <- H1, (map_nth_error (fun j => _) i (seq 0 bs) Hn) in H2. injection H2 as H2. exact H2. }
  assert (Hoc : forall c e s, out_edge g c = Some e -> e_src e = Some s -> e_chan e < nouts g s).
  { intros c e s He Hs. apply (Hoe e s); [|exact Hs]. unfold out_edge in He.
    destruct (nth_error (g_outs g) c) as [o|] eqn:Ec; [subst o; eapply nth_error_In; exact Ec|discriminate]. }
  assert (Hright : forall k, heard g k -> right_at k).
  { intros k (r & Hfo & Hk). apply clos_rt_rt1n in Hk. induction Hk as [r|k j r Hkj Hjr IH].
    - destruct Hfo as (c & e & He & Hs). assert (Hh : heard g r) by (exists r; split; [exists c, e; auto|apply rt_refl]).
      pose proof (Hout c e r He Hs 0 Hbs) as Hx. destruct (meaning r (Hsol r Hh)) as (es & ps & _ & _ & Hm).
      rewrite (Hm _ 0 (Hoc _ _ _ He Hs) Hbs) in Hx.
      destruct (made_in ts m0 st _ (Hm0 _) _ _ _ _ _ Hx) as (v1 & t2 & v2 & Ev & Ekey & Hmk).
      exists v1, t2, v2, (e_chan e), 0. rewrite (Hm _ 0 (Hoc _ _ _ He Hs) Hbs). repeat split; auto. apply (Hoc _ _ _ He Hs).
    - specialize (IH Hfo). assert (Hj : heard g j) by (exists r; split; [exact Hfo|apply clos_rt1n_rt; exact Hjr]).
      assert (Hk : heard g k) by (exists r; split; [exact Hfo|apply clos_rt1n_rt; econstructor 2; eauto]).
      pose proof IH as (v1 & t & v2 & c & i & Ev & Ek & _). subst j.
      apply (right_source v1 t v2 k Ev IH); auto. apply sources_spec. apply depends_same; assumption. }
  split.
  - intros k Hk l1 l2 s El Hs. rewrite Etd in El. pose proof (Hright k Hk) as Hr. pose proof Hr as (v1 & t & v2 & c & i & Ev & Ek & _). subst k.
    assert (Hhs : heard g s) by (destruct Hk as (r & Hfo & Hk); exists r; split; [exact Hfo|eapply rt_trans; [apply rt_step; exact Hs|exact Hk]]).
    destruct (right_source v1 t v2 s Ev Hr (Hsol _ Hk)) as [_ Hb]; [apply sources_spec; apply depends_same; assumption|apply Hsol; exact Hhs|].
    assert (l1 = map t_key v1) as ->; [|exact Hb].
    pose proof keys_eq as K. rewrite Ev, map_app in El. cbn [map] in El. rewrite <- K, Ev, map_app in Hnd. cbn [map] in Hnd.
    clear - El Hnd. revert Hnd l1 El. generalize (map t_key v1) (t_key t) (map t_key v2). intros l x y. induction l as [|a l IH]; intros Hnd [|b l1] E; cbn [app] in *.
    + reflexivity.
    + exfalso. injection E as <- E. apply NoDup_cons_iff in Hnd as [H _]. apply H. rewrite E. apply in_or_app. right. left. reflexivity.
    + exfalso. injection E as <- E. apply NoDup_cons_iff in Hnd as [H _]. apply H. apply in_or_app. right. left. reflexivity.
    + injection E as <- E. apply NoDup_cons_iff in Hnd as [_ H]. f_equal. apply IH; assumption.
  - intros c e s He Hs l1 t l2 El Ek t' i Ht' Hi Hw. rewrite Etd in El. subst s.
    assert (Hh : heard g (t_key t)) by (exists (t_key t); split; [exists c, e; auto|apply rt_refl]).
    assert (Eoff : t_out t = off (t_key t)).
    { clear - Hts El. rewrite El in Hts. apply Forall2_app_inv_r in Hts as (o1 & o2 & _ & H & _).
      inversion H as [|k0 t0 l0 l0' H0 _]; subst. destruct (task_region _ _ _ _ _ _ H0) as (-> & A & _). exact A. }
    rewrite Eoff in Hw. pose proof (Hout c e _ He Hs i Hi) as Hx. destruct (meaning _ (Hsol _ Hh)) as (es & ps & _ & _ & Hm).
    rewrite (Hm _ i (Hoc _ _ _ He Hs) Hi) in Hx.
    apply in_split in Ht' as (q1 & q2 & ->).
    assert (El' : ts = (l1 ++ t :: q1) ++ t' :: q2) by (rewrite El, <- app_assoc; reflexivity).
    pose proof (overwritten _ _ _ _ _ _ _ _ _ El' Hw Hx) as Hbad.
    pose proof keys_eq as K. rewrite <- K, El, map_app in Hnd. cbn [map] in Hnd. apply NoDup_remove_2 in Hnd. apply Hnd.
    apply in_or_app. right. rewrite map_app. apply in_or_app. right. exact Hbad.
Qed.
End Converse.
