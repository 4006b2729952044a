(** Property C19: placing node outputs in memory. Specification: [AllocSpec], [OrderSpec]. *)
From Verif Require Import Base GraphModel GraphSpec GraphBase GraphPath GraphInv GraphShape GraphRefs GraphClean GraphProps
  OrderModel OrderSpec OrderProofs OrderProps AllocModel AllocProofs PlaceProofs PlanProofs PlanTotal AllocSpec AllocHistory
  SessionModel SessionProofs.
Local Open Scope nat_scope.

(** ** The allocator, for every history of requests *)
(** Requests for at least one channel and returns of outstanding borrows never fail. *)
Theorem C19_requests_succeed_partial : forall bs a l r, 0 < bs -> history bs a l -> legal l r ->
  exists a' l', serve bs a l r = Some (a', l').
Proof. intros bs a l r Hbs H Hl. apply hinv_serve; [exact Hbs| |exact Hl]. apply history_hinv; assumption. Qed.
Print Assumptions C19_requests_succeed_partial.
(** Regions held at the same time do not overlap. *)
Theorem C19_held_apart : forall bs a l1 h l2 h', 0 < bs -> history bs a (l1 ++ h :: l2) -> In h' (l1 ++ l2) -> apart h h'.
Proof. intros bs a l1 h l2 h' Hbs H Hin. eapply hinv_apart; [apply history_hinv; eassumption|exact Hin]. Qed.
Print Assumptions C19_held_apart.
(** Held regions lie inside the finished allocation, clear of the silent channel, and have a pointer. *)
Theorem C19_held_inside : forall bs a l h, 0 < bs -> history bs a l -> In h l ->
  bs <= h_off h /\ h_off h + h_len h <= a_size (finish a) /\
  (0 < h_len h -> offset_to_ptr (finish a) (h_off h) = Some (h_off h)).
Proof. intros bs a l h Hbs H Hin. eapply hinv_bounds; [apply history_hinv; eassumption|exact Hin]. Qed.
Print Assumptions C19_held_inside.

(** A history: two channels with one borrow and one channel with two, the first returned and its region
    granted again. *)
Fixpoint serve_all (bs : nat) (a : alloc) (l : list held) (rs : list request) : option (alloc * list held) :=
  match rs with [] => Some (a, l) | r :: rs' => x <- serve bs a l r ;; serve_all bs (fst x) (snd x) rs' end.
Definition ex_reqs : list request := [Get 2 1; Get 1 2; Return 4; Get 1 3; Return 12].
Definition ex_a0 : alloc := match reset (alloc_new 16) 4 with Some a => a | None => alloc_new 16 end.
Definition ex_held : alloc * list held := match serve_all 4 ex_a0 [] ex_reqs with Some x => x | None => (ex_a0, []) end.
Lemma history_next bs a l r : history bs a l -> legal l r -> forall x, serve bs a l r = Some x -> history bs (fst x) (snd x).
Proof. intros H Hl [a' l'] E. eapply h_step; eauto. Qed.
Lemma ex_history : history 4 (fst ex_held) (snd ex_held).
Proof.
  assert (H : history 4 ex_a0 []) by (eapply h_start with (a := alloc_new 16); vm_compute; reflexivity).
  apply history_next with (r := Get 2 1) (x := (mk_alloc 12 [mk_blk 0 4 usize_max; mk_blk 4 8 1] [] 12 16, [mk_held 4 8 1])) in H;
    [cbn [fst snd] in H|cbn; lia|vm_compute; reflexivity].
  eapply history_next with (r := Get 1 2) in H; [|cbn; lia|vm_compute; reflexivity]. cbn [fst snd] in H.
  eapply history_next with (r := Return 4) in H;
    [|exists (mk_held 4 8 1); split; [right; left; reflexivity|split; reflexivity]|vm_compute; reflexivity]. cbn [fst snd] in H.
  eapply history_next with (r := Get 1 3) in H; [|cbn; lia|vm_compute; reflexivity]. cbn [fst snd] in H.
  eapply history_next with (r := Return 12) in H;
    [|exists (mk_held 12 4 2); split; [right; left; reflexivity|split; reflexivity]|vm_compute; reflexivity]. cbn [fst snd] in H.
  exact H.
Qed.
Example C19_history_case : history 4 (fst ex_held) (snd ex_held) /\ snd ex_held = [mk_held 4 4 3; mk_held 12 4 1].
Proof. split; [exact ex_history|vm_compute; reflexivity]. Qed.

(** ** Nodes of a graph *)
(** Output memory of the nodes of a plan: clear of the silent channel and inside the allocation; a node's
    memory is not given to another node before the last node reading it has run, and never if nothing reads
    it. *)
Theorem C19_nodes_apart_partial : forall g bs a old a1 td, reachable g -> refs_ok g -> 0 < bs ->
  (N.of_nat (links g) < usize_max)%N -> plan g bs a old = Some (a1, td) ->
  (forall t, In t (td_tasks td) -> bs <= t_out t /\ t_out t + t_outs t * bs <= a_size a1) /\
  (forall l1 s l2 k l3 y, td_tasks td = l1 ++ s :: l2 ++ k :: l3 -> depends g (t_key s) (t_key k) -> In y (l2 ++ [k]) ->
    disj (t_out s) (t_outs s * bs) (t_out y) (t_outs y * bs)) /\
  (forall l1 s l2 y, td_tasks td = l1 ++ s :: l2 -> (forall k, ~ depends g (t_key s) k) -> In y l2 ->
    disj (t_out s) (t_outs s * bs) (t_out y) (t_outs y * bs)).
Proof.
  intros g bs a old a1 td Hg Hr Hbs Hl H. pose proof (reachable_wf g Hg) as Hw.
  destruct (plan_placed g bs a old a1 td Hw Hr Hbs Hl H) as (order & off & Ho & Hpl & Ht & _).
  assert (Hdesc : forall l ts, Forall2 (task_of g bs order off) l ts -> l = map t_key ts /\
    (forall t, In t ts -> t_out t = off (t_key t) /\ t_outs t = nouts g (t_key t))).
  { intros l ts HF. induction HF as [|k t l ts Hkt _ [IH1 IH2]]; [split; [reflexivity|intros t []]|].
    destruct Hkt as (n & es & ps & E1 & _ & _ & -> & _). cbn. split; [f_equal; exact IH1|].
    intros t [<-|Hin]; [|auto]. cbn. split; [reflexivity|]. unfold nouts. rewrite E1. reflexivity. }
  destruct (Hdesc _ _ Ht) as [Eo Hd]. split; [|split].
  - intros t Hin. destruct (Hd t Hin) as [-> ->]. assert (In (t_key t) order) by (rewrite Eo; apply in_map; exact Hin).
    split; [apply (pl_low _ _ _ _ _ Hpl); assumption|apply (pl_high _ _ _ _ _ Hpl); assumption].
  - intros l1 s l2 k l3 y E Hdep Hy.
    assert (In s (td_tasks td)) by (rewrite E; apply in_or_app; right; left; reflexivity).
    assert (In y (td_tasks td)).
    { rewrite E. apply in_or_app; right; right. apply in_app_or in Hy as [Hy|[<-|[]]]; apply in_or_app; [left; exact Hy|right; left; reflexivity]. }
    destruct (Hd s H0) as [-> ->]. destruct (Hd y H1) as [-> ->].
    eapply (pl_read _ _ _ _ _ Hpl (map t_key l1) (t_key s) (map t_key l2) (t_key k) (map t_key l3) (t_key y)).
    + rewrite Eo, E, map_app. cbn. rewrite map_app. reflexivity.
    + apply sources_spec. exact Hdep.
    + apply in_app_or in Hy as [Hy|[<-|[]]]; apply in_or_app; [left; apply in_map; exact Hy|right; left; reflexivity].
  - intros l1 s l2 y E Hdep Hy.
    assert (In s (td_tasks td)) by (rewrite E; apply in_or_app; right; left; reflexivity).
    assert (In y (td_tasks td)) by (rewrite E; apply in_or_app; right; right; exact Hy).
    destruct (Hd s H0) as [-> ->]. destruct (Hd y H1) as [-> ->].
    eapply (pl_kept _ _ _ _ _ Hpl (map t_key l1) (t_key s) (map t_key l2) (t_key y)).
    + rewrite Eo, E, map_app. reflexivity.
    + destruct (Nat.eq_dec (dependents g (t_key s)) 0) as [|Hn]; [assumption|].
      destruct (proj1 (dependents_In g (t_key s))) as [k Hk]; [lia|]. exfalso. exact (Hdep k Hk).
    + apply in_map. exact Hy.
Qed.
Print Assumptions C19_nodes_apart_partial.
(** Whatever the graph (connections to missing nodes included), no node is placed on the silent channel. *)
Theorem C19_silent_channel_spared : forall g bs a old a1 td, reachable g -> few_links g ->
  plan g bs a old = Some (a1, td) -> forall t, In t (td_tasks td) -> bs <= t_out t.
Proof. intros g bs a old a1 td Hg Hf H. exact (proj1 (plan_spared g bs a old a1 td (reachable_wf g Hg) Hf H)). Qed.
Print Assumptions C19_silent_channel_spared.
(** Planning succeeds for every graph whose nodes all have an output and whose connections come from
    existing outputs of nodes that were not freed. *)
Theorem C19_plan_succeeds_partial : forall g bs a old, reachable g -> refs_ok g -> pars_ok g -> 0 < bs ->
  (N.of_nat (links g) < usize_max)%N -> (forall k n, lookup g k = Some n -> 0 < n_outputs n) ->
  exists r, plan g bs a old = Some r.
Proof. intros g bs a old Hg. apply plan_total. exact (reachable_wf g Hg). Qed.
Print Assumptions C19_plan_succeeds_partial.

Lemma ex_refs : refs_ok ex_g.
Proof. exact (proj1 (plain_run_refs _ _ _ ex_plain (graph_new_wf _ _ _ _) (graph_new_refs _ _ _ _))). Qed.
Definition ex_plan : alloc * task_data :=
  match plan ex_g 2 (alloc_new 8) (fun _ => false) with Some r => r | None => (alloc_new 8, mk_td [] []) end.
Example C19_plan_case : reachable ex_g /\ refs_ok ex_g /\ pars_ok ex_g /\ (N.of_nat (links ex_g) < usize_max)%N /\
  (forall k n, lookup ex_g k = Some n -> 0 < n_outputs n) /\
  plan ex_g 2 (alloc_new 8) (fun _ => false) = Some ex_plan /\
  map t_key (td_tasks (snd ex_plan)) = [0; 1; 3; 2] /\ map t_out (td_tasks (snd ex_plan)) = [2; 4; 6; 4].
Proof.
  split; [exact ex_reachable|]. split; [exact ex_refs|]. split.
  { intros k ps p Hp Hin. exfalso. unfold pedges_of in Hp. destruct (lookup ex_g k) as [n|] eqn:E; [|discriminate].
    apply (ex_no_par (p_src p) k). exists n, ps, p. auto. }
  split; [vm_compute; reflexivity|]. split; [|vm_compute; auto].
  intros k n. do 4 (destruct k as [|k]; [vm_compute; intros H; injection H as <-; cbn; lia|]). vm_compute. discriminate.
Qed.

(** ** False in general: nodes without outputs *)
(** Node 0 has no outputs, node 1 feeds node 2: the empty region of node 0 starts where the next region
    starts, the return of node 1's region finds the empty one and the borrow count goes below zero. *)
Definition zero_out_ops : list op :=
  [ OpPush 0 0 [] false; OpPush 0 1 [] false; OpPush 1 1 [] false; OpConnect (nd 1) 0 0 (nd 2) true false ].
Theorem C19_no_outputs_refuted : exists g, run (graph_new 7 0 1 [0; 1; 2]) zero_out_ops = Some g /\ refs_ok g /\ pars_ok g /\
  node_order g = Some [0; 1; 2] /\ plan g 2 (alloc_new 8) (fun _ => false) = None.
Proof.
  eexists. split; [vm_compute; reflexivity|].
  assert (E : forall g, run (graph_new 7 0 1 [0; 1; 2]) zero_out_ops = Some g -> refs_ok g).
  { intros g H. assert (Hp : plain_run (graph_new 7 0 1 [0; 1; 2]) zero_out_ops g).
    { unfold zero_out_ops in *. do 4 (eapply plain_cons; [first [exact I|split; [reflexivity|live_tac]]|vm_compute; reflexivity|]).
      vm_compute in H. injection H as <-. vm_compute. constructor. }
    exact (proj1 (plain_run_refs _ _ _ Hp (graph_new_wf _ _ _ _) (graph_new_refs _ _ _ _))). }
  split; [apply E; vm_compute; reflexivity|]. split; [|split; vm_compute; reflexivity].
  intros k ps p Hp Hin. exfalso. revert Hp Hin. do 3 (destruct k as [|k]; [vm_compute; intros H; injection H as <-; intros []|]).
  vm_compute. discriminate.
Qed.
Print Assumptions C19_no_outputs_refuted.
(** At the level of the allocator: an empty region, then one of one channel; the legal return fails. *)
Theorem C19_no_outputs_allocator_refuted : exists a0 a1 off1 a2 off2, reset (alloc_new 8) 2 = Some a0 /\
  get_block a0 0 2 0 = Some (a1, off1) /\ get_block a1 1 2 1 = Some (a2, off2) /\ return_block a2 off2 = None.
Proof. repeat eexists; vm_compute; reflexivity. Qed.
Print Assumptions C19_no_outputs_allocator_refuted.
(** A node without outputs placed at the very end of a full allocation has no address: the commit panics. *)
Definition zero_end_ops : list op :=
  [ OpPush 0 3 [] false; OpPush 1 0 [] false; OpConnect (nd 0) 0 0 NGraph true false ].
Theorem C19_no_outputs_end_refuted : exists g, run (graph_new 7 0 1 [0; 1]) zero_end_ops = Some g /\
  node_order g = Some [0; 1] /\ plan g 2 (alloc_new 8) (fun _ => false) = None.
Proof. eexists. split; [vm_compute; reflexivity|]. split; vm_compute; reflexivity. Qed.
Print Assumptions C19_no_outputs_end_refuted.
