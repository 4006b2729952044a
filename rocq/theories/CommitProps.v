(** C12, C14: exactly when a commit panics. *)
From Verif Require Import Base GraphModel GraphSpec GraphBase GraphPath GraphInv GraphShape GraphSums GraphRefs
  GraphClean GraphStep ExactSpec CommitExact GraphProps.
Local Open Scope nat_scope.

(** In a graph without feedback pairs in which every sum still has an input, the commit succeeds exactly if every
    sum has both inputs or every graph output is connected. *)
Theorem C12_commit_exactly : forall id inputs outputs slots ops g applied,
  plain_run (graph_new id inputs outputs slots) ops g -> none_raised g -> sums_fed g ->
  ((exists g', step g (OpCommit applied) = Some (g', Ok)) <-> sums_full g \/ outs_all g).
Proof.
  intros id i o slots ops g applied Hp Hr Hf. destruct (plain_run_clean _ _ _ _ _ _ Hp) as (Hw & _ & Hn).
  assert (Hra : raised (g_nodes g) = []) by (apply none_raised_nil; [exact (bi_nodup g (proj1 (proj1 Hw)))|exact Hr]).
  split.
  - intros [g' E]. destruct (outs_all_dec g) as [H|H]; [right; exact H|]. left. intros k.
    destruct (whole_dec g k) as [Hk|Hk]; [exact Hk|]. exfalso.
    assert (Hnw : ~ whole g k).
    { intros Hwh. destruct Hk as (A & B & C). destruct (Hwh A B). tauto. }
    assert (Ho : ~ outs_all g) by (destruct H as (c & Hc & Eo); intros X; exact (X c Hc Eo)).
    cbn [step] in E. rewrite (commit_stuck _ g k Hw (naf_halves g Hn) Hra Hf Ho Hnw) in E. discriminate.
  - intros H. destruct (commit_progress (fun f => existsb (Nat.eqb f) applied) g Hw Hn) as [g' E]; [|exact Hra|].
    + destruct H as [H|H]; [left; exact H|right; split; assumption].
    + exists g'. cbn [step]. rewrite E. reflexivity.
Qed.
Print Assumptions C12_commit_exactly.

(** In any graph that has been built, feedback pairs included: while every sum has both inputs and every half of a
    feedback pair has an input or a reader, a commit succeeds and changes no node in use and no graph output. *)
Theorem C12_commit_untouched : forall g applied, reachable g -> none_raised g -> sums_full g -> halves_used g ->
  exists g', step g (OpCommit applied) = Some (g', Ok) /\
    (forall k, live g k -> lookup g' k = lookup g k) /\ (forall c, out_edge g' c = out_edge g c).
Proof.
  intros g applied H Hr Hf Hh. pose proof (reachable_wf g H) as Hw.
  assert (Hra : raised (g_nodes g) = []) by (apply none_raised_nil; [exact (bi_nodup g (proj1 (proj1 Hw)))|exact Hr]).
  destruct (commit_whole (fun f => existsb (Nat.eqb f) applied) g Hw Hh Hra Hf) as (g' & E & Hl & Ho).
  exists g'. split; [cbn [step]; rewrite E; reflexivity|]. split; [exact Hl|].
  intros c. unfold out_edge. rewrite Ho. reflexivity.
Qed.
Print Assumptions C12_commit_untouched.

(** Freeing a node of a graph without feedback pairs whose sums are complete, when no sum has it on both inputs: the
    next commit succeeds exactly if no sum reads the node, or every graph output is connected to something else. *)
Theorem C14_free_then_commit_exactly : forall id inputs outputs slots ops g h n applied,
  plain_run (graph_new id inputs outputs slots) ops g -> none_raised g -> sums_full g ->
  wrong_graph g h = false -> lookup g (id_key h) = Some n -> n_edges n <> None -> n_mortal n = true ->
  n_strong n = None ->
  let reads s c := exists e, in_edge g s c = Some e /\ e_src e = Some (id_key h) in
  (forall s, live g s -> summing g s = true -> s <> id_key h -> ~ (reads s 0 /\ reads s 1)) ->
  exists g', step g (OpFree h) = Some (g', Ok) /\
    ((exists g2, step g' (OpCommit applied) = Some (g2, Ok)) <->
     (forall s c, live g s -> summing g s = true -> s <> id_key h -> c < 2 -> ~ reads s c) \/
     (forall c, c < g_outputs g -> exists e, out_edge g c = Some e /\ e_src e <> Some (id_key h))).
Proof.
  intros id i o slots ops g h n applied Hp Hr Hf Hwg El He Hm Hst reads Hboth.
  destruct (plain_run_clean _ _ _ _ _ _ Hp) as (Hw & _ & _).
  set (k := id_key h) in *. pose proof (edit_free_lone g h n (proj2 Hw) Hwg El He Hm Hst) as Ef. fold k in Ef.
  exists (freed_state g k). split; [exact Ef|].
  assert (Hstep : step g (OpFree h) = Some (freed_state g k, Ok)) by exact Ef.
  assert (Hp' : plain_run (graph_new id i o slots) (ops ++ [OpFree h]) (freed_state g k)).
  { eapply plain_run_app; [exact Hp|]. eapply plain_cons; [exact I|exact Hstep|constructor]. }
  assert (Hr' : none_raised (freed_state g k)).
  { eapply frees_raised; [|exact Hr]. cbn [step] in Hstep. unfold edit_free in Hstep. rewrite Hwg in Hstep.
    eapply free_fuel_frees. exact Hstep. }
  assert (Hnone : forall s c, live g s -> summing g s = true -> s <> k -> c < 2 ->
    (in_edge (freed_state g k) s c = None <-> reads s c)).
  { intros s c Hl Hs Hne Hc. rewrite in_edge_freed. pose proof Hne as Hne'. apply Nat.eqb_neq in Hne'. rewrite Hne'.
    rewrite clear_none. destruct (Hf s Hl Hs) as [A B]. unfold reads. split.
    - intros H. assert (Hx : in_edge g s c <> None) by (destruct c as [|[|c]]; [exact A|exact B|lia]).
      destruct (in_edge g s c) as [e|]; [|congruence]. exists e. split; [reflexivity|]. apply H. reflexivity.
    - intros (e & E & Hk) e' E'. congruence. }
  assert (Hlive : forall s, live (freed_state g k) s <-> live g s /\ s <> k).
  { intros s. split; [apply live_freed|]. intros [A B]. apply live_freed_back; assumption. }
  rewrite (C12_commit_exactly _ _ _ _ _ _ applied Hp' Hr').
  - unfold sums_full, outs_all. split.
    + intros [H|H]; [left|right].
      * intros s c Hl Hs Hne Hc Hrd. apply (Hnone s c Hl Hs Hne Hc) in Hrd.
        destruct (H s) as [A B]; [apply Hlive; auto|rewrite summing_freed; exact Hs|].
        destruct c as [|[|c]]; [contradiction|contradiction|lia].
      * intros c Hc. specialize (H c Hc). rewrite out_edge_freed in H.
        destruct (out_edge g c) as [e|] eqn:E; [|exfalso; apply H; reflexivity]. exists e. split; [reflexivity|].
        intros Hk. apply H. apply clear_none. intros e' E'. congruence.
    + intros [H|H]; [left|right].
      * intros s Hl Hs. apply Hlive in Hl as [Hl Hne]. rewrite summing_freed in Hs.
        split; intros E; (apply Hnone in E; [|assumption|assumption|assumption|lia]); refine (H s _ Hl Hs Hne _ E); lia.
      * intros c Hc. specialize (H c Hc) as (e & E & Hk). rewrite out_edge_freed, E. cbn.
        destruct (from_key k e) eqn:Ek; [|discriminate]. apply from_key_spec in Ek. contradiction.
  - intros s Hl Hs. apply Hlive in Hl as [Hl Hne]. rewrite summing_freed in Hs.
    destruct (in_edge (freed_state g k) s 0) eqn:E0; [left; discriminate|].
    destruct (in_edge (freed_state g k) s 1) eqn:E1; [right; discriminate|]. exfalso.
    apply Hnone in E0; [|assumption|assumption|assumption|lia].
    apply Hnone in E1; [|assumption|assumption|assumption|lia].
    exact (Hboth s Hl Hs Hne (conj E0 E1)).
Qed.
Print Assumptions C14_free_then_commit_exactly.

(** The example graph: node 3 is the sum of nodes 0 and 1.  Both graph outputs are connected, output 1 to node 0:
    after freeing node 1 the commit succeeds, after freeing node 0 it panics. *)
Lemma ex_sum k : summing ex_g k = true -> k = 3.
Proof.
  intros Hk. unfold summing in Hk. destruct (lookup ex_g k) as [n|] eqn:E; [|discriminate].
  apply (forall_lookup (fun k n => if n_auto_math n then k =? 3 else true) ex_g) in E; [|vm_compute; reflexivity].
  rewrite Hk in E. apply Nat.eqb_eq. exact E.
Qed.
Example commit_case : plain_run ex_start ex_ops ex_g /\ none_raised ex_g /\ sums_full ex_g /\ sums_fed ex_g /\
  halves_used ex_g /\ reachable ex_g /\
  (forall k, k = 0 \/ k = 1 -> exists n, lookup ex_g k = Some n /\ n_edges n <> None /\ n_mortal n = true /\ n_strong n = None) /\
  (exists g' g2, step ex_g (OpFree (mk_id 1 7)) = Some (g', Ok) /\ step g' (OpCommit []) = Some (g2, Ok)) /\
  (exists g', step ex_g (OpFree (mk_id 0 7)) = Some (g', Ok) /\ step g' (OpCommit []) = None).
Proof.
  split; [exact ex_plain|]. split.
  { intros k n H. apply (forall_lookup (fun _ n => match n_remove_me n with Some true => false | _ => true end) ex_g) in H;
      [|vm_compute; reflexivity]. intros E. rewrite E in H. discriminate. }
  split; [intros k _ Hk; apply ex_sum in Hk; subst k; split; vm_compute; discriminate|].
  split; [intros k _ Hk; apply ex_sum in Hk; subst k; left; vm_compute; discriminate|].
  split; [apply naf_halves; exact (proj1 (proj2 C12_case))|].
  split; [exact ex_reachable|].
  split; [intros k [-> | ->]; eexists; (split; [vm_compute; reflexivity|]); (split; [discriminate|split; reflexivity])|].
  split; [eexists; eexists; split; vm_compute; reflexivity|].
  eexists; split; vm_compute; reflexivity.
Qed.
