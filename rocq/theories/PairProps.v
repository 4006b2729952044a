(** C12: the pair of hidden nodes of a feedback connection goes away with the connection. *)
From Verif Require Import Base GraphModel GraphSpec GraphBase GraphInv HandleFeedback.
Local Open Scope nat_scope.

(** Both nodes of a new pair are marked to be freed when unused and name each other as the node that goes with them; all
    other nodes stay as they are. *)
Theorem C12_new_pair : forall g, reachable g -> exists g' a b, new_feedback_nodes g = (g', (a, b)) /\ a <> b /\ lookup g a = None /\ lookup g b = None /\
  (exists n, lookup g' a = Some n /\ n_auto_free n = true /\ n_strong n = Some b) /\
  (exists n, lookup g' b = Some n /\ n_auto_free n = true /\ n_strong n = Some a) /\
  forall k, k <> a -> k <> b -> lookup g' k = lookup g k.
Proof.
  intros g Hr. pose proof (reachable_inv g Hr) as Hi. pose proof (fun k => feedback_lookup g k Hi) as L.
  assert (E : snd (new_feedback_nodes g) = (S (g_next g), g_next g)).
  { unfold new_feedback_nodes, push_node. destruct (g_slots g) as [|p [|q s]]; reflexivity. }
  destruct (new_feedback_nodes g) as [g' [a b]]. cbn [fst snd] in E, L. injection E as -> ->.
  exists g', (S (g_next g)), (g_next g). split; [reflexivity|]. split; [lia|].
  assert (O : forall k, g_next g <= k -> lookup g k = None).
  { intros k Hk. destruct (lookup g k) as [n|] eqn:En; [|reflexivity]. pose proof (bi_lt g (proj1 Hi) k) as B.
    assert (k < g_next g) by (apply B; eapply lookup_key; exact En). lia. }
  split; [apply O; lia|]. split; [apply O; lia|].
  split; [|split].
  - rewrite L. replace (S (g_next g) =? g_next g) with false by (symmetry; apply Nat.eqb_neq; lia). rewrite Nat.eqb_refl.
    eexists. split; [reflexivity|]. split; reflexivity.
  - rewrite L, Nat.eqb_refl. eexists. split; [reflexivity|]. split; reflexivity.
  - intros k H1 H2. rewrite L. apply Nat.eqb_neq in H1, H2. rewrite H1, H2. reflexivity.
Qed.
Print Assumptions C12_new_pair.

(** Two nodes connected with feedback: nodes 2 and 3 are the pair. A commit keeps them; disconnecting either end and
    committing frees both, and disconnecting the sink does so at once. *)
Definition at_node k := NNode (mk_id k 7).
Definition fed : list op := [OpPush 1 1 [] false; OpPush 1 1 [] false; OpConnect (at_node 0) 0 0 (at_node 1) true true].
Definition left_after (ops : list op) : option (list key) :=
  option_map (fun g => map fst (filter (fun kn => match n_edges (snd kn) with Some _ => true | None => false end) (g_nodes g)))
    (run (graph_new 7 0 1 []) (fed ++ ops)).
Example C12_pair_case : left_after [OpCommit []] = Some [0; 1; 2; 3] /\ left_after [OpDisconnectIn 0 (at_node 1)] = Some [0; 1] /\
  left_after [OpDisconnectIn 0 (at_node 1); OpCommit []] = Some [0; 1] /\ left_after [OpDisconnectOut (at_node 0) 0; OpCommit []] = Some [0; 1].
Proof. vm_compute. repeat split; reflexivity. Qed.
