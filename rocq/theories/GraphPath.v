(** [has_path] decides reachability. *)
From Verif Require Import Base GraphModel GraphSpec GraphBase.
Local Open Scope nat_scope.

Definition expand (g : graph) (k : key) : list key :=
  match edges_of g k with Some es => parents es | None => [] end.

Lemma parents_In es p : In p (parents es) <-> exists c e, nth_error es c = Some (Some e) /\ e_src e = Some p.
Proof.
  unfold parents. rewrite in_flat_map. split.
  - intros (o & Hin & Hp). apply In_nth_error in Hin as [c Hc].
    destruct o as [e|]; [|destruct Hp]. destruct (e_src e) as [q|] eqn:E; [|destruct Hp].
    destruct Hp as [->|[]]. eauto.
  - intros (c & e & Hc & He). exists (Some e). split; [eapply nth_error_In; eauto|].
    rewrite He. cbn. auto.
Qed.
Lemma expand_feeds g k p : In p (expand g k) <-> feeds g p k.
Proof.
  unfold expand, feeds, in_edge. destruct (edges_of g k) as [es|]; cbn.
  - rewrite parents_In. split; intros (c & e & H1 & H2); exists c, e; split; auto.
    + rewrite H1. reflexivity.
    + destruct (nth_error es c); congruence.
  - split; [intros []|]. intros (c & e & H & _). discriminate.
Qed.

Definition mem (k : key) (l : list key) : bool := existsb (Nat.eqb k) l.
Lemma mem_In k l : mem k l = true <-> In k l.
Proof.
  unfold mem. rewrite existsb_exists. split.
  - intros (x & Hin & E). apply Nat.eqb_eq in E as ->. exact Hin.
  - intros H. exists k. split; [exact H|apply Nat.eqb_refl].
Qed.
Lemma mem_false k l : mem k l = false <-> ~ In k l.
Proof. rewrite <- mem_In. destruct (mem k l); intuition congruence. Qed.

Lemma search_true g from fuel : forall visited stack,
  path_search g from fuel visited stack = Some true -> exists k, In k stack /\ reaches g from k.
Proof.
  induction fuel as [|fuel IH]; intros visited [|k stack]; cbn [path_search]; try discriminate;
    destruct (Nat.eqb_spec k from) as [->|Hne]; try discriminate.
  - intros _. exists from. split; [left; reflexivity|apply rt_refl].
  - intros _. exists from. split; [left; reflexivity|apply rt_refl].
  - destruct (existsb (Nat.eqb k) visited).
    + intros H. apply IH in H as (k' & Hin & Hr). exists k'. split; [right|]; assumption.
    + intros H. apply IH in H as (k' & Hin & Hr). apply in_app_or in Hin as [Hin|Hin].
      * exists k. split; [left; reflexivity|]. apply in_rev in Hin.
        apply (expand_feeds g k k') in Hin. eapply rt_trans; [exact Hr|]. apply rt_step. exact Hin.
      * exists k'. split; [right|]; assumption.
Qed.

Lemma search_false g from fuel : forall visited stack,
  path_search g from fuel visited stack = Some false ->
  ~ In from visited ->
  (forall v p, In v visited -> feeds g p v -> In p visited \/ In p stack) ->
  exists V, incl visited V /\ incl stack V /\ ~ In from V /\
    forall v p, In v V -> feeds g p v -> In p V.
Proof.
  induction fuel as [|fuel IH]; intros visited [|k stack] H Hf Hc; cbn [path_search] in H.
  - exists visited. repeat split; auto; [apply incl_refl|intros ? []|].
    intros v p Hv Hp. destruct (Hc v p Hv Hp) as [|[]]; assumption.
  - destruct (k =? from); discriminate.
  - exists visited. repeat split; auto; [apply incl_refl|intros ? []|].
    intros v p Hv Hp. destruct (Hc v p Hv Hp) as [|[]]; assumption.
  - destruct (Nat.eqb_spec k from) as [->|Hne]; [discriminate|].
    destruct (existsb (Nat.eqb k) visited) eqn:Ev.
    + apply (mem_In k visited) in Ev.
      apply IH in H; auto.
      * destruct H as (V & H1 & H2 & H3 & H4). exists V. repeat split; auto.
        intros x [->|Hx]; auto.
      * intros v p Hv Hp. destruct (Hc v p Hv Hp) as [|[->|]]; auto.
    + apply IH in H.
      * destruct H as (V & H1 & H2 & H3 & H4). exists V. repeat split; auto.
        -- intros x Hx. apply H1. right. exact Hx.
        -- intros x [->|Hx]; [apply H1; left; reflexivity|]. apply H2. apply in_or_app. right. exact Hx.
      * intros [->|Hin]; auto.
      * intros v p [->|Hv] Hp.
        -- right. apply in_or_app. left. apply -> in_rev. apply (expand_feeds g v p). exact Hp.
        -- destruct (Hc v p Hv Hp) as [|[->|]]; [left; right; assumption|left; left; reflexivity|].
           right. apply in_or_app. right. assumption.
Qed.

(** Fuel *)
Definition cost (visited : list key) (kn : key * node) : nat :=
  if mem (fst kn) visited then 0
  else match n_edges (snd kn) with Some es => List.length (parents es) | None => 0 end.
Definition work (visited : list key) (l : list (key * node)) : nat :=
  fold_right (fun kn acc => cost visited kn + acc) 0 l.
Lemma work_nil l : work [] l =
  fold_right (fun kn acc => match n_edges (snd kn) with Some es => List.length (parents es) | None => 0 end + acc) 0 l.
Proof. reflexivity. Qed.
Lemma cost_cons k visited kn : cost (k :: visited) kn = if fst kn =? k then 0 else cost visited kn.
Proof.
  unfold cost, mem. cbn [existsb]. destruct (fst kn =? k) eqn:E; cbn [orb]; reflexivity.
Qed.
Lemma work_absent k visited l : ~ In k (map fst l) -> work (k :: visited) l = work visited l.
Proof.
  induction l as [|kn l IH]; cbn; [reflexivity|]. intros H. rewrite cost_cons.
  rewrite (proj2 (Nat.eqb_neq (fst kn) k)) by tauto. fold (work (k :: visited) l) (work visited l). rewrite IH by tauto. reflexivity.
Qed.
Lemma work_visit g k visited : NoDup (keys g) -> ~ In k visited ->
  work (k :: visited) (g_nodes g) + List.length (expand g k) = work visited (g_nodes g).
Proof.
  intros Hnd Hv. unfold expand, edges_of, lookup, keys in *.
  induction (g_nodes g) as [|[k1 n1] l IH]; cbn [work fold_right nlookup map fst] in *; [reflexivity|].
  inversion Hnd as [|? ? Hn1 Hnd']; subst. rewrite cost_cons. cbn [fst].
  destruct (Nat.eqb_spec k1 k) as [->|Hne].
  - cbn [bind]. pose proof (work_absent k visited l Hn1) as Ha. unfold work in *. rewrite Ha.
    unfold cost at 2. cbn [fst snd]. rewrite (proj2 (mem_false k visited) Hv).
    destruct (n_edges n1); cbn; lia.
  - specialize (IH Hnd'). unfold work in *. lia.
Qed.
Lemma search_fuel g from fuel : NoDup (keys g) -> forall visited stack,
  work visited (g_nodes g) + List.length stack <= fuel ->
  path_search g from fuel visited stack <> None.
Proof.
  intros Hnd. induction fuel as [|fuel IH]; intros visited [|k stack] Hw; cbn [path_search List.length] in *;
    try discriminate; destruct (k =? from); try discriminate; try lia.
  destruct (existsb (Nat.eqb k) visited) eqn:Ev.
  - apply IH. lia.
  - apply IH. rewrite app_length, rev_length.
    pose proof (work_visit g k visited Hnd (proj1 (mem_false _ _) Ev)) as Hx. unfold expand in Hx. lia.
Qed.

Lemma has_path_total g from to : NoDup (keys g) -> has_path g from to <> None.
Proof.
  intros Hnd. apply search_fuel; [exact Hnd|]. unfold path_fuel. rewrite work_nil. cbn. lia.
Qed.
Lemma has_path_spec g from to : NoDup (keys g) ->
  exists b, has_path g from to = Some b /\ (b = true <-> reaches g from to).
Proof.
  intros Hnd. pose proof (has_path_total g from to Hnd) as Ht.
  destruct (has_path g from to) as [b|] eqn:E; [|congruence]. exists b. split; [reflexivity|].
  destruct b; split; try congruence; auto.
  - intros _. apply search_true in E as (k & [->|[]] & Hr). exact Hr.
  - intros Hr. exfalso. apply search_false in E; [|intros []|intros v p []].
    destruct E as (V & _ & Hs & Hf & Hc). apply Hf.
    assert (Hto : In to V) by (apply Hs; left; reflexivity).
    clear - Hr Hc Hto. apply clos_rt_rt1n in Hr. induction Hr; auto.
    eapply Hc; [apply IHHr; auto|exact H].
Qed.
