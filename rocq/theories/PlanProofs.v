(** What a successful plan looks like: addresses of all nodes and the tasks. *)
From Coq Require Import Permutation.
From Verif Require Import Base GraphModel GraphSpec GraphBase GraphPath GraphInv GraphShape GraphRefs GraphClean
  OrderModel OrderSpec OrderProofs AllocModel AllocProofs PlaceProofs RenderSpec.
Local Open Scope nat_scope.

(** ** lists *)
Lemma map_opt_spec {A B} (f : A -> option B) l r : map_opt f l = Some r -> Forall2 (fun x y => f x = Some y) l r.
Proof.
  revert r. induction l as [|x l IH]; intros r H; cbn [map_opt] in H; [injection H as <-; constructor|].
  destruct (f x) as [y|] eqn:E; cbn [bind] in H; [|discriminate].
  destruct (map_opt f l) as [ys|]; cbn [bind] in H; [|discriminate]. injection H as <-. constructor; auto.
Qed.
Lemma map_opt_total {A B} (f : A -> option B) l : (forall x, In x l -> exists y, f x = Some y) -> exists r, map_opt f l = Some r.
Proof.
  induction l as [|x l IH]; intros H; cbn [map_opt]; [eauto|].
  destruct (H x) as [y ->]; [left; reflexivity|]. destruct IH as [r ->]; [intros z Hz; apply H; right; exact Hz|]. cbn. eauto.
Qed.
Lemma Forall2_map_eq {A B} (f : A -> option B) (h : A -> B) l r : Forall2 (fun x y => f x = Some y) l r ->
  (forall x y, In x l -> f x = Some y -> y = h x) -> r = map h l.
Proof.
  intros H. induction H as [|x y l r Hxy _ IH]; intros Hh; cbn; [reflexivity|]. f_equal.
  - apply Hh; [left; reflexivity|exact Hxy].
  - apply IH. intros z w Hz. apply Hh. right. exact Hz.
Qed.
Lemma sub_permutation {A} (l1 l2 : list A) : NoDup l1 -> incl l1 l2 -> exists l3, Permutation l2 (l1 ++ l3).
Proof.
  intros Hnd. revert l2. induction Hnd as [|x l1 Hx Hnd IH]; intros l2 Hi; [exists l2; reflexivity|].
  destruct (in_split x l2) as (m1 & m2 & ->); [apply Hi; left; reflexivity|].
  destruct (IH (m1 ++ m2)) as [l3 Hp].
  { intros y Hy. assert (Hin : In y (m1 ++ x :: m2)) by (apply Hi; right; exact Hy).
    apply in_app_or in Hin as [H|[H|H]]; [apply in_or_app; auto| |apply in_or_app; auto]. subst y. contradiction. }
  exists l3. cbn. rewrite <- Hp. symmetry. apply Permutation_middle.
Qed.
Lemma flat_map_sub {B} (f : key -> list B) l1 l2 : NoDup l1 -> incl l1 l2 ->
  exists l3, Permutation (flat_map f l2) (flat_map f l1 ++ l3).
Proof.
  intros Hnd Hi. destruct (sub_permutation l1 l2 Hnd Hi) as [l3 Hp]. exists (flat_map f l3).
  rewrite <- flat_map_app. apply Permutation_flat_map. exact Hp.
Qed.
Lemma cnt_perm l1 l2 s : Permutation l1 l2 -> cnt l1 s = cnt l2 s.
Proof. intros H. unfold cnt. apply (Permutation_count_occ Nat.eq_dec). exact H. Qed.

Lemma Forall2_impl {A B} (R Q : A -> B -> Prop) l r : (forall x y, R x y -> Q x y) -> Forall2 R l r -> Forall2 Q l r.
Proof. intros H HF. induction HF; constructor; auto. Qed.
Lemma Forall2_In {A B} (R : A -> B -> Prop) l r x : Forall2 R l r -> In x l -> exists y, R x y.
Proof. intros H. induction H; intros []; subst; eauto. Qed.

(** ** sources *)
Lemma edge_sources_spec es s : In s (edge_sources es) <-> exists c e, nth_error es c = Some (Some e) /\ e_src e = Some s.
Proof.
  unfold edge_sources. rewrite in_flat_map. split.
  - intros (o & Hin & Hs). destruct o as [e|]; [|destruct Hs]. destruct (e_src e) as [t|] eqn:E; [|destruct Hs].
    destruct Hs as [<-|[]]. apply In_nth_error in Hin as [c Hc]. eauto.
  - intros (c & e & Hc & Hs). exists (Some e). split; [eapply nth_error_In; eauto|]. rewrite Hs. left. reflexivity.
Qed.
Lemma sources_spec g k s : In s (sources g k) <-> depends g s k.
Proof.
  unfold sources. rewrite in_app_iff. unfold depends, feeds, in_edge. split.
  - intros [H|H].
    + destruct (edges_of g k) as [es|] eqn:E; [|destruct H]. apply edge_sources_spec in H as (c & e & Hc & Hs).
      left. exists c, e. rewrite Hc. auto.
    + destruct (pedges_of g k) as [ps|] eqn:E; [|destruct H]. right. apply (par_sources_spec g k ps s E). exact H.
  - intros [(c & e & He & Hs)|H].
    + left. destruct (edges_of g k) as [es|]; [|discriminate]. apply edge_sources_spec. exists c, e.
      destruct (nth_error es c) as [o|]; [subst o; auto|discriminate].
    + right. pose proof H as (n & ps & p & El & Ep & _). assert (E : pedges_of g k = Some ps).
      { unfold pedges_of. rewrite El. exact Ep. }
      rewrite E. apply (par_sources_spec g k ps s E). exact H.
Qed.
Lemma dependents_In g s : 0 < dependents g s <-> exists k, depends g s k.
Proof.
  unfold dependents. change (0 < cnt (flat_map (sources g) (map fst (g_nodes g))) s <-> exists k, depends g s k).
  rewrite cnt_In, in_flat_map. split.
  - intros (k & _ & H). exists k. apply sources_spec. exact H.
  - intros (k & H). exists k. split; [|apply sources_spec; exact H].
    destruct H as [(c & e & He & _)|(n & ps & p & El & _)]; [eapply in_edge_key; eauto|eapply lookup_key; eauto].
Qed.

(** ** plans *)
Definition disj (x lx y ly : nat) : Prop := x + lx <= y \/ y + ly <= x.
Definition links (g : graph) : nat := List.length (flat_map (sources g) (map fst (g_nodes g))).
Definition nouts (g : graph) (k : key) : nat := match lookup g k with Some n => n_outputs n | None => 0 end.

Lemma start_pinv g bs a0 ord (old : key -> bool) : 0 < bs -> (N.of_nat (links g) < usize_max)%N ->
  lay a0 -> a_blocks a0 = [mk_blk 0 bs usize_max] -> a_ret a0 = [] -> NoDup ord -> incl ord (keys g) ->
  pinv g bs a0 (fun k => if old k then Ptr else Off 0) [] (flat_map (sources g) ord) (fun _ => 0).
Proof.
  intros Hbs Hlinks Hl Hb Hr Hnd Hincl. destruct (flat_map_sub (sources g) ord (keys g) Hnd Hincl) as [l3 Hp].
  constructor; [exact Hl| | | | | | |].
  - rewrite Hb. exists (mk_blk 0 bs usize_max). cbn. repeat (split; [reflexivity|]).
    apply Permutation_length in Hp. rewrite app_length in Hp. unfold links in Hlinks. unfold keys in Hp. lia.
  - intros s [].
  - intros s _. destruct (old s); auto.
  - intros l1 s l2 y E. destruct l1; discriminate.
  - intros l1 s l2 E. destruct l1; discriminate.
  - intros s. unfold dependents. change (cnt (flat_map (sources g) ord) s <= cnt (flat_map (sources g) (keys g)) s).
    rewrite (cnt_perm _ _ s Hp), cnt_app. lia.
  - intros i b H. rewrite Hb in H. destruct i as [|i]; [|destruct i; discriminate]. injection H as <-. cbn. lia.
Qed.

Record placed (g : graph) (bs : nat) (order : list key) (off : key -> nat) (size : nat) : Prop := {
  pl_low : forall k, In k order -> bs <= off k;
  pl_high : forall k, In k order -> off k + nouts g k * bs <= size;
  pl_read : forall l1 s l2 k l3 y, order = l1 ++ s :: l2 ++ k :: l3 -> In s (sources g k) -> In y (l2 ++ [k]) ->
    disj (off s) (nouts g s * bs) (off y) (nouts g y * bs);
  pl_kept : forall l1 s l2 y, order = l1 ++ s :: l2 -> dependents g s = 0 -> In y l2 ->
    disj (off s) (nouts g s * bs) (off y) (nouts g y * bs) }.
Definition in_of (bs : nat) (off : key -> nat) (o : option edge) : isrc :=
  match o with
  | None => IBuf 0
  | Some e => match e_src e with None => IGraph (e_chan e) | Some s => IBuf (off s + e_chan e * bs) end
  end.
Definition par_of (bs : nat) (off : key -> nat) (p : pedge) : N * nat := (p_idx p, off (p_src p) + p_chan p * bs).
Definition out_of (bs : nat) (off : key -> nat) (o : option edge) : option isrc :=
  match o with None => None | Some e => Some (in_of bs off (Some e)) end.
(** Task [t] is the one of node [k] under the placement [off]. *)
Definition task_of (g : graph) (bs : nat) (order : list key) (off : key -> nat) (k : key) (t : task) : Prop :=
  exists n es ps, lookup g k = Some n /\ edges_of g k = Some es /\ pedges_of g k = Some ps /\
    t = mk_task k (map (in_of bs off) es) (map (par_of bs off) ps) (off k) (n_outputs n) /\
    (forall p, In p ps -> In (p_src p) order /\ p_chan p < nouts g (p_src p)) /\
    (forall e s, In (Some e) es -> e_src e = Some s -> In s order).

Lemma addr_of_spec a outs order k p : addr_of a outs order k = Some p -> In k order /\ outs k = Off p /\ p < a_size a.
Proof.
  unfold addr_of. destruct (mem k order) eqn:M; [|discriminate]. apply mem_In in M.
  destruct (outs k) as [|o]; [discriminate|]. unfold offset_to_ptr. destruct (Nat.ltb_spec o (a_size a)); [|discriminate].
  intros H'. injection H' as <-. auto.
Qed.

(** The offset chosen for a node. *)
Definition offs (outs : key -> nout) (k : key) : nat := match outs k with Off o => o | Ptr => 0 end.

Lemma plan_inv g bs a old a1 td : plan g bs a old = Some (a1, td) ->
  exists order a0 a2 outs, node_order g = Some order /\ reset a bs = Some a0 /\
    alloc_loop g bs a0 (fun k => if old k then Ptr else Off 0) order = Some (a2, outs) /\ a1 = finish a2 /\
    Forall2 (task_of g bs order (offs outs)) order (td_tasks td) /\
    td_out td = map (out_of bs (offs outs)) (g_outs g) /\
    (forall e s, In (Some e) (g_outs g) -> e_src e = Some s -> In s order /\ e_chan e < nouts g s).
Proof.
  unfold plan. destruct (node_order g) as [order|]; cbn [bind]; [|discriminate].
  destruct (sources_present g); [|discriminate].
  destruct (reset a bs) as [a0|]; cbn [bind]; [|discriminate].
  destruct (alloc_loop g bs a0 _ order) as [[a2 outs]|] eqn:El; cbn [bind fst snd]; [|discriminate].
  destruct (map_opt (node_task _ _ _ _ _) order) as [ts|] eqn:Et; cbn [bind]; [|discriminate].
  destruct (map_opt (out_addr _ _ _ _ _) (g_outs g)) as [os|] eqn:Eo; cbn [bind]; [|discriminate].
  intros H. injection H as <- <-. exists order, a0, a2, outs. do 3 (split; [assumption || reflexivity|]).
  split; [reflexivity|]. cbn [td_tasks td_out]. apply map_opt_spec in Et. apply map_opt_spec in Eo.
  assert (Hin : forall es e s, map_opt (in_addr (finish a2) outs order bs) es <> None -> In (Some e) es -> e_src e = Some s ->
    In s order).
  { intros es e s He Hi Hs. destruct (map_opt (in_addr (finish a2) outs order bs) es) as [r|] eqn:E; [|congruence].
    apply map_opt_spec in E. clear He. induction E as [|x y es r Hxy _ IH]; [destruct Hi|].
    destruct Hi as [->|Hi]; [|auto]. cbn in Hxy. rewrite Hs in Hxy.
    destruct (addr_of (finish a2) outs order s) as [p|] eqn:Ea; [|discriminate]. apply addr_of_spec in Ea. tauto. }
  split; [|split].
  - eapply Forall2_impl; [|exact Et]. intros k t Hk. unfold node_task in Hk.
    destruct (lookup g k) as [n|] eqn:E1; cbn [bind] in Hk; [|discriminate].
    destruct (edges_of g k) as [es|] eqn:E2; cbn [bind] in Hk; [|discriminate].
    destruct (pedges_of g k) as [ps|] eqn:E3; cbn [bind] in Hk; [|discriminate].
    destruct (map_opt (in_addr _ _ _ _) es) as [ins|] eqn:E4; cbn [bind] in Hk; [|discriminate].
    destruct (map_opt (par_addr _ _ _ _ _) ps) as [prs|] eqn:E5; cbn [bind] in Hk; [|discriminate].
    destruct (addr_of _ _ _ k) as [p|] eqn:E6; cbn [bind] in Hk; [|discriminate]. injection Hk as <-.
    exists n, es, ps. do 3 (split; [assumption || reflexivity|]). split; [|split].
    + apply addr_of_spec in E6 as (_ & E6 & _). unfold offs at 3. rewrite E6. f_equal.
      * apply map_opt_spec in E4. eapply Forall2_map_eq; [exact E4|]. intros [e|] y _ Hy; cbn in *.
        -- destruct (e_src e) as [s|]; [|injection Hy as <-; reflexivity].
           destruct (addr_of (finish a2) outs order s) as [q|] eqn:Ea; [|discriminate]. injection Hy as <-.
           apply addr_of_spec in Ea as (_ & Ea & _). unfold offs. rewrite Ea. reflexivity.
        -- unfold offset_to_ptr in Hy. destruct (0 <? _); [|discriminate]. injection Hy as <-. reflexivity.
      * apply map_opt_spec in E5. eapply Forall2_map_eq; [exact E5|]. intros p0 y _ Hy. unfold par_addr in Hy.
        destruct (lookup g (p_src p0)) as [m|]; cbn [bind] in Hy; [|discriminate].
        destruct (addr_of _ _ _ _) as [q|] eqn:Ea; cbn [bind] in Hy; [|discriminate].
        destruct (p_chan p0 <? n_outputs m); [|discriminate]. injection Hy as <-.
        apply addr_of_spec in Ea as (_ & Ea & _). unfold par_of, offs. rewrite Ea. reflexivity.
    + intros p0 Hp0. apply map_opt_spec in E5. clear - Hp0 E5. induction E5 as [|x y ps r Hxy _ IH]; [destruct Hp0|].
      destruct Hp0 as [->|Hp0]; [|auto]. unfold par_addr in Hxy. unfold nouts.
      destruct (lookup g (p_src p0)) as [m|]; cbn [bind] in Hxy; [|discriminate].
      destruct (addr_of _ _ _ _) as [q|] eqn:Ea; cbn [bind] in Hxy; [|discriminate].
      destruct (Nat.ltb_spec (p_chan p0) (n_outputs m)) as [Hlt|]; [|discriminate].
      apply addr_of_spec in Ea as (Ha & _). auto.
    + intros e s Hi Hs. eapply Hin; [|exact Hi|exact Hs]. congruence.
  - eapply Forall2_map_eq; [exact Eo|]. intros [e|] y _ Hy; cbn [out_addr out_of in_of] in *; [|injection Hy as <-; reflexivity].
    destruct (e_src e) as [s|]; [|injection Hy as <-; reflexivity].
    destruct (lookup g s) as [m|]; cbn [bind] in Hy; [|discriminate].
    destruct (addr_of _ _ _ _) as [q|] eqn:Ea; cbn [bind] in Hy; [|discriminate].
    destruct (e_chan e <? n_outputs m); [|discriminate]. injection Hy as <-.
    apply addr_of_spec in Ea as (_ & Ea & _). unfold offs. rewrite Ea, Nat.mul_comm. reflexivity.
  - intros e s Hi Hs. clear - Hi Hs Eo. induction Eo as [|x y es r Hxy _ IH]; [destruct Hi|].
    destruct Hi as [->|Hi]; [|auto]. unfold out_addr in Hxy. rewrite Hs in Hxy. unfold nouts.
    destruct (lookup g s) as [m|]; cbn [bind] in Hxy; [|discriminate].
    destruct (addr_of _ _ _ _) as [q|] eqn:Ea; cbn [bind] in Hxy; [|discriminate].
    destruct (Nat.ltb_spec (e_chan e) (n_outputs m)) as [Hlt|]; [|discriminate].
    apply addr_of_spec in Ea as (Ha & _). auto.
Qed.

Lemma order_incl g order : wf g -> node_order g = Some order -> incl order (keys g).
Proof. intros Hw H k Hk. apply live_key. apply (order_once g order Hw H). exact Hk. Qed.

Lemma plan_out g bs a old a1 td : wf g -> refs_ok g -> plan g bs a old = Some (a1, td) ->
  forall s n, 0 < dependents g s -> lookup g s = Some n -> 0 < n_outputs n.
Proof.
  intros Hw [Hr _] H s n Hd El. destruct (plan_inv _ _ _ _ _ _ H) as (order & a0 & a2 & outs & Ho & _ & _ & _ & Ht & _ & _).
  apply dependents_In in Hd as (k & [(c & e & He & Hs)|Hp]).
  - specialize (Hr k c e He). unfold edge_ok in Hr. rewrite Hs in Hr. destruct Hr as (m & El' & _ & Hc).
    rewrite El in El'. injection El' as <-. lia.
  - pose proof Hp as (m & ps & p & Elk & Ep & Hin & Hs).
    assert (Hlive : live g k).
    { destruct (n_edges m) as [es|] eqn:Ee; [exists m, es; auto|].
      destruct (sh_node g (proj2 Hw) k m Elk) as (_ & _ & Hpe). assert (n_pedges m = None) by (apply Hpe; exact Ee). congruence. }
    apply (order_once g order Hw Ho) in Hlive. clear Ho.
    assert (exists t, task_of g bs order (offs outs) k t) as (t & n' & es & ps' & E1 & _ & E3 & _ & Hpar & _).
    { eapply Forall2_In; [exact Ht|exact Hlive]. }
    assert (ps' = ps). { unfold pedges_of in E3. rewrite Elk in E3. cbn in E3. congruence. }
    subst ps'. destruct (Hpar p Hin) as [_ Hlt]. rewrite Hs in Hlt. unfold nouts in Hlt. rewrite El in Hlt. lia.
Qed.

Lemma plan_placed g bs a old a1 td : wf g -> refs_ok g -> 0 < bs -> (N.of_nat (links g) < usize_max)%N ->
  plan g bs a old = Some (a1, td) ->
  exists order off, node_order g = Some order /\ placed g bs order off (a_size a1) /\
    Forall2 (task_of g bs order off) order (td_tasks td) /\ td_out td = map (out_of bs off) (g_outs g) /\
    (forall e s, In (Some e) (g_outs g) -> e_src e = Some s -> In s order /\ e_chan e < nouts g s).
Proof.
  intros Hw Hr Hbs Hlinks H. pose proof (plan_out _ _ _ _ _ _ Hw Hr H) as Hout.
  destruct (plan_inv _ _ _ _ _ _ H) as (order & a0 & a2 & outs & Ho & Hreset & Hloop & -> & Ht & Htd & Hoe).
  destruct (reset_spec a bs) as (a0' & Er & Hl & _ & Hb & Hret & _). rewrite Hreset in Er. injection Er as <-.
  destruct (order_once g order Hw Ho) as [Hnd _].
  pose proof (start_pinv g bs a0 order old Hbs Hlinks Hl Hb Hret Hnd (order_incl g order Hw Ho)) as Hp0.
  destruct (loop_step g bs Hbs Hout order _ _ [] _ Hp0 Hnd _ _ Hloop) as (ix & Hp & _ & Hh). cbn [app] in *.
  exists order, (offs outs). split; [exact Ho|]. split; [|split; [exact Ht|split; [exact Htd|exact Hoe]]].
  destruct (p_zero _ _ _ _ _ _ _ Hp) as (b0 & Z1 & Z2 & Z3 & _).
  assert (Hblk : forall k, In k order -> exists b, nth_error (a_blocks a2) (ix k) = Some b /\ offs outs k = b_start b /\
    nouts g k * bs <= b_len b /\ ix k <> 0).
  { intros k Hk. destruct (p_done _ _ _ _ _ _ _ Hp k Hk) as (n & b & A1 & A2 & A3 & A4 & A5 & _).
    exists b. unfold offs, nouts. rewrite A3, A1. auto. }
  pose proof (p_lay _ _ _ _ _ _ _ Hp) as Hlay.
  assert (Hdisj : forall s y, In s order -> In y order -> ix y <> ix s ->
    disj (offs outs s) (nouts g s * bs) (offs outs y) (nouts g y * bs)).
  { intros s y Hs Hy Hne. destruct (Hblk s Hs) as (b & B1 & B2 & B3 & _). destruct (Hblk y Hy) as (c & C1 & C2 & C3 & _).
    rewrite B2, C2. unfold disj. destruct (Nat.lt_ge_cases (ix s) (ix y)) as [Hlt|Hge].
    - pose proof (la_order _ Hlay _ _ _ _ Hlt B1 C1). lia.
    - assert (Hlt : ix y < ix s) by lia. pose proof (la_order _ Hlay _ _ _ _ Hlt C1 B1). lia. }
  constructor.
  - intros k Hk. destruct (Hblk k Hk) as (b & B1 & B2 & B3 & B4). rewrite B2.
    assert (Hlt : 0 < ix k) by lia. pose proof (la_order _ Hlay _ _ _ _ Hlt Z1 B1). lia.
  - intros k Hk. destruct (Hblk k Hk) as (b & B1 & B2 & B3 & B4). rewrite B2.
    pose proof (la_next _ Hlay _ _ B1). pose proof (la_virtual _ Hlay). unfold finish. cbn [a_size].
    destruct (Nat.leb_spec (a_virtual a2) (a_size a2)); lia.
  - intros l1 s l2 k l3 y E Hs Hy. apply Hdisj.
    + rewrite E. apply in_or_app. right. left. reflexivity.
    + rewrite E. apply in_or_app. right. right. apply in_app_or in Hy as [Hy|[<-|[]]]; apply in_or_app; [left; exact Hy|right; left; reflexivity].
    + eapply (Hh (l1 ++ s :: l2) k l3); [rewrite E, <- app_assoc; reflexivity|exact Hs| |exact Hy].
      rewrite <- app_assoc. reflexivity.
  - intros l1 s l2 y E Hd Hy. apply Hdisj.
    + rewrite E. apply in_or_app. right. left. reflexivity.
    + rewrite E. apply in_or_app. right. right. exact Hy.
    + exact (proj2 (p_final _ _ _ _ _ _ _ Hp l1 s l2 E Hd) y Hy).
Qed.
