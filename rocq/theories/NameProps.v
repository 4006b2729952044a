(** C78: a name finds its node *)
From Coq Require Import Ascii.
From Verif Require Import Base GraphModel GraphSpec GraphBase NameModel NameSpec.
Local Open Scope nat_scope.
Local Notation length := List.length.
Local Notation concat := List.concat.

(** A name finds exactly the first node, in slot order, that has it. *)
Theorem C78_finds_exactly : forall x s id, find_name x s = Some id <->
  id_graph id = g_id (nm_g x) /\ exists l1 n l2, g_nodes (nm_g x) = l1 ++ (id_key id, n) :: l2 /\ nm_names x (id_key id) = s /\ forall k' n', In (k', n') l1 -> nm_names x k' <> s.
Proof.
  intros x s id. unfold find_name. generalize (g_nodes (nm_g x)). intros l. split.
  - induction l as [| [k n] l IH]; cbn [find option_map fst]; [discriminate |]. destruct (String.eqb_spec (nm_names x k) s) as [E | E]; cbn [option_map fst].
    + intros H. injection H as <-. cbn [id_graph id_key]. split; [reflexivity |]. exists [], n, l. split; [reflexivity |]. split; [exact E |]. intros k' n' [].
    + intros H. destruct (IH H) as (G & l1 & m & l2 & -> & Hn & Hb). split; [exact G |]. exists ((k, n) :: l1), m, l2. split; [reflexivity |]. split; [exact Hn |].
      intros k' n' [H1 | H1]; [injection H1 as <- <-; exact E | exact (Hb k' n' H1)].
  - intros (G & l1 & n & l2 & -> & Hn & Hb). induction l1 as [| [k m] l1 IH]; cbn [app find fst].
    + rewrite Hn, String.eqb_refl. cbn [option_map fst]. destruct id as [a b]; cbn [id_key id_graph] in *. congruence.
    + destruct (String.eqb_spec (nm_names x k) s) as [E | E]; [exfalso; exact (Hb k m (or_introl eq_refl) E) |]. apply IH. intros k' n' H. apply (Hb k' n'). right. exact H.
Qed.
Print Assumptions C78_finds_exactly.
Lemma find_only x k s : only_one x k s -> find_name x s = Some (mk_id k (g_id (nm_g x))).
Proof.
  intros (Hi & Hn & Hu). apply C78_finds_exactly. cbn [id_key id_graph]. split; [reflexivity |]. revert Hu. generalize (g_nodes (nm_g x)) Hi. clear Hi. intros l Hi Hu.
  induction l as [| [a m] l IH]; [contradiction |]. destruct (Nat.eq_dec a k) as [-> | Ha].
  - exists [], m, l. split; [reflexivity |]. split; [exact Hn | intros k' n' []].
  - destruct IH as (l1 & n & l2 & -> & _ & Hb); [destruct Hi as [Hi | Hi]; [contradiction | exact Hi] | intros k' H; apply Hu; right; exact H |].
    exists ((a, m) :: l1), n, l2. split; [reflexivity |]. split; [exact Hn |]. intros k' n' [H | H]; [injection H as <- <- | exact (Hb _ _ H)].
    intros E. apply Ha. apply Hu; [left; reflexivity | exact E].
Qed.
(** A node given a name is found by it after any further edits, commits and namings of other nodes, as long as it is in the graph
    and no other node in the graph has that name. *)
Theorem C78_recovers : forall x id s y l z, set_name x id s = Some y -> nrun y l = Some z -> keeps (id_key id) l ->
  In (id_key id) (map fst (g_nodes (nm_g z))) -> (forall k', In k' (map fst (g_nodes (nm_g z))) -> nm_names z k' = s -> k' = id_key id) ->
  find_name z s = Some (mk_id (id_key id) (g_id (nm_g z))) /\ exists n, find_node z (mk_id (id_key id) (g_id (nm_g z))) = Some n.
Proof.
  intros x id s y l z Hs Hr Hk Hi Hu. assert (Hn : nm_names y (id_key id) = s).
  { unfold set_name in Hs. destruct (lookup (nm_g x) (id_key id)); cbn [bind] in Hs; [| discriminate]. injection Hs as <-. cbn [nm_names]. rewrite Nat.eqb_refl. reflexivity. }
  assert (Hz : nm_names z (id_key id) = s).
  { clear Hs Hi Hu. revert y Hn Hr. induction l as [| o l IH]; intros y Hn Hr; cbn [nrun] in Hr; [congruence |].
    destruct (nstep y o) as [y' |] eqn:E; cbn [bind] in Hr; [| discriminate]. apply (IH (fun i t H => Hk i t (or_intror H)) y'); [| exact Hr].
    destruct o as [o | i t]; cbn [nstep] in E.
    - destruct (step (nm_g y) o) as [[g' r] |]; cbn [bind] in E; [| discriminate]. injection E as <-. exact Hn.
    - unfold set_name in E. destruct (lookup (nm_g y) (id_key i)); cbn [bind] in E; [| discriminate]. injection E as <-. cbn [nm_names].
      pose proof (Hk i t (or_introl eq_refl)) as Hne. destruct (Nat.eqb_spec (id_key id) (id_key i)); [congruence | exact Hn]. }
  split; [apply find_only; split; [exact Hi |]; split; [exact Hz | exact Hu] |]. unfold find_node. cbn [id_graph id_key]. rewrite N.eqb_refl. cbn [negb].
  apply in_map_iff in Hi as ([k n] & E & Hin). cbn [fst] in E. subst k. clear - Hin. unfold lookup. induction (g_nodes (nm_g z)) as [| [a m] l' IH]; [contradiction |].
  cbn [nlookup]. destruct (a =? id_key id) eqn:E; [eauto |]. apply IH. destruct Hin as [H | H]; [injection H as -> ->; rewrite Nat.eqb_refl in E; discriminate | exact H].
Qed.
Print Assumptions C78_recovers.
(** Three nodes; the second is named "lead"; then the first is freed, the changes committed and another node pushed into its slot. *)
Definition start : named := mk_named (graph_new 7 0 1 [0; 1; 2; 0]) (fun _ => "SinWt<f32>"%string).
Definition pushes : list nop := [NEdit (OpPush 0 1 [] false); NEdit (OpPush 0 1 [] false); NEdit (OpPush 0 1 [] false)].
Definition after (l : list nop) : named := match nrun start l with Some x => x | None => start end.
Definition later : list nop := [NEdit (OpFree (mk_id 0 7)); NEdit (OpCommit []); NEdit (OpCommit [0; 1; 2]); NEdit (OpPush 0 1 [] false); NName (mk_id 2 7) "bass"].
Example C78_case : exists y z, set_name (after pushes) (mk_id 1 7) "lead" = Some y /\ nrun y later = Some z /\ keeps 1 later /\ map fst (g_nodes (nm_g z)) = [3; 1; 2] /\
  (forall k', In k' (map fst (g_nodes (nm_g z))) -> nm_names z k' = "lead"%string -> k' = 1) /\ find_name z "lead" = Some (mk_id 1 7) /\ find_name z "bass" = Some (mk_id 2 7).
Proof.
  eexists. eexists. split; [vm_compute; reflexivity |]. split; [vm_compute; reflexivity |]. split.
  { intros id s H. repeat (destruct H as [H | H]; [try discriminate; injection H as <- <-; cbn; lia |]). contradiction. }
  split; [vm_compute; reflexivity |]. split; [| split; vm_compute; reflexivity].
  intros k' H. vm_compute in H. destruct H as [<- | [<- | [<- | []]]]; vm_compute; intros E; try discriminate; reflexivity.
Qed.
(** Names are not unique and nothing says so: the second node that gets a name cannot be found by it. *)
Theorem C78_taken_refuted : exists y, nrun start (pushes ++ [NName (mk_id 0 7) "lead"; NName (mk_id 1 7) "lead"]) = Some y /\ nm_names y 1 = "lead"%string /\ find_name y "lead" = Some (mk_id 0 7).
Proof. eexists. split; [vm_compute; reflexivity |]. split; vm_compute; reflexivity. Qed.
Print Assumptions C78_taken_refuted.
(** A freed node is found until it is removed, also when the name has been given to its replacement, and connecting it panics. *)
Theorem C78_freed_refuted : exists y, nrun start [NEdit (OpPush 1 1 [] false); NName (mk_id 0 7) "lead"; NEdit (OpFree (mk_id 0 7)); NEdit (OpPush 1 1 [] false); NName (mk_id 1 7) "lead"] = Some y /\
  find_name y "lead" = Some (mk_id 0 7) /\ edges_of (nm_g y) 0 = None /\ step (nm_g y) (OpConnect (NNode (mk_id 1 7)) 0 0 (NNode (mk_id 0 7)) true false) = None.
Proof. eexists. split; [vm_compute; reflexivity |]. repeat split; vm_compute; reflexivity. Qed.
Print Assumptions C78_freed_refuted.

(** ** the names of types *)
Lemma pieces_word w : forall cur rest, (forall c, In c w -> is_delim c = false) -> pieces cur (w ++ rest) = pieces (cur ++ w) rest.
Proof.
  induction w as [| c w IH]; intros cur rest H; cbn [app pieces]; [rewrite app_nil_r; reflexivity |]. rewrite (H c (or_introl eq_refl)), IH by (intros x Hx; apply H; right; exact Hx).
  rewrite <- app_assoc. reflexivity.
Qed.
Lemma after_none l : (forall c, In c l -> c <> ":"%char) -> after_colon l = None.
Proof.
  induction l as [| c l IH]; intros H; cbn [after_colon]; [reflexivity |]. rewrite IH by (intros x Hx; apply H; right; exact Hx).
  destruct (Ascii.eqb_spec c ":"); [exfalso; exact (H c (or_introl eq_refl) e) | reflexivity].
Qed.
Lemma after_some l r : (forall c, In c r -> c <> ":"%char) -> after_colon (l ++ ":"%char :: r) = Some r.
Proof.
  intros H. induction l as [| c l IH]; cbn [app after_colon]; [rewrite (after_none r H); reflexivity | rewrite IH; reflexivity].
Qed.
Definition body (p : part) : list ascii := concat (map (fun w => w ++ colons) (p_path p)) ++ p_last p.
Lemma body_plain p : (forall w, In w (p_path p) -> word w) -> word (p_last p) -> forall c, In c (body p) -> is_delim c = false.
Proof.
  intros Hp Hl c H. unfold body in H. apply in_app_iff in H as [H | H]; [| exact (proj1 (Hl c H))].
  apply in_concat in H as (t & Ht & Hc). apply in_map_iff in Ht as (w & <- & Hw). apply in_app_iff in Hc as [Hc | Hc]; [exact (proj1 (Hp w Hw c Hc)) |].
  destruct Hc as [<- | [<- | []]]; reflexivity.
Qed.
Lemma body_after p d : word (p_last p) -> (forall c, In c d -> c <> ":"%char) -> match after_colon (body p ++ d) with Some r => r | None => body p ++ d end = p_last p ++ d.
Proof.
  intros Hl Hd. assert (N : forall c, In c (p_last p ++ d) -> c <> ":"%char) by (intros c H; apply in_app_iff in H as [H | H]; [exact (proj1 (proj2 (Hl c H))) | exact (Hd c H)]).
  unfold body. rewrite <- app_assoc. destruct (p_path p) as [| w ws]; [cbn [map concat app]; rewrite after_none by exact N; reflexivity |].
  assert (E : exists l, concat (map (fun w => w ++ colons) (w :: ws)) = l ++ [":"%char]).
  { revert w. induction ws as [| v ws IH]; intros w; cbn [map concat]; [exists (w ++ [":"%char]); rewrite app_nil_r, <- app_assoc; reflexivity |].
    destruct (IH v) as [l El]. cbn [map concat] in El. rewrite El. exists ((w ++ colons) ++ l). rewrite !app_assoc. reflexivity. }
  destruct E as [l ->]. rewrite <- app_assoc. cbn [app]. rewrite after_some by exact N. reflexivity.
Qed.
Definition blank (p : part) : list ascii := match p_delim p with Some ";"%char => [" "%char] | _ => [] end.
Lemma push_part short p : (forall w, In w (p_path p) -> word w) -> word (p_last p) -> match p_delim p with Some c => is_delim c = true | None => p_last p <> [] end ->
  push_piece short (body p ++ delim_text (p_delim p)) = short ++ p_last p ++ delim_text (p_delim p) ++ blank p.
Proof.
  intros Hp Hl Hd. unfold push_piece. rewrite body_after; [| exact Hl |].
  2: { intros c H. destruct (p_delim p) as [d |]; cbn [delim_text] in H; [| contradiction]. destruct H as [<- | []]. intros ->. discriminate. }
  unfold blank. destruct (p_delim p) as [d |]; cbn [delim_text].
  - rewrite (app_assoc short), rev_app_distr. cbn [rev app]. unfold is_delim in Hd. apply existsb_exists in Hd as (x & Hx & E). apply Ascii.eqb_eq in E. subst x.
    repeat (destruct Hx as [<- | Hx]; [cbn [Ascii.eqb Bool.eqb orb]; rewrite <- ?app_assoc; reflexivity |]). contradiction.
  - rewrite !app_nil_r. destruct (exists_last Hd) as (w & c & E). rewrite E. rewrite app_assoc, rev_app_distr. cbn [rev app].
    assert (Hc : word [c]) by (intros x [<- | []]; apply Hl; rewrite E; apply in_app_iff; right; left; reflexivity). destruct (Hc c (or_introl eq_refl)) as (H1 & _ & H2).
    destruct (Ascii.eqb_spec c ","); [contradiction |]. destruct (Ascii.eqb_spec c ";"); [subst c; discriminate |]. reflexivity.
Qed.
(** The name of a type without commas keeps the last name of every path, all delimiters, and nothing else (but for blanks). *)
Theorem C78_short_names : forall ps, well_formed ps -> shorten (full_text ps) = short_text ps.
Proof.
  intros ps W. unfold shorten. change (short_text ps) with ([] ++ short_text ps). generalize (@nil ascii) at 2 3. induction ps as [| p ps IH]; intros short; [cbn; rewrite app_nil_r; reflexivity |].
  destruct W as (Hp & Hl & Hd & W). assert (E : full_text (p :: ps) = body p ++ delim_text (p_delim p) ++ full_text ps).
  { unfold full_text. cbn [map concat]. unfold part_text, body. rewrite <- !app_assoc. reflexivity. }
  assert (T : short_text (p :: ps) = p_last p ++ delim_text (p_delim p) ++ blank p ++ short_text ps).
  { unfold short_text. cbn [map concat]. unfold blank. rewrite <- !app_assoc. reflexivity. }
  assert (P : pieces [] (full_text (p :: ps)) = (body p ++ delim_text (p_delim p)) :: pieces [] (full_text ps)).
  { rewrite E, pieces_word by (apply body_plain; assumption). cbn [app]. destruct (p_delim p) as [d |]; cbn [delim_text app].
    - cbn [pieces]. rewrite Hd. reflexivity.
    - destruct Hd as [-> Hne]. cbn [full_text map concat pieces app]. rewrite app_nil_r. unfold body. destruct (concat _ ++ p_last p) eqn:Eb; [| reflexivity].
      apply app_eq_nil in Eb as [_ Eb]. contradiction. }
  rewrite P. cbn [fold_left]. rewrite push_part by first [assumption | destruct (p_delim p); [exact Hd | exact (proj2 Hd)]]. rewrite IH by exact W. rewrite T, <- !app_assoc. reflexivity.
Qed.
Print Assumptions C78_short_names.
Definition chars := list_ascii_of_string.
Example C78_short_case : let ps := [mk_part [chars "knaster_core_dsp"; chars "osc"] (chars "SinWt") (Some "<"%char); mk_part [] (chars "f32") (Some ">"%char)] in
  well_formed ps /\ string_of_list_ascii (full_text ps) = "knaster_core_dsp::osc::SinWt<f32>"%string /\ string_of_list_ascii (short_text ps) = "SinWt<f32>"%string.
Proof.
  assert (A : forall w, forallb (fun c => negb (is_delim c) && negb (Ascii.eqb c ":") && negb (Ascii.eqb c ","))%bool w = true -> word w).
  { intros w H c Hc. rewrite forallb_forall in H. specialize (H c Hc). apply andb_true_iff in H as [H H3]. apply andb_true_iff in H as [H1 H2].
    apply negb_true_iff in H1, H2, H3. split; [exact H1 |]. split; intros ->; discriminate. }
  cbv zeta. split; [| split; vm_compute; reflexivity]. cbn [well_formed p_path p_last p_delim].
  split; [intros w [<- | [<- | []]]; apply A; vm_compute; reflexivity |]. split; [apply A; vm_compute; reflexivity |]. split; [reflexivity |].
  split; [intros w [] |]. split; [apply A; vm_compute; reflexivity |]. split; [reflexivity | exact I].
Qed.
(** With two or more parameters, all but the last one (and everything before its path) is lost: different types get the same name. *)
Theorem C78_parameters_refuted : shorten_name "a::MathUGen<f32, t::UInt, m::Add>" = "MathUGen<Add>"%string /\ shorten_name "a::MathUGen<f64, m::Add>" = "MathUGen<Add>"%string.
Proof. split; vm_compute; reflexivity. Qed.
Print Assumptions C78_parameters_refuted.
