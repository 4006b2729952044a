(** Proofs about the model of [impl_ugen]. *)
From Verif Require Import Base MacroModel MacroSpec.
Open Scope nat_scope.
Open Scope string_scope.
Open Scope list_scope.

Lemma has_In n s : has n s = true <-> In n s.
Proof.
  unfold has. rewrite existsb_exists. split.
  - intros (x & H & E). apply String.eqb_eq in E. subst; exact H.
  - intros H. exists n. split; [exact H | apply String.eqb_refl].
Qed.

(** ** What is found *)
Lemma attr_params f l : forall g, g_params (fold_left (by_attr f) l g) = g_params g ++ repeat f (List.length (filter is_param l)).
Proof.
  induction l as [|a l IH]; intros g; cbn [fold_left filter List.length]. { now rewrite app_nil_r. }
  rewrite IH. destruct a; cbn [by_attr is_param g_params List.length repeat]; try reflexivity. now rewrite <- app_assoc.
Qed.
Lemma attr_process f l : forall g, g_process (fold_left (by_attr f) l g) = if existsb is_process l then Some f else g_process g.
Proof. induction l as [|a l IH]; intros g; cbn [fold_left existsb]; [reflexivity|]. rewrite IH. destruct a; cbn; destruct (existsb is_process l); reflexivity. Qed.
Lemma attr_block f l : forall g, g_block (fold_left (by_attr f) l g) = if existsb is_block l then Some f else g_block g.
Proof. induction l as [|a l IH]; intros g; cbn [fold_left existsb]; [reflexivity|]. rewrite IH. destruct a; cbn; destruct (existsb is_block l); reflexivity. Qed.
Lemma attr_in f l : forall g, g_in (fold_left (by_attr f) l g) = g_in g.
Proof. induction l as [|a l IH]; intros g; cbn [fold_left]; [reflexivity|]. rewrite IH. destruct a; reflexivity. Qed.
Lemma attr_out f l : forall g, g_out (fold_left (by_attr f) l g) = g_out g.
Proof. induction l as [|a l IH]; intros g; cbn [fold_left]; [reflexivity|]. rewrite IH. destruct a; reflexivity. Qed.

Lemma name_params f g : g_params (by_name f g) = g_params g.
Proof. unfold by_name. destruct (f_name f =? "init"); [reflexivity|]. destruct (f_name f =? "process"); [reflexivity|]. destruct (f_name f =? "process_block"); reflexivity. Qed.
Lemma name_in f g : g_in (by_name f g) = g_in g.
Proof. unfold by_name. destruct (f_name f =? "init"); [reflexivity|]. destruct (f_name f =? "process"); [reflexivity|]. destruct (f_name f =? "process_block"); reflexivity. Qed.
Lemma name_out f g : g_out (by_name f g) = g_out g.
Proof. unfold by_name. destruct (f_name f =? "init"); [reflexivity|]. destruct (f_name f =? "process"); [reflexivity|]. destruct (f_name f =? "process_block"); reflexivity. Qed.
Lemma name_process f g : g_process (by_name f g) = if f_name f =? "process" then Some f else g_process g.
Proof.
  unfold by_name. destruct (String.eqb_spec (f_name f) "init") as [E|_]; [rewrite E; reflexivity|].
  destruct (f_name f =? "process"); [reflexivity|]. destruct (f_name f =? "process_block"); reflexivity.
Qed.
Lemma name_block f g : g_block (by_name f g) = if f_name f =? "process_block" then Some f else g_block g.
Proof.
  unfold by_name. destruct (String.eqb_spec (f_name f) "init") as [E|_]; [rewrite E; reflexivity|].
  destruct (String.eqb_spec (f_name f) "process") as [E|_]; [rewrite E; reflexivity|]. destruct (f_name f =? "process_block"); reflexivity.
Qed.

Lemma look_params items : g_params (look_all items) = params_of items.
Proof.
  unfold look_all, params_of. induction items as [|i items IH] using rev_ind; [reflexivity|].
  rewrite fold_left_app, flat_map_app. cbn [fold_left flat_map]. rewrite app_nil_r, <- IH.
  destruct i as [f|n c|]; cbn [look]; [rewrite attr_params, name_params; reflexivity| |now rewrite app_nil_r].
  destruct (n =? "Inputs"); [cbn; now rewrite app_nil_r|]. destruct (n =? "Outputs"); cbn; now rewrite app_nil_r.
Qed.
Lemma look_process items : match g_process (look_all items) with Some f => last_marked is_process "process" items f | None => none_marked is_process "process" items end.
Proof.
  unfold look_all. induction items as [|i items IH] using rev_ind; [intros g []|].
  rewrite fold_left_app. cbn [fold_left]. set (g := fold_left look items _) in *.
  assert (K : forall j, g_process (look g j) = g_process g -> (forall h, j = IFn h -> marked is_process "process" h = false) ->
    match g_process (look g j) with Some f => last_marked is_process "process" (items ++ [j]) f | None => none_marked is_process "process" (items ++ [j]) end).
  { intros j E M. rewrite E. destruct (g_process g) as [f|].
    - destruct IH as (b & a & -> & Hf & Ha). exists b, (a ++ [j]). rewrite <- app_assoc. split; [reflexivity|]. split; [exact Hf|].
      intros h H. apply in_app_or in H. destruct H as [H|[H|[]]]; [now apply Ha | now apply M].
    - intros h H. apply in_app_or in H. destruct H as [H|[H|[]]]; [now apply IH | now apply M]. }
  destruct i as [f|n c|].
  - destruct (marked is_process "process" f) eqn:M.
    + assert (g_process (look g (IFn f)) = Some f) as ->.
      { cbn [look]. rewrite attr_process, name_process. unfold marked in M. destruct (f_name f =? "process"), (existsb is_process (f_attrs f)); reflexivity || discriminate M. }
      exists items, []. split; [reflexivity|]. split; [exact M | intros h []].
    + apply K; [|intros h [= <-]; exact M]. cbn [look]. rewrite attr_process, name_process.
      unfold marked in M. apply orb_false_iff in M. destruct M as [-> ->]. reflexivity.
  - apply K; [|discriminate]. cbn [look]. destruct (n =? "Inputs"); [reflexivity|]. destruct (n =? "Outputs"); reflexivity.
  - apply K; [reflexivity | discriminate].
Qed.
Lemma look_block items : match g_block (look_all items) with Some f => last_marked is_block "process_block" items f | None => none_marked is_block "process_block" items end.
Proof.
  unfold look_all. induction items as [|i items IH] using rev_ind; [intros g []|].
  rewrite fold_left_app. cbn [fold_left]. set (g := fold_left look items _) in *.
  assert (K : forall j, g_block (look g j) = g_block g -> (forall h, j = IFn h -> marked is_block "process_block" h = false) ->
    match g_block (look g j) with Some f => last_marked is_block "process_block" (items ++ [j]) f | None => none_marked is_block "process_block" (items ++ [j]) end).
  { intros j E M. rewrite E. destruct (g_block g) as [f|].
    - destruct IH as (b & a & -> & Hf & Ha). exists b, (a ++ [j]). rewrite <- app_assoc. split; [reflexivity|]. split; [exact Hf|].
      intros h H. apply in_app_or in H. destruct H as [H|[H|[]]]; [now apply Ha | now apply M].
    - intros h H. apply in_app_or in H. destruct H as [H|[H|[]]]; [now apply IH | now apply M]. }
  destruct i as [f|n c|].
  - destruct (marked is_block "process_block" f) eqn:M.
    + assert (g_block (look g (IFn f)) = Some f) as ->.
      { cbn [look]. rewrite attr_block, name_block. unfold marked in M. destruct (f_name f =? "process_block"), (existsb is_block (f_attrs f)); reflexivity || discriminate M. }
      exists items, []. split; [reflexivity|]. split; [exact M | intros h []].
    + apply K; [|intros h [= <-]; exact M]. cbn [look]. rewrite attr_block, name_block.
      unfold marked in M. apply orb_false_iff in M. destruct M as [-> ->]. reflexivity.
  - apply K; [|discriminate]. cbn [look]. destruct (n =? "Inputs"); [reflexivity|]. destruct (n =? "Outputs"); reflexivity.
  - apply K; [reflexivity | discriminate].
Qed.
Lemma last_marked_unique a n items f g : last_marked a n items f -> last_marked a n items g -> f = g.
Proof.
  intros (b & r & E & M & R) (b' & r' & E' & M' & R'). rewrite E in E'. clear E items.
  revert b' E'. induction b as [|x b IH]; intros [|y b'] E'; cbn in E'.
  - now inversion E'.
  - inversion E' as [[X Y]]. subst. specialize (R g). rewrite R in M'; [discriminate|]. apply in_or_app. right. now left.
  - inversion E' as [[X Y]]. subst. specialize (R' f). rewrite R' in M; [discriminate|]. apply in_or_app. right. now left.
  - inversion E'. now apply (IH b').
Qed.
Lemma look_override items : no_override items -> g_in (look_all items) = None /\ g_out (look_all items) = None.
Proof.
  unfold look_all. induction items as [|i items IH] using rev_ind; [split; reflexivity|]. intros H.
  rewrite !fold_left_app. cbn [fold_left]. set (g := fold_left look items _) in *.
  destruct IH as [A B]. { intros c. split; intros X; [apply (proj1 (H c)) | apply (proj2 (H c))]; apply in_or_app; now left. }
  destruct i as [f|n c|]; cbn [look]; [rewrite attr_in, attr_out, name_in, name_out; now split| |now split].
  destruct (H c) as [H1 H2].
  destruct (String.eqb_spec n "Inputs") as [->|_]; [destruct H1; apply in_or_app; right; now left|].
  destruct (String.eqb_spec n "Outputs") as [->|_]; [destruct H2; apply in_or_app; right; now left|]. now split.
Qed.

(** ** Parameters *)
Lemma read_params_each fs ps : read_params fs = Some ps -> Forall2 (fun f p => read_param f = Some p) fs ps.
Proof.
  revert ps. induction fs as [|f fs IH]; cbn [read_params bind]; intros ps. { intros [= <-]. constructor. }
  destruct (read_param f) as [p|] eqn:E; [cbn [bind]|discriminate]. destruct (read_params fs) as [l|]; [cbn [bind]|discriminate].
  intros [= <-]. constructor; [exact E | now apply IH].
Qed.
Lemma value_type_named s t : value_type s = Some t -> In (named t) s.
Proof.
  unfold value_type. destruct (has "PFloat" s) eqn:A; [intros [= <-]; now apply has_In|]. destruct (has "f32" s) eqn:B; [intros [= <-]; now apply has_In|].
  destruct (has "f64" s) eqn:C; [intros [= <-]; now apply has_In|]. destruct (has "PInteger" s) eqn:D; [intros [= <-]; now apply has_In|].
  destruct (has "bool" s) eqn:E; [intros [= <-]; now apply has_In|discriminate].
Qed.
Definition typed_args (l : list farg) : list sty := flat_map (fun a => match a with Typed t => [t] | Recv _ => [] end) l.
Definition paths (l : list sty) : list (list string) := flat_map (fun t => match t with TPath s => [s] | _ => [] end) l.
Definition no_flags (l : list garg) : Prop := existsb (fun a => match a with GFlags => true | _ => false end) l = false.

Lemma param_args_type args : forall t l t', param_args args t = Some (l, t') ->
  match t with
  | Some _ => paths (typed_args args) = [] /\ t' = t
  | None => match t' with None => paths (typed_args args) = [] | Some v => exists s, paths (typed_args args) = [s] /\ value_type s = Some v end
  end.
Proof.
  induction args as [|a args IH]; intros t l t'; cbn [param_args]. { intros [= <- <-]. destruct t; [split|]; reflexivity. }
  destruct a as [m|[m [| s | | |]|s| | |]]; try discriminate.
  - intros H. exact (IH _ _ _ H).
  - destruct (has "AudioCtx" s).
    + destruct (param_args args t) as [[l1 t1]|] eqn:E; [|discriminate]. cbn [bind]. intros [= <- <-]. exact (IH _ _ _ E).
    + destruct (has "UGenFlags" s); [|discriminate]. destruct (param_args args t) as [[l1 t1]|] eqn:E; [|discriminate]. cbn [bind]. intros [= <- <-]. exact (IH _ _ _ E).
  - destruct t; [discriminate|]. destruct (value_type s) as [v|] eqn:V; [|discriminate].
    destruct (param_args args (Some v)) as [[l1 t1]|] eqn:E; [|discriminate]. cbn [bind]. intros [= <- <-]. destruct (IH _ _ _ E) as [N ->].
    exists s. split; [|exact V]. cbn [typed_args flat_map]. cbn. unfold paths, typed_args in N. now rewrite N.
Qed.

(** every parameter gets what its function wants *)
Lemma param_args_call args : forall t l t' v, param_args args t = Some (l, t') -> no_flags l -> (t = None -> fits t' v) ->
  exists x, all_some (map (arg_value v) l) = Some x /\ Forall2 (suits v) (typed_args args) x.
Proof.
  induction args as [|a args IH]; intros t l t' v; cbn [param_args]. { intros [= <- <-] _ _. exists []. split; [reflexivity | constructor]. }
  destruct a as [m|[m [| s | | |]|s| | |]]; try discriminate.
  - intros H N F. exact (IH _ _ _ _ H N F).
  - destruct (has "AudioCtx" s) eqn:C.
    + destruct (param_args args t) as [[l1 t1]|] eqn:E; [|discriminate]. cbn [bind]. intros [= <- <-] N F.
      destruct (IH _ _ _ v E N F) as (x & X & Y). exists (ACtx :: x). split.
      * cbn [map arg_value all_some bind]. now rewrite X.
      * constructor; [|exact Y]. cbn. split; [now apply has_In | reflexivity].
    + destruct (has "UGenFlags" s) eqn:C2; [|discriminate]. destruct (param_args args t) as [[l1 t1]|] eqn:E; [|discriminate]. cbn [bind]. intros [= <- <-] N. discriminate N.
  - destruct t; [discriminate|]. destruct (value_type s) as [w|] eqn:V; [|discriminate].
    destruct (param_args args (Some w)) as [[l1 t1]|] eqn:E; [|discriminate]. cbn [bind]. intros [= <- <-] N F.
    destruct (IH _ _ _ v E N) as (x & X & Y); [discriminate|].
    destruct (param_args_type _ _ _ _ E) as [_ T]. rewrite T in F. specialize (F eq_refl). apply value_type_named in V.
    destruct w; destruct F as [y ->]; cbn [map arg_value all_some bind]; rewrite X; eexists; (split; [reflexivity | constructor; [|exact Y]]); eexists; (split; [exact V | split; reflexivity]).
Qed.
(** and nothing else is accepted *)
Lemma param_args_reject args : forall l t' v, param_args args None = Some (l, t') -> ~ fits t' v -> all_some (map (arg_value v) l) = None.
Proof.
  induction args as [|a args IH]; intros l t' v; cbn [param_args]. { intros [= <- <-] F. now destruct F. }
  destruct a as [m|[m [| s | | |]|s| | |]]; try discriminate.
  - intros H F. exact (IH _ _ _ H F).
  - destruct (has "AudioCtx" s).
    + destruct (param_args args None) as [[l1 t1]|] eqn:E; [|discriminate]. cbn [bind]. intros [= <- <-] F. cbn [map arg_value all_some bind]. now rewrite (IH _ _ v eq_refl F).
    + destruct (has "UGenFlags" s); [|discriminate]. destruct (param_args args None) as [[l1 t1]|] eqn:E; [|discriminate]. cbn [bind]. intros [= <- <-] F.
      cbn [map arg_value all_some bind]. now rewrite (IH _ _ v eq_refl F).
  - destruct (value_type s) as [w|] eqn:V; [|discriminate].
    destruct (param_args args (Some w)) as [[l1 t1]|] eqn:E; [|discriminate]. cbn [bind]. intros [= <- <-] F.
    destruct (param_args_type _ _ _ _ E) as [_ T]. subst t1.
    destruct w, v; cbn [map arg_value all_some bind]; try reflexivity; destruct F; cbn; eauto.
Qed.
Lemma read_param_parts f p : read_param f = Some p -> d_name p = f_name f /\ param_args (f_args f) None = Some (d_args p, d_ty p).
Proof.
  unfold read_param. destruct (param_args (f_args f) None) as [[l t]|]; [cbn [bind]|discriminate].
  destruct (last_list (f_attrs f)) as [a|]; [|intros [= <-]; split; reflexivity].
  destruct (match a_kind a with None => _ | Some _ => _ end); [cbn [bind]|discriminate].
  destruct (match a_from a with None => _ | Some _ => _ end); [cbn [bind]|discriminate].
  destruct (match a_range a with Some _ => _ | None => _ end); [cbn [bind]|discriminate]. intros [= <-]. split; reflexivity.
Qed.
Lemma hint_hinted p : hinted (d_ty p) (hint_of p).
Proof. unfold hint_of. destruct (d_ty p) as [[]|]; cbn; try exact I. destruct (d_from p); exact I. Qed.

(** ** The parts of an expansion *)
Lemma expand_parts items u : expand items = Some u -> exists n_in n_out,
  gen_process (g_process (look_all items)) = Some (u_process u, n_in, n_out) /\ gen_block (g_block (look_all items)) n_in n_out = Some (u_block u) /\
  Forall2 (fun f p => read_param f = Some p) (params_of items) (u_params u) /\
  u_inputs u = match g_in (look_all items) with Some c => c | None => match n_in with Some n => n | None => 0 end end /\
  u_outputs u = match g_out (look_all items) with Some c => c | None => match n_out with Some n => n | None => 0 end end /\
  u_init u = option_map f_name (g_init (look_all items)) /\
  u_rest u = filter (stays (pasted (Some (u_process u))) (pasted (u_block u))) items.
Proof.
  unfold expand. destruct (gen_process (g_process (look_all items))) as [[[p n_in] n_out]|] eqn:P; [cbn [bind]|discriminate].
  destruct (gen_block (g_block (look_all items)) n_in n_out) as [b|] eqn:B; [cbn [bind]|discriminate].
  destruct (read_params (g_params (look_all items))) as [ps|] eqn:R; [cbn [bind]|discriminate].
  intros [= <-]. exists n_in, n_out. cbn [u_process u_block u_params u_inputs u_outputs u_init u_rest].
  rewrite look_params in R. apply read_params_each in R. repeat split; try assumption; reflexivity.
Qed.
Lemma Forall2_nth {A B} (R : A -> B -> Prop) l m : Forall2 R l m -> forall i,
  match nth_error l i, nth_error m i with Some a, Some b => R a b | None, None => True | _, _ => False end.
Proof. induction 1 as [|a b l m H F IH]; intros [|i]; cbn [nth_error]; [exact I | exact I | exact H | exact (IH i)]. Qed.

(** ** Processing *)
Lemma all_some_nth {F} (x : list F) : all_some (map (nth_error x) (seq 0 (List.length x))) = Some x.
Proof.
  assert (K : forall (y : list F) n, (forall i, nth_error x (n + i) = nth_error y i) -> all_some (map (nth_error x) (seq n (List.length y))) = Some y).
  { induction y as [|a y IH]; intros n H; [reflexivity|]. cbn [List.length seq map all_some].
    generalize (H 0). rewrite Nat.add_0_r. intros ->. cbn [nth_error bind]. rewrite IH; [reflexivity|]. intros i. rewrite Nat.add_succ_comm. exact (H (S i)). }
  apply K. reflexivity.
Qed.
Lemma process_args_last args : forall n l n', process_args args n = Some (l, n') -> n' = n \/ exists k, n' = Some k /\ exists e, In (Typed (TArray e (Some k))) args.
Proof.
  induction args as [|a args IH]; intros n l n'; cbn [process_args]. { intros [= <- <-]. now left. }
  destruct a as [m|[m [| s | | |]|s|e [k|]| |]]; try discriminate.
  - intros H. destruct (IH _ _ _ H) as [->|(k & -> & e & I)]; [now left|]. right. exists k. split; [reflexivity|]. exists e. now right.
  - destruct (has "AudioCtx" s); [|destruct (has "UGenFlags" s); [|discriminate]];
      (destruct (process_args args n) as [[l1 n1]|] eqn:E; [|discriminate]; cbn [bind]; intros [= <- <-];
       destruct (IH _ _ _ E) as [->|(k & -> & e & I)]; [now left|]; right; exists k; split; [reflexivity|]; exists e; now right).
  - destruct (process_args args (Some k)) as [[l1 n1]|] eqn:E; [|discriminate]. cbn [bind]. intros [= <- <-]. right.
    destruct (IH _ _ _ E) as [->|(k' & -> & e' & I)]; [exists k; split; [reflexivity|]; exists e; now left|]. exists k'. split; [reflexivity|]. exists e'. now right.
Qed.
Lemma process_args_call {F} args (x : list F) : forall n l n', process_args args n = Some (l, n') -> forallb (wants (List.length x)) args = true ->
  Forall2 (gets x) (typed_args args) (map (fun g => match g with GCtx => ACtx | GFlags => AFlags | _ => AFrame x end) l).
Proof.
  induction args as [|a args IH]; intros n l n'; cbn [process_args forallb]. { intros [= <- <-] _. constructor. }
  destruct a as [m|[m [| s | | |]|s|e [k|]| |]]; try discriminate; intros H W; apply andb_prop in W; destruct W as [W1 W].
  - exact (IH _ _ _ H W).
  - destruct (has "AudioCtx" s) eqn:C; [|destruct (has "UGenFlags" s) eqn:C2; [|discriminate]];
      (destruct (process_args args n) as [[l1 n1]|] eqn:E; [|discriminate]; cbn [bind] in H; injection H as <- <-; constructor; [|exact (IH _ _ _ E W)]);
      [left | right]; (split; [now apply has_In | reflexivity]).
  - destruct (process_args args (Some k)) as [[l1 n1]|] eqn:E; [|discriminate]. cbn [bind] in H. injection H as <- <-. constructor; [|exact (IH _ _ _ E W)].
    cbn in W1. apply Nat.eqb_eq in W1. split; [now symmetry | reflexivity].
Qed.
Lemma block_args_call {F} ins outs args : forall i o l, block_args args i o = Some l -> forallb (wants_block ins outs) args = true ->
  Forall2 (@gets_block F ins outs) (typed_args args)
    (map (fun g => match g with GCtx => ACtx | GFlags => AFlags | GOut => AOuts (seq 0 outs) | _ => AChans (seq 0 ins) end) l).
Proof.
  induction args as [|a args IH]; intros i o l; cbn [block_args forallb]. { intros [= <-] _. constructor. }
  destruct a as [m|[m [| s | | |]|s|[[] e| | | |] [k|]| |]]; try discriminate; intros H W; apply andb_prop in W; destruct W as [W1 W].
  - exact (IH _ _ _ H W).
  - destruct (has "AudioCtx" s) eqn:C; [|destruct (has "UGenFlags" s) eqn:C2; [|discriminate]];
      (destruct (block_args args i o) as [l1|] eqn:E; [|discriminate]; cbn [bind] in H; injection H as <-; constructor; [|exact (IH _ _ _ E W)]);
      destruct m; cbn; [left | left | right; left | right; left]; (split; [now apply has_In | reflexivity]).
  - destruct (agrees o k); [|discriminate]. destruct (block_args args i o) as [l1|] eqn:E; [|discriminate]. cbn [bind] in H. injection H as <-.
    constructor; [|exact (IH _ _ _ E W)]. cbn in W1. apply Nat.eqb_eq in W1. split; [exact W1 | reflexivity].
  - destruct (agrees i k); [|discriminate]. destruct (block_args args i o) as [l1|] eqn:E; [|discriminate]. cbn [bind] in H. injection H as <-.
    constructor; [|exact (IH _ _ _ E W)]. cbn in W1. apply Nat.eqb_eq in W1. split; [exact W1 | reflexivity].
Qed.

(** functions of the trait are recognised *)
Lemma trait_process_own f : trait_process f = true -> own_args false 0 (f_args f) = Some true.
Proof.
  unfold trait_process. intros O. apply andb_prop in O. destruct O as [O _]. apply andb_prop in O. destruct O as [_ O]. revert O. generalize (f_args f). intros l.
  destruct l as [|[[|]|] l]; try discriminate. destruct l as [|[|[[|] [|c| | |]| | | |]] l]; try discriminate.
  destruct l as [|[|[[|] [|g| | |]| | | |]] l]; try discriminate. destruct l as [|[|[| i | | |]] l]; try discriminate. destruct l; [|discriminate].
  intros O. apply andb_prop in O. destruct O as [O Oi]. apply andb_prop in O. destruct O as [Oc Og].
  cbn [own_args bind Nat.eqb Nat.ltb Nat.leb]. rewrite Oc, Og, Oi. reflexivity.
Qed.
Lemma trait_block_own f : trait_block f = true -> own_args true 0 (f_args f) = Some true /\ (f_generics f =? 2)%nat = true.
Proof.
  unfold trait_block. intros O. apply andb_prop in O. destruct O as [O _]. apply andb_prop in O. destruct O as [G O]. apply andb_prop in G. destruct G as [_ G].
  split; [|exact G]. revert O. generalize (f_args f). intros l.
  destruct l as [|[[|]|] l]; try discriminate. destruct l as [|[|[[|] [|c| | |]| | | |]] l]; try discriminate.
  destruct l as [|[|[[|] [|g| | |]| | | |]] l]; try discriminate. destruct l as [|[|[[|] [|i| | |]| | | |]] l]; try discriminate.
  destruct l as [|[|[[|] [|o| | |]| | | |]] l]; try discriminate. destruct l; [|discriminate].
  intros O. apply andb_prop in O. destruct O as [O Oo]. apply andb_prop in O. destruct O as [O Oi]. apply andb_prop in O. destruct O as [Oc Og].
  cbn [own_args bind Nat.eqb Nat.ltb Nat.leb]. rewrite Oc, Og, Oi, Oo. reflexivity.
Qed.
(** and called as such *)
Lemma trait_process_gets {F} (frame : list F) f : trait_process f = true -> Forall2 (gets frame) (typed f) [ACtx; AFlags; AFrame frame].
Proof.
  unfold trait_process, typed. intros O. apply andb_prop in O. destruct O as [O _]. apply andb_prop in O. destruct O as [_ O]. revert O. generalize (f_args f). intros l.
  destruct l as [|[[|]|] l]; try discriminate. destruct l as [|[|[[|] [|c| | |]| | | |]] l]; try discriminate.
  destruct l as [|[|[[|] [|g| | |]| | | |]] l]; try discriminate. destruct l as [|[|[| i | | |]] l]; try discriminate. destruct l; [|discriminate].
  intros O. apply andb_prop in O. destruct O as [O Oi]. apply andb_prop in O. destruct O as [Oc Og]. cbn.
  constructor; [left; split; [now apply has_In | reflexivity]|]. constructor; [right; split; [now apply has_In | reflexivity]|]. constructor; [|constructor].
  split; [|reflexivity]. apply orb_prop in Oi. destruct Oi; [left | right]; now apply has_In.
Qed.
Lemma trait_block_gets {F} ins outs f : trait_block f = true -> Forall2 (@gets_block F ins outs) (typed f) [ACtx; AFlags; AChans (seq 0 ins); AOuts (seq 0 outs)].
Proof.
  unfold trait_block, typed. intros O. apply andb_prop in O. destruct O as [O _]. apply andb_prop in O. destruct O as [_ O]. revert O. generalize (f_args f). intros l.
  destruct l as [|[[|]|] l]; try discriminate. destruct l as [|[|[[|] [|c| | |]| | | |]] l]; try discriminate.
  destruct l as [|[|[[|] [|g| | |]| | | |]] l]; try discriminate. destruct l as [|[|[[|] [|i| | |]| | | |]] l]; try discriminate.
  destruct l as [|[|[[|] [|o| | |]| | | |]] l]; try discriminate. destruct l; [|discriminate].
  intros O. apply andb_prop in O. destruct O as [O Oo]. apply andb_prop in O. destruct O as [O Oi]. apply andb_prop in O. destruct O as [Oc Og]. cbn.
  constructor; [left; split; [now apply has_In | reflexivity]|]. constructor; [right; left; split; [now apply has_In | reflexivity]|].
  constructor; [right; right; split; [now apply has_In | reflexivity]|]. constructor; [right; right; split; [now apply has_In | reflexivity]|]. constructor.
Qed.

(** The lengths of the arrays of [process_block] are compared with those of [process] by the macro itself, before anything is compiled *)
Lemma own_no_array block e n args : forall i, own_args block i args = Some true -> ~ In (Typed (TArray e n)) args.
Proof.
  induction args as [|a rest IH]; intros i H; [intros []|]. cbn [own_args] in H.
  assert (R : own_args block (S i) rest = Some true /\ (forall e n, a <> Typed (TArray e n))).
  { destruct a as [m|[m [| | | |]|s|e' n'|e'|]]; cbn [bind] in H; try (destruct ((i =? 0)%nat); [destruct m|]); cbn [bind] in H; try discriminate H;
      destruct (own_args block (S i) rest) as [[|]|]; cbn [bind] in H; try discriminate H; rewrite ?andb_false_r in H; try discriminate H; (split; [reflexivity|intros; discriminate]). }
  intros [->|I]; [exact (proj2 R e n eq_refl)|exact (IH _ (proj1 R) I)].
Qed.
Lemma block_args_agree e k args : forall i o l, block_args args i o = Some l ->
  (In (Typed (TArray (TRef true e) (Some k))) args -> agrees o k = true) /\ (In (Typed (TArray (TRef false e) (Some k))) args -> agrees i k = true).
Proof.
  induction args as [|a rest IH]; intros i o l H; [split; intros []|]. cbn [block_args] in H.
  assert (R : (exists l', block_args rest i o = Some l') /\ (forall e k, a = Typed (TArray (TRef true e) (Some k)) -> agrees o k = true) /\
              (forall e k, a = Typed (TArray (TRef false e) (Some k)) -> agrees i k = true)).
  { destruct a as [m|[m [m' t|s|e' n'|e'|]|s|[m t|s|e' n'|e'|] [n|]|e'|]]; try discriminate H.
    - split; [eauto|]. split; intros; discriminate.
    - destruct (has "AudioCtx" s); [|destruct (has "UGenFlags" s); [|discriminate H]]; destruct (block_args rest i o) as [l'|]; try discriminate H; (split; [eauto|]; split; intros; discriminate).
    - destruct m; [destruct (agrees o n) eqn:A|destruct (agrees i n) eqn:A]; try discriminate H; destruct (block_args rest i o) as [l'|]; try discriminate H;
        (split; [eauto|]; split; intros ? ? [=]; subst; exact A).
    - destruct m; discriminate H. }
  destruct R as ((l' & R) & A & B). destruct (IH _ _ _ R) as [C D]. split; intros [E|I]; eauto.
Qed.
Lemma process_args_some e k args : forall n l n', process_args args n = Some (l, n') -> n <> None \/ In (Typed (TArray e (Some k))) args -> n' <> None.
Proof.
  induction args as [|a rest IH]; intros n l n' H O; cbn [process_args] in H.
  - injection H as _ <-. destruct O as [O|[]]. exact O.
  - destruct a as [m|[m [m' t|s|e' q|e'|]|s|t [q|]|e'|]]; try discriminate H.
    + apply (IH _ _ _ H). destruct O as [O|[O|O]]; [left; exact O|discriminate O|right; exact O].
    + destruct (has "AudioCtx" s); [|destruct (has "UGenFlags" s); [|discriminate H]]; destruct (process_args rest n) as [[l1 n1]|] eqn:E; try discriminate H; injection H as _ <-;
        (apply (IH _ _ _ E); destruct O as [O|[O|O]]; [left; exact O|discriminate O|right; exact O]).
    + destruct (process_args rest (Some q)) as [[l1 n1]|] eqn:E; try discriminate H. injection H as _ <-. apply (IH _ _ _ E). left. discriminate.
Qed.
Lemma typed_In t f : In t (typed f) <-> In (Typed t) (f_args f).
Proof.
  unfold typed. rewrite in_flat_map. split.
  - intros (a & I & H). destruct a as [m|t']; [destruct H|]. destruct H as [<-|[]]. exact I.
  - intros I. exists (Typed t). split; [exact I|now left].
Qed.
