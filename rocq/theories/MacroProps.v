(** C86: A generator written by [impl_ugen] is what its functions say. *)
From Verif Require Import Base MacroModel MacroSpec MacroProofs.
Open Scope nat_scope.
Open Scope string_scope.
Open Scope list_scope.

(** knaster_macros/tests/05_more_params.rs *)
Definition ctx_arg (m : bool) := Typed (TRef m (TPath ["AudioCtx"])).
Definition flags_arg := Typed (TRef true (TPath ["UGenFlags"])).
Definition F_ := TPath ["F"].
Definition attr_ (d r : option expr) (k : option (list string)) (from : option string) := AParam (Some (mk_pattr d r k None from)).
Definition more_params : list item :=
  [IFn (mk_fn "new" 0 [] (Some (TPath ["Self"])) []);
   IFn (mk_fn "number" 0 [Recv true; Typed (TPath ["f64"])] None [attr_ (Some (ENum 0)) None None None]);
   IFn (mk_fn "number2" 0 [Recv true; ctx_arg true; Typed (TPath ["f32"])] None [attr_ (Some (ENum 1)) (Some (ERange (Some 5%Z) (Some 10%Z) true)) None None]);
   IFn (mk_fn "number3" 0 [Recv true; ctx_arg false; Typed (TPath ["PFloat"])] None [attr_ (Some (ENum 1000)) None (Some ["Frequency"]) None]);
   IFn (mk_fn "number4" 0 [Recv true; Typed (TPath ["PInteger"])] None [attr_ (Some (ENum 0)) None None (Some "NumberEnum")]);
   IFn (mk_fn "t_reset" 0 [Recv true] None [AParam None]);
   IFn (mk_fn "process" 0 [Recv true; ctx_arg true; flags_arg; Typed (TArray F_ (Some 1))] (Some (TArray F_ (Some 1))) []);
   IFn (mk_fn "process_block" 0 [Recv true; ctx_arg true; flags_arg; Typed (TArray (TRef false (TSlice F_)) (Some 1)); Typed (TArray (TRef true (TSlice F_)) (Some 1))] None [])].

(** Parameters are numbered in the order of their functions. Each has the name and the type of hint of its function; setting it to a
    value of that type calls the function with that value where it takes it, any other value panics, and a number beyond the last only logs *)
Theorem C86_parameters : forall items u, expand items = Some u -> compiles items u = true ->
  descriptions u = map f_name (params_of items) /\ List.length (hints u) = List.length (params_of items) /\
  (forall i f, nth_error (params_of items) i = Some f -> exists t h, takes f t /\ nth_error (hints u) i = Some h /\ hinted t h /\
     forall v, (fits t v -> exists args, param_apply u i v = Some (Called (f_name f) args) /\ Forall2 (suits v) (typed f) args) /\
               (~ fits t v -> param_apply u i v = None)) /\
  (forall i v, List.length (params_of items) <= i -> param_apply u i v = Some Logged).
Proof.
  intros items u E C. destruct (expand_parts items u E) as (n_in & n_out & _ & _ & P & _).
  assert (L : List.length (u_params u) = List.length (params_of items)) by (symmetry; clear E C; induction P; cbn; congruence).
  unfold compiles in C. apply andb_prop in C. destruct C as [C _]. apply andb_prop in C. destruct C as [_ C]. rewrite forallb_forall in C.
  split; [|split; [|split]].
  - unfold descriptions. clear E C L. induction P as [|f p fs ps H _ IH]; [reflexivity|]. cbn [map]. rewrite IH. f_equal. now apply read_param_parts.
  - unfold hints. now rewrite map_length.
  - intros i f H. generalize (Forall2_nth _ _ _ P i). rewrite H. destruct (nth_error (u_params u) i) as [p|] eqn:U; [|intros []]. intros R.
    destruct (read_param_parts f p R) as [N A]. exists (d_ty p), (hint_of p). split; [|split; [|split; [apply hint_hinted|]]].
    + generalize (param_args_type _ _ _ _ A). unfold takes, value_args, typed. destruct (d_ty p) as [t|]; [|tauto].
      intros (s & S & V). exists s. split; [exact S | now apply value_type_named].
    + unfold hints. rewrite nth_error_map, U. reflexivity.
    + intros v. unfold param_apply. rewrite U. split.
      * intros Fi. assert (NF : no_flags (d_args p)).
        { apply nth_error_In in U. apply C in U. unfold ok_param in U. apply andb_prop in U. destruct U as [U _]. now apply negb_true_iff in U. }
        destruct (param_args_call _ _ _ _ v A NF (fun _ => Fi)) as (x & X & Y). rewrite X. cbn [bind]. exists x. rewrite N. split; [reflexivity | exact Y].
      * intros Fi. now rewrite (param_args_reject _ _ _ v A Fi).
  - intros i v H. unfold param_apply. rewrite <- L in H. apply nth_error_None in H. now rewrite H.
Qed.
Print Assumptions C86_parameters.
(** The wrappers of C49 see the generator as [SBase] with these types *)
Definition wrapped (t : option vty) : ty := match t with None => TTrig | Some VInteger => TInt | Some VBoolean => TBool | Some _ => TFloat end.
Theorem C86_wrapped : forall items u, expand items = Some u -> compiles items u = true -> forall got i v,
  param_apply u i v = None <-> WrapModel.apply (SBase (map (fun p => wrapped (d_ty p)) (u_params u)) got) i v = None.
Proof.
  intros items u E C got i v. destruct (expand_parts items u E) as (n_in & n_out & _ & _ & P & _).
  unfold compiles in C. apply andb_prop in C. destruct C as [C _]. apply andb_prop in C. destruct C as [_ C]. rewrite forallb_forall in C.
  cbn [WrapModel.apply]. rewrite nth_error_map. unfold param_apply. generalize (Forall2_nth _ _ _ P i).
  destruct (nth_error (u_params u) i) as [p|] eqn:U; [|cbn; split; discriminate]. cbn [option_map].
  destruct (nth_error (params_of items) i) as [f|]; [|intros []]. intros R. destruct (read_param_parts f p R) as [_ A].
  destruct (accepts (wrapped (d_ty p)) v) eqn:W.
  - assert (Fi : fits (d_ty p) v) by (destruct (d_ty p) as [[]|], v; cbn in W |- *; try discriminate W; eauto).
    assert (NF : no_flags (d_args p)).
    { apply nth_error_In in U. apply C in U. unfold ok_param in U. apply andb_prop in U. destruct U as [U _]. now apply negb_true_iff in U. }
    destruct (param_args_call _ _ _ _ v A NF (fun _ => Fi)) as (x & X & _). rewrite X. split; discriminate.
  - rewrite (param_args_reject _ _ _ v A); [split; reflexivity|]. destruct (d_ty p) as [[]|], v; cbn in W |- *; try discriminate W; intros X; try destruct X; discriminate.
Qed.
Print Assumptions C86_wrapped.
Example C86_test : exists u, expand more_params = Some u /\ compiles more_params u = true /\ u_inputs u = 1 /\ u_outputs u = 1 /\
  descriptions u = ["number"; "number2"; "number3"; "number4"; "t_reset"] /\
  hints u = [HFloat None None false (Some (ENum 0)); HFloat (Some (5, 10)%Z) None false (Some (ENum 1));
             HFloat None (Some KFrequency) false (Some (ENum 1000)); HInt (inl "NumberEnum"); HTrigger] /\
  param_apply u 1 (VFloat 7) = Some (Called "number2" [ACtx; AFloat VF32 7]) /\ param_apply u 3 (VFloat 7) = None /\
  param_apply u 4 (VFloat 7) = Some (Called "t_reset" []) /\ param_apply u 5 (VFloat 7) = Some Logged /\
  call_process (u_process u) [7] = Some ("process", [ACtx; AFlags; AFrame [7]]) /\
  u_block u = Some (PCall (mk_fn "process_block" 0 [Recv true; ctx_arg true; flags_arg; Typed (TArray (TRef false (TSlice F_)) (Some 1));
    Typed (TArray (TRef true (TSlice F_)) (Some 1))] None []) [GCtx; GFlags; GIn; GOut] 1 1).
Proof. eexists. split; [reflexivity|]. repeat split. Qed.

(** The last function called or marked [process] makes every frame: it gets all channels in order, and as many are put out as it returns *)
Theorem C86_process : forall items u f, expand items = Some u -> compiles items u = true -> last_marked is_process "process" items f ->
  no_override items \/ trait_process f = true -> forall F (frame : list F), List.length frame = u_inputs u ->
  exists args, call_process (u_process u) frame = Some (f_name f, args) /\ Forall2 (gets frame) (typed f) args /\
    match f_ret f with Some (TArray _ (Some k)) => k = u_outputs u | Some (TPath _) => trait_process f = true | _ => False end.
Proof.
  intros items u f E C M O F frame L. destruct (expand_parts items u E) as (n_in & n_out & P & _ & _ & UI & UO & _).
  generalize (look_process items). destruct (g_process (look_all items)) as [f'|] eqn:G; [|intros N; destruct M as (b & a & -> & M & _); rewrite N in M; [discriminate | apply in_or_app; right; now left]].
  intros M'. rewrite (last_marked_unique _ _ _ _ _ M' M) in *. clear M M' f'.
  unfold compiles in C. apply andb_prop in C. destruct C as [C _]. apply andb_prop in C. destruct C as [C _]. apply andb_prop in C. destruct C as [C _].
  cbn [gen_process] in P. destruct (ret (f_ret f)) as [[own no]|] eqn:R; [cbn [bind] in P|discriminate].
  destruct (own_args false 0 (f_args f)) as [own'|] eqn:OA; [cbn [bind] in P|discriminate].
  destruct (own && own') eqn:OO.
  - injection P as PU <- <-. rewrite <- PU in *. clear PU. cbn [ok_process call_process] in *. eexists. split; [reflexivity|].
    split; [now apply trait_process_gets|]. assert (C' := C). unfold trait_process in C. apply andb_prop in C. destruct C as [_ Cr].
    destruct (f_ret f) as [[]|]; try discriminate Cr; exact C'.
  - destruct (process_args (f_args f) None) as [[l ni]|] eqn:A; [cbn [bind] in P|discriminate]. injection P as PU <- <-. rewrite <- PU in *. clear PU.
    destruct O as [O|O].
    2:{ exfalso. rewrite (trait_process_own f O) in OA. injection OA as <-. unfold trait_process in O. apply andb_prop in O. destruct O as [_ Or].
        destruct (f_ret f) as [[| r | | |]|]; try discriminate Or. cbn [ret] in R.
        destruct ((List.last r "" =? "Frame") || (List.last r "" =? "NumericArray")); [|discriminate]. injection R as <- <-. discriminate OO. }
    destruct (look_override items O) as [GI GO]. rewrite GI in UI. rewrite GO in UO. cbn [ok_process] in C.
    apply andb_prop in C. destruct C as [C Cr]. apply andb_prop in C. destruct C as [C Cn]. apply andb_prop in C. destruct C as [_ Cw].
    set (n := match ni with Some n => n | None => 0 end) in *. cbn [call_process]. rewrite <- UI, <- L, all_some_nth. cbn [bind]. eexists. split; [reflexivity|]. split.
    + apply (process_args_call _ _ _ _ _ A). rewrite L, UI. exact Cw.
    + apply Nat.eqb_eq in Cn. destruct (f_ret f) as [[| | e [k|] | |]|]; try discriminate Cr; try discriminate R. cbn [ret] in R. injection R as <- <-. exact Cn.
Qed.
Print Assumptions C86_process.

(** The same for blocks; without such a function the default of the trait is used (C48) *)
Theorem C86_block : forall items u f, expand items = Some u -> compiles items u = true -> last_marked is_block "process_block" items f ->
  no_override items \/ trait_block f = true -> forall F, exists b args, u_block u = Some b /\
    @call_block F b (u_inputs u) (u_outputs u) = Some (f_name f, args) /\ Forall2 (gets_block (u_inputs u) (u_outputs u)) (typed f) args.
Proof.
  intros items u f E C M O F. destruct (expand_parts items u E) as (n_in & n_out & _ & P & _ & UI & UO & _).
  generalize (look_block items). destruct (g_block (look_all items)) as [f'|] eqn:G; [|intros N; destruct M as (b & a & -> & M & _); rewrite N in M; [discriminate | apply in_or_app; right; now left]].
  intros M'. rewrite (last_marked_unique _ _ _ _ _ M' M) in *. clear M M' f'.
  unfold compiles in C. apply andb_prop in C. destruct C as [C _]. apply andb_prop in C. destruct C as [C _]. apply andb_prop in C. destruct C as [_ C].
  cbn [gen_block] in P. destruct (own_args true 0 (f_args f)) as [own|] eqn:OA; [cbn [bind] in P|discriminate].
  destruct ((f_generics f =? 2)%nat && own) eqn:OO.
  - injection P as PU. rewrite <- PU in *. clear PU. cbn [ok_block call_block] in *. eexists _, _. split; [reflexivity|]. split; [reflexivity|]. now apply trait_block_gets.
  - destruct (block_args (f_args f) n_in n_out) as [l|] eqn:A; [cbn [bind] in P|discriminate]. injection P as PU. rewrite <- PU in *. clear PU.
    destruct O as [O|O].
    2:{ exfalso. destruct (trait_block_own f O) as [OB OG]. rewrite OB in OA. injection OA as <-. rewrite OG in OO. discriminate OO. }
    destruct (look_override items O) as [GI GO]. rewrite GI in UI. rewrite GO in UO. cbn [ok_block] in C. rewrite <- UI, <- UO in *.
    apply andb_prop in C. destruct C as [C _]. apply andb_prop in C. destruct C as [_ Cw].
    eexists _, _. split; [reflexivity|]. cbn [call_block]. rewrite !Nat.leb_refl. cbn [andb]. split; [reflexivity|]. exact (block_args_call _ _ _ _ _ _ A Cw).
Qed.
Print Assumptions C86_block.

(** The numbers of channels are the lengths of the arrays, unless given as [type Inputs] or [type Outputs] *)
Theorem C86_channels : forall items u f, expand items = Some u -> compiles items u = true -> last_marked is_process "process" items f -> no_override items ->
  (forall e k, In (TArray e (Some k)) (typed f) -> u_inputs u = k) /\ ((forall e k, ~ In (TArray e (Some k)) (typed f)) -> u_inputs u = 0) /\
  (forall e k, f_ret f = Some (TArray e (Some k)) -> u_outputs u = k).
Proof.
  intros items u f E C M O. destruct (C86_process items u f E C M (or_introl O) nat (repeat 0 (u_inputs u)) (repeat_length _ _)) as (args & _ & G & R).
  split; [|split].
  - intros e k I. destruct (In_nth_error _ _ I) as [i Hi]. generalize (Forall2_nth _ _ _ G i). rewrite Hi. destruct (nth_error args i) as [a|]; [|intros []].
    cbn [gets]. rewrite repeat_length. tauto.
  - intros N. destruct (expand_parts items u E) as (n_in & n_out & P & _ & _ & UI & _). destruct (look_override items O) as [GI _]. rewrite GI in UI.
    generalize (look_process items). destruct (g_process (look_all items)) as [f'|] eqn:GP; cbn [gen_process] in P; [|injection P as _ <- _; intros _; exact UI].
    intros M'. rewrite (last_marked_unique _ _ _ _ _ M' M) in *. destruct (ret (f_ret f)) as [[own no]|]; [cbn [bind] in P|discriminate].
    destruct (own_args false 0 (f_args f)) as [own'|]; [cbn [bind] in P|discriminate]. destruct (own && own'); [injection P as _ <- _; exact UI|].
    destruct (process_args (f_args f) None) as [[l ni]|] eqn:A; [cbn [bind] in P|discriminate]. injection P as _ <- _.
    destruct (process_args_last _ _ _ _ A) as [->|(k & -> & e & I)]; [exact UI|]. destruct (N e k). unfold typed. apply in_flat_map. exists (Typed (TArray e (Some k))). split; [exact I | now left].
  - intros e k H. rewrite H in R. now symmetry.
Qed.
Print Assumptions C86_channels.
Lemma keeps_in after : (forall c, ~ In (IType "Inputs" c) after) -> forall g, g_in (fold_left look after g) = g_in g.
Proof.
  induction after as [|i after IH]; intros N g; cbn [fold_left]; [reflexivity|]. rewrite IH; [|intros c H; apply (N c); now right].
  destruct i as [f|n c|]; cbn [look]; [rewrite attr_in, name_in; reflexivity| |reflexivity].
  destruct (String.eqb_spec n "Inputs") as [->|_]; [destruct (N c); now left|]. destruct (n =? "Outputs"); reflexivity.
Qed.
Lemma keeps_out after : (forall c, ~ In (IType "Outputs" c) after) -> forall g, g_out (fold_left look after g) = g_out g.
Proof.
  induction after as [|i after IH]; intros N g; cbn [fold_left]; [reflexivity|]. rewrite IH; [|intros c H; apply (N c); now right].
  destruct i as [f|n c|]; cbn [look]; [rewrite attr_out, name_out; reflexivity| |reflexivity].
  destruct (n =? "Inputs"); [reflexivity|]. destruct (String.eqb_spec n "Outputs") as [->|_]; [destruct (N c); now left|]. reflexivity.
Qed.
Theorem C86_given_channels : forall before after c u,
  (expand (before ++ IType "Inputs" c :: after) = Some u -> (forall d, ~ In (IType "Inputs" d) after) -> u_inputs u = c) /\
  (expand (before ++ IType "Outputs" c :: after) = Some u -> (forall d, ~ In (IType "Outputs" d) after) -> u_outputs u = c).
Proof.
  intros b a c u. split; intros E N; destruct (expand_parts _ u E) as (n_in & n_out & _ & _ & _ & UI & UO & _).
  - rewrite UI. unfold look_all. rewrite fold_left_app. cbn [fold_left]. rewrite keeps_in by exact N. reflexivity.
  - rewrite UO. unfold look_all. rewrite fold_left_app. cbn [fold_left]. rewrite keeps_out by exact N. reflexivity.
Qed.
Print Assumptions C86_given_channels.

(** The hints of a float parameter are those of its attribute, if its range is written as a range.
    Missing: other ranges and the defaults of integers, see the refutations below *)
Definition kind_name (k : kind) : string := match k with KFrequency => "Frequency" | KAmplitude => "Amplitude" | KQ => "Q" | KSeconds => "Seconds" end.
Theorem C86_hints_partial : forall items u i f a t, expand items = Some u -> compiles items u = true -> nth_error (params_of items) i = Some f ->
  f_attrs f = [AParam (Some a)] -> takes f (Some t) -> is_float (Some t) = true -> ~ In "PInteger" (List.concat (value_args f)) -> ~ In "bool" (List.concat (value_args f)) ->
  (forall n, a_range a <> Some (ENum n)) ->
  exists r k l, nth_error (hints u) i = Some (HFloat r k l (a_default a)) /\ a_range a = option_map (fun p => ERange (Some (fst p)) (Some (snd p)) true) r /\
    a_kind a = option_map (fun k => [kind_name k]) k /\ (l = true <-> a_log a = Some true).
Proof.
  intros items u i f a t E C H HA (s & VA & Hs) HF NI NB NR. destruct (expand_parts items u E) as (n_in & n_out & _ & _ & P & _).
  generalize (Forall2_nth _ _ _ P i). rewrite H. destruct (nth_error (u_params u) i) as [p|] eqn:U; [|intros []]. intros R.
  unfold hints. rewrite nth_error_map, U. cbn [option_map]. unfold read_param in R. destruct (param_args (f_args f) None) as [[l t']|] eqn:A; [cbn [bind] in R|discriminate].
  generalize (param_args_type _ _ _ _ A). change (paths (typed_args (f_args f))) with (value_args f). rewrite VA. destruct t' as [t'|]; [|discriminate].
  intros (s' & [= <-] & V). rewrite VA in NI, NB. cbn in NI, NB. rewrite app_nil_r in NI, NB.
  assert (F' : is_float (Some t') = true). { apply value_type_named in V. destruct t'; try reflexivity; cbn in V; contradiction. }
  rewrite HA in R. cbn [last_list fold_left] in R.
  assert (K : exists k, (match a_kind a with None => Some None | Some n => if is_float (Some t') then k <- read_kind n;; Some (Some k) else None end) = Some k /\ a_kind a = option_map (fun k => [kind_name k]) k).
  { destruct (a_kind a) as [n|]; [|exists None; split; reflexivity]. rewrite F' in R |- *. destruct (read_kind n) as [k|] eqn:RK; [|discriminate R]. exists (Some k). split; [reflexivity|].
    cbn. f_equal. unfold read_kind in RK. destruct n as [|n [|]]; try discriminate RK.
    destruct (String.eqb_spec n "Frequency") as [->|_]; [now injection RK as <-|]. destruct (String.eqb_spec n "Amplitude") as [->|_]; [now injection RK as <-|].
    destruct (String.eqb_spec n "Q") as [->|_]; [now injection RK as <-|]. destruct (String.eqb_spec n "Seconds") as [->|_]; [now injection RK as <-|discriminate]. }
  destruct K as (k & KE & KN). rewrite KE in R. cbn [bind] in R.
  destruct (match a_from a with None => _ | Some _ => _ end) as [from|]; [cbn [bind] in R|discriminate].
  destruct (a_range a) as [[n|[x|] [y|] [|]]|] eqn:AR; try discriminate R; [now destruct (NR n)| |]; cbn [bind] in R; injection R as <-;
    unfold hint_of; cbn [d_ty d_range d_kind d_log d_default d_from]; [exists (Some (x, y)), k, (match a_log a with Some b => b | None => false end) | exists None, k, (match a_log a with Some b => b | None => false end)];
    (split; [destruct t'; reflexivity || discriminate F'|]; split; [reflexivity|]; split; [exact KN|]; destruct (a_log a) as [[]|]; split; congruence).
Qed.
Print Assumptions C86_hints_partial.
Example C86_hints_case : exists u, expand more_params = Some u /\ compiles more_params u = true /\
  nth_error (params_of more_params) 2 = Some (mk_fn "number3" 0 [Recv true; ctx_arg false; Typed (TPath ["PFloat"])] None [attr_ (Some (ENum 1000)) None (Some ["Frequency"]) None]) /\
  nth_error (hints u) 2 = Some (HFloat None (Some KFrequency) false (Some (ENum 1000))) /\ no_override more_params /\
  last_marked is_process "process" more_params (mk_fn "process" 0 [Recv true; ctx_arg true; flags_arg; Typed (TArray F_ (Some 1))] (Some (TArray F_ (Some 1))) []).
Proof.
  eexists. split; [reflexivity|]. split; [reflexivity|]. split; [reflexivity|]. split; [reflexivity|]. split.
  - intros c. split; intros H; repeat (destruct H as [H|H]; [discriminate H|]); exact H.
  - exists (firstn 6 more_params), (skipn 7 more_params). split; [reflexivity|]. split; [reflexivity|]. intros g [[= <-]|[]]. reflexivity.
Qed.

(** Functions that are neither called nor marked as processing stay in the impl block, and nothing is added to it *)
Theorem C86_others_stay : forall items u i, expand items = Some u ->
  (In i (u_rest u) -> In i items) /\
  (forall f, i = IFn f -> In i items -> marked is_process "process" f = false -> marked is_block "process_block" f = false -> In i (u_rest u)).
Proof.
  intros items u i E. destruct (expand_parts items u E) as (n_in & n_out & _ & _ & _ & _ & _ & _ & ->). split.
  - intros H. apply filter_In in H. tauto.
  - intros f -> H M1 M2. apply filter_In. split; [exact H|]. cbn [stays]. rewrite M1, M2, !andb_false_r. reflexivity.
Qed.
Print Assumptions C86_others_stay.

(** ** What is not as it should be *)
Definition frame_arg := Typed (TPath ["Frame"]).
Definition own_block := IFn (mk_fn "process_block" 2 [Recv true; ctx_arg true; flags_arg; Typed (TRef false (TPath ["InBlock"])); Typed (TRef true (TPath ["OutBlock"]))] None []).
Definition own_process (n : string) (attrs : list attr) := mk_fn n 0 [Recv true; ctx_arg true; flags_arg; frame_arg] (Some (TPath ["Frame"])) attrs.
(** A generator that only processes blocks compiles, and panics ([todo!()]) when asked for a frame *)
Theorem C86_todo_refuted : exists items u, expand items = Some u /\ compiles items u = true /\ last_marked is_block "process_block" items
    (mk_fn "process_block" 2 [Recv true; ctx_arg true; flags_arg; Typed (TRef false (TPath ["InBlock"])); Typed (TRef true (TPath ["OutBlock"]))] None []) /\
  forall F (frame : list F), call_process (u_process u) frame = None.
Proof.
  exists [IType "Inputs" 1; IType "Outputs" 1; own_block]. eexists. split; [reflexivity|]. split; [reflexivity|]. split; [|reflexivity].
  exists [IType "Inputs" 1; IType "Outputs" 1], []. split; [reflexivity|]. split; [reflexivity | intros g []].
Qed.
Print Assumptions C86_todo_refuted.
(** [type Inputs] may be smaller than the array of [process]: it compiles, and every frame panics *)
Theorem C86_inputs_refuted : exists items u, expand items = Some u /\ compiles items u = true /\ forall F (frame : list F), List.length frame = u_inputs u -> call_process (u_process u) frame = None.
Proof.
  exists [IType "Inputs" 1; IFn (mk_fn "process" 0 [Recv true; Typed (TArray F_ (Some 2))] (Some (TArray F_ (Some 1))) [])]. eexists.
  split; [reflexivity|]. split; [reflexivity|]. intros F [|x [|y frame]]; try discriminate. reflexivity.
Qed.
Print Assumptions C86_inputs_refuted.
(** The default of an integer parameter is dropped *)
Definition choice (d : Z) := [IFn (mk_fn "choice" 0 [Recv true; Typed (TPath ["PInteger"])] None [attr_ (Some (ENum d)) None None None])].
Theorem C86_default_refuted : forall d, exists u, expand (choice d) = Some u /\ compiles (choice d) u = true /\ hints u = [HInt (inr None)].
Proof. intros d. eexists. split; [reflexivity|]. split; reflexivity. Qed.
Print Assumptions C86_default_refuted.
(** A range that is not written as a range, such as a constant, is dropped *)
Definition level (n : Z) := [IFn (mk_fn "level" 0 [Recv true; Typed (TPath ["PFloat"])] None [attr_ None (Some (ENum n)) None None])].
Theorem C86_range_refuted : forall n, exists u, expand (level n) = Some u /\ compiles (level n) u = true /\ hints u = [HFloat None None false None].
Proof. intros n. eexists. split; [reflexivity|]. split; reflexivity. Qed.
Print Assumptions C86_range_refuted.
(** The macro accepts a range for an integer parameter, and what it writes never compiles *)
Theorem C86_integer_range_refuted :
  (forall items u p r, expand items = Some u -> In p (u_params u) -> d_ty p = Some VInteger -> d_from p = None -> d_range p = Some r -> compiles items u = false) /\
  exists items u p, expand items = Some u /\ In p (u_params u) /\ d_ty p = Some VInteger /\ d_from p = None /\ d_range p = Some (0, 3)%Z.
Proof.
  split.
  - intros items u p r _ I T N R. unfold compiles. destruct (forallb ok_param (u_params u)) eqn:B; [|rewrite andb_false_r; reflexivity].
    exfalso. rewrite forallb_forall in B. apply B in I. unfold ok_param, hint_of in I. rewrite T, N, R, andb_false_r in I. discriminate.
  - exists [IFn (mk_fn "choice" 0 [Recv true; Typed (TPath ["PInteger"])] None [attr_ None (Some (ERange (Some 0%Z) (Some 3%Z) true)) None None])]. eexists _, _.
    split; [reflexivity|]. split; [left; reflexivity|]. repeat split.
Qed.
Print Assumptions C86_integer_range_refuted.
(** The macro accepts parameter functions that take the flags, and what it writes never compiles *)
Theorem C86_flags_refuted :
  (forall items u p, expand items = Some u -> In p (u_params u) -> In GFlags (d_args p) -> compiles items u = false) /\
  exists items u p, expand items = Some u /\ In p (u_params u) /\ In GFlags (d_args p).
Proof.
  split.
  - intros items u p _ I G. unfold compiles. destruct (forallb ok_param (u_params u)) eqn:B; [|rewrite andb_false_r; reflexivity].
    exfalso. rewrite forallb_forall in B. apply B in I. unfold ok_param in I. destruct (existsb (fun a => match a with GFlags => true | _ => false end) (d_args p)) eqn:X; [discriminate I|].
    assert (Y : existsb (fun a => match a with GFlags => true | _ => false end) (d_args p) = true); [|congruence]. apply existsb_exists. exists GFlags. now split.
  - exists [IFn (mk_fn "stop" 0 [Recv true; flags_arg] None [AParam None])]. eexists _, _. split; [reflexivity|]. split; [left; reflexivity | now left].
Qed.
Print Assumptions C86_flags_refuted.
(** Of two functions marked as [process] the first one vanishes: it is neither called nor kept *)
Theorem C86_vanishes_refuted : exists items u f, In (IFn f) items /\ expand items = Some u /\ compiles items u = true /\ ~ In (IFn f) (u_rest u) /\
  forall F (frame : list F) args, call_process (u_process u) frame <> Some (f_name f, args).
Proof.
  exists [IFn (own_process "saw" [AProcess]); IFn (own_process "process" [])]. eexists _, (own_process "saw" [AProcess]).
  split; [now left|]. split; [reflexivity|]. split; [reflexivity|]. split; [intros []|]. intros F frame args. discriminate.
Qed.
Print Assumptions C86_vanishes_refuted.
(** The macro itself refuses a [process_block] whose arrays are not as long as those of [process], whatever else is given *)
Theorem C86_lengths : forall items u p b, expand items = Some u -> last_marked is_process "process" items p -> last_marked is_block "process_block" items b ->
  (forall e n e' k, f_ret p = Some (TArray e (Some n)) -> In (TArray (TRef true e') (Some k)) (typed b) -> k = n) /\
  (forall e n e' k, In (TArray e (Some n)) (typed p) -> (forall e m, In (TArray e (Some m)) (typed p) -> m = n) -> In (TArray (TRef false e') (Some k)) (typed b) -> k = n).
Proof.
  intros items u p b E P B. destruct (expand_parts items u E) as (n_in & n_out & GP & GB & _).
  assert (Ep : g_process (look_all items) = Some p).
  { generalize (look_process items). destruct (g_process (look_all items)) as [p'|]; intros M; [f_equal; exact (last_marked_unique _ _ _ _ _ M P)|].
    destruct P as (x & y & -> & P & _). rewrite M in P; [discriminate|apply in_or_app; right; now left]. }
  assert (Eb : g_block (look_all items) = Some b).
  { generalize (look_block items). destruct (g_block (look_all items)) as [b'|]; intros M; [f_equal; exact (last_marked_unique _ _ _ _ _ M B)|].
    destruct B as (x & y & -> & B & _). rewrite M in B; [discriminate|apply in_or_app; right; now left]. }
  rewrite Ep in GP. rewrite Eb in GB. clear - GP GB. unfold gen_process in GP. unfold gen_block in GB.
  destruct (ret (f_ret p)) as [[own no]|] eqn:R; [cbn [bind] in GP|discriminate GP].
  destruct (own_args false 0 (f_args p)) as [own'|] eqn:W; [cbn [bind] in GP|discriminate GP].
  destruct (own_args true 0 (f_args b)) as [ownb|] eqn:WB; [cbn [bind] in GB|discriminate GB].
  assert (Bl : forall e' m k, In (TArray (TRef m e') (Some k)) (typed b) -> exists l, block_args (f_args b) n_in n_out = Some l).
  { intros e' m k I. apply typed_In in I. destruct ownb; [exfalso; exact (own_no_array _ _ _ _ _ WB I)|]. rewrite andb_false_r in GB.
    destruct (block_args (f_args b) n_in n_out) as [l|]; [eauto|discriminate GB]. }
  split.
  - intros e n e' k Hr I. rewrite Hr in R. cbn [ret] in R. injection R as <- <-. cbn [andb] in GP.
    destruct (process_args (f_args p) None) as [[l ni]|]; cbn [bind] in GP; [|discriminate GP]. injection GP as _ _ <-.
    destruct (Bl _ _ _ I) as (l' & L). apply typed_In in I. generalize (proj1 (block_args_agree e' k _ _ _ _ L) I). cbn [agrees]. apply Nat.eqb_eq.
  - intros e n e' k I Same J. apply typed_In in I. destruct own'; [exfalso; exact (own_no_array _ _ _ _ _ W I)|]. rewrite andb_false_r in GP.
    destruct (process_args (f_args p) None) as [[l ni]|] eqn:A; cbn [bind] in GP; [|discriminate GP]. injection GP as _ <- _.
    destruct (Bl _ _ _ J) as (l' & L). apply typed_In in J. generalize (proj2 (block_args_agree e' k _ _ _ _ L) J).
    pose proof (process_args_some e n _ _ _ _ A (or_intror I)) as N. destruct (process_args_last _ _ _ _ A) as [->|(q & -> & e2 & I2)]; [congruence|].
    cbn [agrees]. intros Q. apply Nat.eqb_eq in Q. subst q. apply (Same e2). apply typed_In. exact I2.
Qed.
Print Assumptions C86_lengths.
(** One channel in, and a block with two: refused *)
Example C86_lengths_case : expand [IFn (mk_fn "process" 0 [Recv true; Typed (TArray F_ (Some 1))] (Some (TArray F_ (Some 1))) []);
  IFn (mk_fn "process_block" 0 [Recv true; Typed (TArray (TRef false (TSlice F_)) (Some 2)); Typed (TArray (TRef true (TSlice F_)) (Some 1))] None [])] = None.
Proof. reflexivity. Qed.
