(** Results: several signals connected to the same place are heard as their sum (C88) *)
From Coq Require Import ZArith.
From Verif Require Import Base GraphModel GraphSpec GraphBase GraphPath GraphInv GraphShape GraphStep OrderSpec AllocModel RenderModel RenderSpec PlanProofs RenderProps SoundSpec SoundProofs SoundProps
  MixSpec MixProofs.
Local Open Scope nat_scope.
Local Notation length := List.length.

Lemma mixes_wf d si g l g' : mixes d si g l g' -> wf g -> wf g'.
Proof. induction 1 as [g | g s so g1 l g2 H _ IH | g o r g1 l g2 He H _ IH]; intros W; [exact W | |]; apply IH; eapply step_wf; eauto. Qed.
Section Place.
Variable F : Type.
Variable zero : F.
Variable add : F -> F -> F.
Variable St : Type.
Variable proc : key -> St -> list (list F) -> list (N * list F) -> St * (nat -> nat -> F).
Variable bs : nat.
Lemma edge_sample gin V f x : f < bs -> nth f (signal F zero bs gin V (Some (mk_edge (src_of (fst x)) (snd x) false))) zero = sample F zero gin V f x.
Proof. intros Hf. destruct x as [[| id] c]; cbn [signal e_src e_chan src_of fst snd sample]; [reflexivity |]. unfold sample. cbn [fst snd]. apply chan_at. exact Hf. Qed.
Lemma place_value d si g l g' gin s V f : wf g -> there g d -> arriving g d si = None -> mixes d si g l g' -> forward_graph g' -> sums_add F zero add St proc bs g' ->
  (forall c, c < g_inputs g' -> length (gin c) = bs) -> f < bs -> (forall k, heard g' k -> solves F zero St proc bs g' gin s V k) ->
  (forall e k, arriving g' d si = Some e -> e_src e = Some k -> heard g' k) ->
  nth f (signal F zero bs gin V (arriving g' d si)) zero = in_order F zero add (map (sample F zero gin V f) l) /\ (l <> [] -> arriving g' d si <> None).
Proof.
  intros W T E0 M Hg Ha Hin Hf HV Hh. pose proof (mixes_combs d si g l g' M [] W T ltac:(rewrite E0; reflexivity)) as C. cbn [app] in C.
  destruct (arriving g' d si) as [e |] eqn:E; cbn [combs] in C.
  - split; [| discriminate]. rewrite (comb_value F zero add St proc bs g' gin s V f Hg Ha Hin Hf HV _ _ C).
    + f_equal. rewrite map_map. apply map_ext. intros x. apply edge_sample. exact Hf.
    + intros e' E'. injection E' as <-. destruct d as [| k]; cbn [arriving] in E; [exact (proj2 (fg_refs _ Hg) _ _ E) | exact (proj1 (fg_refs _ Hg) _ _ _ E)].
    + exact Hh.
  - apply map_eq_nil in C. subst l. split; [cbn [signal map in_order]; apply nth_repeat | congruence].
Qed.
End Place.

(** ** C88 *)
(** An input of a node that is heard: whatever the nodes put out in a block, the signal that arrives at the input has in every frame the sum
    of the connected outputs, added up in the order in which they were connected (so nothing is assumed of the addition, and this is what is
    heard with floating point numbers too), and silence if there are none.  Pushing nodes and connecting elsewhere in between do not matter.
    Missing: graphs with feedback, and disconnecting in between. *)
Theorem C88_input_partial : forall F zero add St proc bs g k si l g' gin s V f, reachable g ->
  lookup g (id_key k) <> None -> summing g (id_key k) = false -> in_edge g (id_key k) si = None -> mixes (NNode k) si g l g' ->
  refs_ok g' -> (N.of_nat (links g') < usize_max)%N -> (forall k c e, in_edge g' k c = Some e -> e_fb e = false) -> sums_add F zero add St proc bs g' ->
  (forall c, c < g_inputs g' -> length (gin c) = bs) -> (forall k, heard g' k -> solves F zero St proc bs g' gin s V k) -> heard g' (id_key k) -> f < bs ->
  nth f (signal F zero bs gin V (in_edge g' (id_key k) si)) zero = in_order F zero add (map (sample F zero gin V f) l).
Proof.
  intros F zero add St proc bs g k si l g' gin s V f R Hk Hs E M Hr Hl Nf Ha Hin HV Hh Hf. pose proof (reachable_wf _ R) as W.
  assert (Hg : forward_graph g') by (constructor; [exact (mixes_wf _ _ _ _ _ M W) | assumption..]).
  apply (place_value F zero add St proc bs (NNode k) si g l g' gin s V f W); try assumption.
  - split; [| exact Hs]. destruct (lookup g (id_key k)) as [n |] eqn:En; [| congruence]. apply (bi_lt _ (proj1 (proj1 W))). eapply lookup_key; eauto.
  - intros e k0 E' Es. destruct Hh as (q & Hq & Hrt). exists q. split; [exact Hq |]. eapply rt_trans; [apply rt_step | exact Hrt]. left. exists si, e. split; [exact E' |]. split; [exact Es | exact (Nf _ _ _ E')].
Qed.
Print Assumptions C88_input_partial.
(** A graph output, for any number of blocks, if the plan is sound.  Missing: as above, and plans that are not sound ([C88_reuse_refuted]). *)
Theorem C88_output_partial : forall F zero add St proc bs g si l g' a old a1 td, reachable g -> out_edge g si = None -> l <> [] -> mixes NGraph si g l g' ->
  refs_ok g' -> (N.of_nat (links g') < usize_max)%N -> (forall k c e, in_edge g' k c = Some e -> e_fb e = false) -> sums_add F zero add St proc bs g' ->
  0 < bs -> plan g' bs a old = Some (a1, td) -> sound_plan g' bs td ->
  forall gins m s m' s' outs, (forall gin c, In gin gins -> c < g_inputs g' -> length (gin c) = bs) -> (forall x, x < bs -> m x = zero) ->
  render_n F zero St proc bs td gins (m, s) = (m', s', outs) -> hears F zero add St proc bs g' si l gins s outs.
Proof.
  intros F zero add St proc bs g si l g' a old a1 td R E Nl M Hr Hl Nf Ha Hbs Hp Hso gins m s m' s' outs Hin Hm H. pose proof (reachable_wf _ R) as W.
  assert (Hg : forward_graph g') by (constructor; [exact (mixes_wf _ _ _ _ _ M W) | assumption..]).
  destruct (sound_blocks F zero St proc bs g' a old a1 td Hg Hbs Hp Hso gins m s m' s' outs Hm H) as [_ P]. clear H Hm.
  induction P as [s | gin gins s s1 V outs HV HS P IH]; [constructor |].
  apply hears_cons with (s1 := s1) (V := V); [exact HV | exact HS | | apply IH; intros gin' c Hi; apply Hin; right; exact Hi].
  intros f Hf. assert (Hi : forall c, c < g_inputs g' -> length (gin c) = bs) by (intros c; apply Hin; left; reflexivity).
  destruct (place_value F zero add St proc bs NGraph si g l g' gin s V f W I E M Hg Ha Hi Hf HV) as [Hv Hn].
  { intros e k E' Es. exists k. split; [exists si, e; split; assumption | apply rt_refl]. }
  cbn [arriving] in *. specialize (Hn Nl). rewrite <- Hv. unfold out_edge in *. destruct (nth_error (g_outs g') si) as [o |] eqn:En; [| congruence].
  assert (Eo : nth si (map (signal F zero bs gin V) (g_outs g')) [] = signal F zero bs gin V o) by (apply nth_error_nth; rewrite nth_error_map, En; reflexivity).
  rewrite Eo. apply nth_error_nth'. rewrite (signal_len F zero bs g' gin V o Hi); [exact Hf |].
  intros e ->. apply (proj2 Hr si). unfold out_edge. rewrite En. reflexivity.
Qed.
Print Assumptions C88_output_partial.

(** ** a concrete case: three signals on input 0 of node 3 and three on output 0, connected in turns *)
Definition mix_g0 : graph := match run (graph_new 7 1 2 []) [OpPush 0 1 [] false; OpPush 0 1 [] false; OpPush 0 1 [] false; OpPush 1 1 [] false] with Some g => g | None => graph_new 7 1 2 [] end.
Definition mix_ops : list op :=
  [ OpConnect (GraphProps.nd 0) 0 0 (GraphProps.nd 3) true false; OpConnect (GraphProps.nd 3) 0 0 NGraph true false;
    OpConnect (GraphProps.nd 1) 0 0 (GraphProps.nd 3) true false; OpConnect (GraphProps.nd 2) 0 0 NGraph true false;
    OpConnect NGraph 0 0 NGraph true false; OpConnect NGraph 0 0 (GraphProps.nd 3) true false ].
Definition mix_g : graph := match run mix_g0 mix_ops with Some g => g | None => mix_g0 end.
(** an addition that is neither associative nor commutative; node k puts out 10 (k + 1) + f, node 3 ten times its input *)
Definition mix_add (x y : Z) : Z := (2 * x + y)%Z.
Definition mix_proc (k : key) (s : unit) (ins : list (list Z)) (_ : list (N * list Z)) : unit * (nat -> nat -> Z) :=
  (s, fun _ f => if summing mix_g k then mix_add (nth f (nth 0 ins []) 0%Z) (nth f (nth 1 ins []) 0%Z)
                 else if k =? 3 then (10 * nth f (nth 0 ins []) 0)%Z else (10 * Z.of_nat (S k) + Z.of_nat f)%Z).
Lemma mix_edges : forall k c e, in_edge mix_g k c = Some e -> edge_ok mix_g e /\ e_fb e = false /\ e_src e <> Some 6.
Proof.
  intros k c e. do 8 (destruct k as [| k]; [do 2 (destruct c as [| c]; [vm_compute; intros H; try discriminate H; injection H as <-;
    (split; [first [lia | eexists; split; [reflexivity |]; split; [discriminate | lia]] |]; split; [reflexivity | discriminate]) |]); vm_compute; destruct c; discriminate |]).
  vm_compute. discriminate.
Qed.
Lemma mix_outs : forall c e, out_edge mix_g c = Some e -> edge_ok mix_g e /\ e_src e = Some 6.
Proof.
  intros c e. do 2 (destruct c as [| c]; [vm_compute; intros H; try discriminate H; injection H as <-; (split; [eexists; split; [reflexivity |]; split; [discriminate | lia] | reflexivity]) |]).
  vm_compute. destruct c; discriminate.
Qed.
Lemma mix_no_par : forall s k, ~ par_feeds mix_g s k.
Proof.
  intros s k (n & ps & p & El & E & Hin & _). revert n ps E Hin El.
  do 8 (destruct k as [| k]; [intros n ps E Hin; vm_compute; intros El; injection El as <-; cbn in E; injection E as <-; destruct Hin |]).
  intros n ps _ _. vm_compute. discriminate.
Qed.
Lemma mix_plain : plain_graph mix_g.
Proof.
  assert (R : reachable mix_g) by (exists 7%N, 1, 2, [], ([OpPush 0 1 [] false; OpPush 0 1 [] false; OpPush 0 1 [] false; OpPush 1 1 [] false] ++ mix_ops); vm_compute; reflexivity).
  split; [exact R |]. split; [split; [intros k c e H; apply (mix_edges k c e H) | intros c e H; apply (mix_outs c e H)] |]. split; [vm_compute; reflexivity |].
  split; [intros k c e H; apply (mix_edges k c e H) |]. split.
  - assert (A : forall x y, upstream mix_g x y -> clos_trans key (feeds mix_g) x y).
    { intros x y. induction 1 as [x y [(c & e & H1 & H2 & _) | H] | x y z _ IH1 _ IH2]; [apply t_step; exists c, e; auto | destruct (mix_no_par _ _ H) | eapply t_trans; eauto]. }
    intros k Hk. apply A in Hk. apply (GraphProps.C08_never_cyclic mix_g R). exists k. exact Hk.
  - intros s k (c & e & He & Es) [(d & e' & He' & Es') | H]; [| exact (mix_no_par _ _ H)].
    destruct (mix_outs c e He) as [_ E6]. destruct (mix_edges k d e' He') as (_ & _ & N6). congruence.
Qed.
Ltac mix_here := eapply mixes_here; [vm_compute; reflexivity |].
Ltac mix_else o := eapply (mixes_else _ _ _ o); [cbn [elsewhere]; split; [vm_compute; first [reflexivity | exact I] | cbn; intros [A B]; first [discriminate A | discriminate B | destruct A]] | vm_compute; reflexivity |].
Definition mix_in (_ : nat) : list Z := [1; 2]%Z.
(** The hypotheses hold; node 3 hears 2 (2*10 + 20) + 1 = 81 in frame 0, and output 0 has 2 (2*810 + 30) + 1 = 3301 *)
Example C88_case : reachable mix_g0 /\ lookup mix_g0 3 <> None /\ summing mix_g0 3 = false /\ in_edge mix_g0 3 0 = None /\ out_edge mix_g0 0 = None /\
  mixes (GraphProps.nd 3) 0 mix_g0 [(GraphProps.nd 0, 0); (GraphProps.nd 1, 0); (NGraph, 0)] mix_g /\
  mixes NGraph 0 mix_g0 [(GraphProps.nd 3, 0); (GraphProps.nd 2, 0); (NGraph, 0)] mix_g /\
  refs_ok mix_g /\ (N.of_nat (links mix_g) < usize_max)%N /\ (forall k c e, in_edge mix_g k c = Some e -> e_fb e = false) /\
  sums_add Z 0%Z mix_add unit mix_proc 2 mix_g /\ heard mix_g 3 /\ (exists V, forall k, heard mix_g k -> solves Z 0%Z unit mix_proc 2 mix_g mix_in (fun _ => tt) V k) /\
  exists a1 td, plan mix_g 2 (alloc_new 16) (fun _ => false) = Some (a1, td) /\ sound_plan mix_g 2 td /\
    snd (render Z 0%Z unit mix_proc 2 td mix_in (fun _ => 0%Z, fun _ => tt)) = [[3301; 3584]; [0; 0]]%Z.
Proof.
  pose proof mix_plain as (R & Hr & L & Nf & _).
  split; [exists 7%N, 1, 2, [], [OpPush 0 1 [] false; OpPush 0 1 [] false; OpPush 0 1 [] false; OpPush 1 1 [] false]; vm_compute; reflexivity |].
  split; [vm_compute; discriminate |]. split; [vm_compute; reflexivity |]. split; [vm_compute; reflexivity |]. split; [vm_compute; reflexivity |].
  split.
  { mix_here. mix_else (OpConnect (GraphProps.nd 3) 0 0 NGraph true false). mix_here. mix_else (OpConnect (GraphProps.nd 2) 0 0 NGraph true false).
    mix_else (OpConnect NGraph 0 0 NGraph true false). mix_here. vm_compute. constructor. }
  split.
  { mix_else (OpConnect (GraphProps.nd 0) 0 0 (GraphProps.nd 3) true false). mix_here. mix_else (OpConnect (GraphProps.nd 1) 0 0 (GraphProps.nd 3) true false).
    mix_here. mix_here. mix_else (OpConnect NGraph 0 0 (GraphProps.nd 3) true false). vm_compute. constructor. }
  split; [exact Hr |]. split; [exact L |]. split; [exact Nf |].
  split; [intros k s x y pars f Hs _ _ _; unfold mix_proc; cbn [snd]; rewrite Hs; reflexivity |].
  split. { exists 6. split; [exists 0; eexists; split; vm_compute; reflexivity |]. apply rt_trans with (y := 5); apply rt_step; left; exists 0; eexists; repeat split; vm_compute; reflexivity. }
  destruct (plan mix_g 2 (alloc_new 16) (fun _ => false)) as [[a1 td] |] eqn:Ep; [| vm_compute in Ep; discriminate].
  split.
  { destruct (render Z 0%Z unit mix_proc 2 td mix_in (fun _ => 0%Z, fun _ => tt)) as [[m' s'] out] eqn:Er.
    exact (proj1 (C17_block_partial Z 0%Z unit mix_proc 2 mix_g (alloc_new 16) (fun _ => false) a1 td mix_plain ltac:(lia) Ep mix_in (fun _ => 0%Z) (fun _ => tt) m' s' out (fun _ _ => eq_refl) Er)). }
  exists a1, td. split; [reflexivity |]. split; [exact (C17_plain_graphs_sound 2 mix_g (alloc_new 16) (fun _ => false) a1 td mix_plain ltac:(lia) Ep) |].
  vm_compute in Ep. injection Ep as <- <-. vm_compute. reflexivity.
Qed.

(** ** false without a sound plan *)
(** Nodes 0 -> 1 -> 2 -> 3, node 3 to output 0; to output 1 node 0 and nothing else, which puts out ones: output 1 has threes. *)
Definition reuse_g0 : graph := match run (graph_new 7 0 2 [0; 1; 2; 3]) [OpPush 0 1 [] false; OpPush 1 1 [] false; OpPush 1 1 [] false; OpPush 1 1 [] false] with Some g => g | None => mix_g0 end.
Theorem C88_reuse_refuted : exists a1 td, reachable reuse_g0 /\ out_edge reuse_g0 1 = None /\ mixes NGraph 1 reuse_g0 [(GraphProps.nd 0, 0)] chain_g /\
  sums_add nat 0 Nat.add unit const_proc 2 chain_g /\ plan chain_g 2 (alloc_new 8) (fun _ => false) = Some (a1, td) /\
  (forall V, (forall k, heard chain_g k -> solves nat 0 unit const_proc 2 chain_g no_in (fun _ => tt) V k) -> in_order nat 0 Nat.add (map (sample nat 0 no_in V 0) [(GraphProps.nd 0, 0)]) = 1) /\
  nth_error (nth 1 (snd (render nat 0 unit const_proc 2 td no_in (fun _ => 0, fun _ => tt))) []) 0 = Some 3.
Proof.
  destruct (plan chain_g 2 (alloc_new 8) (fun _ => false)) as [[a1 td] |] eqn:Ep; [| vm_compute in Ep; discriminate]. exists a1, td.
  split; [exists 7%N, 0, 2, [0; 1; 2; 3], [OpPush 0 1 [] false; OpPush 1 1 [] false; OpPush 1 1 [] false; OpPush 1 1 [] false]; vm_compute; reflexivity |].
  split; [vm_compute; reflexivity |].
  split.
  { mix_else (OpConnect (GraphProps.nd 0) 0 0 (GraphProps.nd 1) true false). mix_else (OpConnect (GraphProps.nd 1) 0 0 (GraphProps.nd 2) true false).
    mix_else (OpConnect (GraphProps.nd 2) 0 0 (GraphProps.nd 3) true false). mix_else (OpConnect (GraphProps.nd 3) 0 0 NGraph true false).
    mix_here. vm_compute. constructor. }
  split. { intros k s x y pars f Hs. do 4 (destruct k as [| k]; [vm_compute in Hs; discriminate Hs |]). vm_compute in Hs. discriminate Hs. }
  split; [reflexivity |]. split.
  - intros V HV.
    assert (H0 : heard chain_g 0) by (exists 0; split; [exists 1; eexists; split; vm_compute; reflexivity | apply rt_refl]).
    apply HV in H0. destruct H0 as (n0 & r0 & L0 & (es0 & ps0 & _ & _ & ->) & S0). vm_compute in L0. injection L0 as <-. cbn [n_outputs const_proc snd] in S0.
    unfold sample. cbn. rewrite S0 by lia. reflexivity.
  - vm_compute in Ep. injection Ep as <- <-. vm_compute. reflexivity.
Qed.
Print Assumptions C88_reuse_refuted.
