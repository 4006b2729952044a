(** Proofs: arithmetic on handles, heard *)
From Verif Require Import Base GraphModel GraphSpec GraphBase GraphPath GraphInv GraphShape GraphSums GraphStep OrderSpec AllocModel RenderModel RenderSpec SoundSpec SoundProofs
  HandleModel HandleSpec HandleProofs HandleWire HandleFeedback OutModel FormulaSpec.
Local Open Scope nat_scope.
Local Notation length := List.length.
Local Notation heard := OrderSpec.heard.

Section Kinds.
Variable F : Type.
(** ** the recorded nodes stay what they are *)
Lemma kinds_same (g g' : graph) l : same g g' -> kinds_ok F (mk_state g l) -> kinds_ok F (mk_state g' l).
Proof.
  intros S K k kd Hin Hk. destruct (K k kd Hin Hk) as (n & Hn & Ho & Hi). cbn [s_g] in *. destruct (sa_node _ _ S k n Hn) as (n' & Hn' & I & O & _).
  exists n'. split; [exact Hn' |]. split; [congruence |]. intros o Eo. rewrite I. apply (Hi o Eo).
Qed.
Lemma same_refl g : same g g.
Proof. constructor; try reflexivity. intros k n H. exists n. auto. Qed.
Lemma connect2_same g s so si id a g' r : wf g -> connect2 g s so si (NNode id) a false = Some (g', r) -> same g g'.
Proof.
  intros W H. destruct r as [| e]; [| apply connect2_err in H; subst; apply same_refl].
  destruct (step_connect_node g s id so si a g' W H) as (C & Hlt & _). apply (connect_to_node_old _ _ _ _ _ _ _ (proj1 W)) in C; [exact (proj1 C) |]. intros b Hb. apply (Hlt b Hb).
Qed.
Lemma push_same g i o d r : base_inv g -> same g (fst (push_node g i o d r)).
Proof.
  intros B. constructor; [unfold push_node; destruct (g_slots g); reflexivity | unfold push_node; destruct (g_slots g); reflexivity |].
  intros k n H. rewrite push_lookup by exact B. destruct (Nat.eqb_spec (g_next g) k) as [<- |]; [rewrite (lookup_fresh g B) in H by lia; discriminate | exists n; auto].
Qed.
Lemma kinds_push (st : state F) i o d r kd : base_inv (s_g st) -> kinds_ok F st -> o = 1 -> (forall m, kd = KMath m -> i = 2) ->
  kinds_ok F (mk_state (fst (push_node (s_g st) i o d r)) ((snd (push_node (s_g st) i o d r), kd) :: s_kinds st)).
Proof.
  intros B K -> Hi k kd' [E | Hin] Hne.
  - injection E as <- <-. cbn [s_g]. rewrite push_key, push_lookup, Nat.eqb_refl by exact B. eexists. split; [reflexivity |]. split; [reflexivity |]. cbn [n_inputs]. exact Hi.
  - destruct st as [g l]. exact (kinds_same g _ l (push_same g i 1 d r B) K k kd' Hin Hne).
Qed.
Lemma kinds_math_node (st : state F) o a b st' c : wf (s_g st) -> kinds_ok F st -> math_node F st o a b = Some (st', c) -> wf (s_g st') /\ kinds_ok F st'.
Proof.
  intros W K H. unfold math_node in H. set (p := push_node (s_g st) 2 1 [] None) in *.
  assert (W1 : wf (fst p)) by (apply (step_wf (s_g st) (OpPush 2 1 [] false) (fst p) Ok W); reflexivity).
  pose proof (kinds_push st 2 1 [] None (KMath o) (proj1 (proj1 W)) K eq_refl (fun _ _ => eq_refl)) as K1. fold p in K1.
  destruct (connect2 (fst p) _ _ 0 _ true false) as [[g1 r1] |] eqn:E1; cbn [bind fst snd] in H; [| discriminate].
  destruct (connect2 g1 _ _ 1 _ true false) as [[g2 r2] |] eqn:E2; cbn [bind fst snd] in H; [| discriminate]. injection H as <- <-. cbn [s_g].
  pose proof (connect2_wf _ _ _ _ _ _ _ _ W1 E1) as W2. split; [exact (connect2_wf _ _ _ _ _ _ _ _ W2 E2) |].
  eapply kinds_same; [eapply connect2_same; [exact W2 | exact E2] |]. eapply kinds_same; [eapply connect2_same; [exact W1 | exact E1] |]. exact K1.
Qed.
Lemma kinds_math_loop o : forall l (st : state F) st' cs, wf (s_g st) -> kinds_ok F st -> math_loop F st o l = Some (st', cs) -> wf (s_g st') /\ kinds_ok F st'.
Proof.
  induction l as [| [a b] l IH]; intros st st' cs W K H; cbn [math_loop] in H; [injection H as <- <-; auto |].
  destruct (math_node F st o a b) as [[st1 c] |] eqn:E1; cbn [bind fst snd] in H; [| discriminate].
  destruct (math_loop F st1 o l) as [[st2 cs2] |] eqn:E2; cbn [bind fst snd] in H; [| discriminate]. injection H as <- <-.
  destruct (kinds_math_node st o a b st1 c W K E1) as [W1 K1]. exact (IH st1 st2 cs2 W1 K1 E2).
Qed.
Lemma kinds_build : forall e (st : state F) st' h, wf (s_g st) -> kinds_ok F st -> build F st e = Some (st', h) -> wf (s_g st') /\ kinds_ok F st'.
Proof.
  assert (C : forall (st : state F) o a c st' h, wf (s_g st) -> kinds_ok F st -> math_const F st o a c = Some (st', h) -> wf (s_g st') /\ kinds_ok F st').
  { intros st o a c st' h W K H. unfold math_const in H. set (p := push_node (s_g st) 0 1 ["value"%string] None) in *.
    destruct (math_loop F _ o _) as [[st1 cs] |] eqn:E; cbn [bind fst snd] in H; [| discriminate].
    destruct (cb _ cs) as [hs |]; cbn [bind] in H; [| discriminate]. injection H as <- _. eapply kinds_math_loop; [| | exact E].
    - apply (step_wf (s_g st) (OpPush 0 1 ["value"%string] false) (fst p) Ok W). reflexivity.
    - apply (kinds_push st 0 1 ["value"%string] None (KConst c) (proj1 (proj1 W)) K eq_refl). discriminate. }
  induction e as [h0 | o a IHa b IHb | o a IHa c | o c a IHa]; intros st st' h W K H; cbn [build] in H.
  - injection H as <- <-. auto.
  - destruct (build F st a) as [[st1 h1] |] eqn:E1; cbn [bind fst snd] in H; [| discriminate]. destruct (IHa st st1 h1 W K E1) as [W1 K1].
    destruct (build F st1 b) as [[st2 h2] |] eqn:E2; cbn [bind fst snd] in H; [| discriminate]. destruct (IHb st1 st2 h2 W1 K1 E2) as [W2 K2].
    unfold math_bin in H. destruct (negb _); [discriminate |]. destruct (math_loop F st2 o _) as [[st3 cs] |] eqn:E; cbn [bind fst snd] in H; [| discriminate].
    destruct (cb _ cs) as [hs |]; cbn [bind] in H; [| discriminate]. injection H as <- _. eapply kinds_math_loop; [exact W2 | exact K2 | exact E].
  - destruct (build F st a) as [[st1 h1] |] eqn:E1; cbn [bind fst snd] in H; [| discriminate]. destruct (IHa st st1 h1 W K E1) as [W1 K1]. exact (C st1 o h1 c st' h W1 K1 H).
  - destruct (build F st a) as [[st1 h1] |] eqn:E1; cbn [bind fst snd] in H; [| discriminate]. destruct (IHa st st1 h1 W K E1) as [W1 K1]. exact (C st1 o h1 c st' h W1 K1 H).
Qed.
End Kinds.

Section Values.
Variable F : Type.
Variable zero : F.
Variable den : mop -> F -> F -> F.

(** ** every connection has a value *)
Lemma arrives_total env (st : state F) o : well_founded (feeds (s_g st)) -> exists v, arrives F zero den env st o v.
Proof.
  intros W. assert (K : forall k, forall e, e_src e = Some k -> exists v, arrives F zero den env st (Some e) v).
  { intros k. induction k as [k IH] using (well_founded_ind W). intros e He.
    destruct (kind_of F st k) as [| c | m] eqn:Ek.
    - eexists. apply ar_other with (k := k); assumption.
    - eexists. apply ar_const with (k := k); eassumption.
    - assert (A : forall c, exists v, arrives F zero den env st (in_edge (s_g st) k c) v).
      { intros c. destruct (in_edge (s_g st) k c) as [e' |] eqn:Ei; [| eexists; constructor].
        destruct (e_src e') as [s |] eqn:Es; [| eexists; apply ar_input; exact Es]. apply (IH s); [exists c, e'; auto | exact Es]. }
      destruct (A 0) as [x Hx]. destruct (A 1) as [y Hy]. eexists. apply ar_math with (k := k); eassumption. }
  destruct o as [e |]; [| eexists; constructor]. destruct (e_src e) as [k |] eqn:Es; [apply (K k e Es) | eexists; apply ar_input; exact Es].
Qed.
Lemma means_total env (st : state F) : well_founded (feeds (s_g st)) -> forall e n, operands_ok F (s_g st) e -> channels F e = Some n ->
  exists vs, means F zero den env st e vs /\ length vs = n.
Proof.
  intros W. induction e as [h | o a IHa b IHb | o a IHa c | o c a IHa]; intros n Ho Hn; cbn [operands_ok channels means] in *.
  - injection Hn as <-. induction (h_out h) as [| x l IH]; [exists []; split; [constructor | reflexivity] |].
    destruct IH as (vs & A & L); [intros c Hc; apply Ho; right; exact Hc |]. destruct (arrives_total env st (as_edge x) W) as [v Hv].
    exists (v :: vs). split; [constructor; [split; [apply Ho; left; reflexivity | exact Hv] | exact A] | cbn [length]; congruence].
  - destruct (channels F a) as [na |] eqn:Ea; cbn [bind] in Hn; [| discriminate]. destruct (channels F b) as [nb |] eqn:Eb; cbn [bind] in Hn; [| discriminate].
    destruct (Nat.eqb_spec na nb) as [<- |]; [| discriminate]. injection Hn as <-. destruct Ho as [Ha Hb].
    destruct (IHa na Ha eq_refl) as (xs & Mx & Lx). destruct (IHb na Hb eq_refl) as (ys & My & Ly).
    eexists. split; [exists xs, ys; split; [exact Mx |]; split; [exact My |]; split; [congruence | reflexivity] |].
    rewrite map_length, combine_length, Lx, Ly. apply Nat.min_id.
  - destruct (IHa n Ho Hn) as (xs & Mx & Lx). eexists. split; [exists xs; split; [exact Mx | reflexivity] | rewrite map_length; exact Lx].
  - destruct (IHa n Ho Hn) as (xs & Mx & Lx). eexists. split; [exists xs; split; [exact Mx | reflexivity] | rewrite map_length; exact Lx].
Qed.

Lemma arrives_nodes env (g g' : graph) l o v : g_nodes g' = g_nodes g -> arrives F zero den env (mk_state g l) o v -> arrives F zero den env (mk_state g' l) o v.
Proof.
  intros E. assert (L : forall k, lookup g' k = lookup g k) by (intros k; unfold lookup; rewrite E; reflexivity).
  assert (K : forall k, kind_of F (mk_state g' l) k = kind_of F (mk_state g l) k) by (intros k; unfold kind_of, summing; cbn [s_g s_kinds]; rewrite L; reflexivity).
  assert (I : forall k c, in_edge g' k c = in_edge g k c) by (intros k c; unfold in_edge, edges_of; rewrite L; reflexivity).
  induction 1 as [| e He | e k He Hk | e k c He Hk | e k m x y He Hk _ IHx _ IHy].
  - constructor.
  - apply ar_input. exact He.
  - apply ar_other; [exact He | rewrite K; exact Hk].
  - apply ar_const with (k := k); [exact He | rewrite K; exact Hk].
  - apply ar_math with (k := k); [exact He | rewrite K; exact Hk | cbn [s_g] in *; rewrite I; exact IHx | cbn [s_g] in *; rewrite I; exact IHy].
Qed.

(** ** sending to outputs: old nodes stay as they are, sums are put in front of the outputs *)
Notation arr env g l := (arrives F zero den env (mk_state g l)).
Definition extends (g g' : graph) (l : list (key * kind F)) : Prop :=
  grows (mk_state g l) (mk_state (set_outs g' (g_outs g)) l).
Lemma extends_arrives env g g' l o v : base_inv g -> extends g g' l -> older g o -> arr env g l o v -> arr env g' l o v.
Proof.
  intros B X Ho H. apply (arrives_nodes env (set_outs g' (g_outs g))); [reflexivity |]. exact (arrives_grows zero den env (mk_state g l) (mk_state (set_outs g' (g_outs g)) l) o v B X H Ho).
Qed.
Lemma extends_trans g1 g2 g3 l : extends g1 g2 l -> extends g2 g3 l -> extends g1 g3 l.
Proof.
  intros [A1 A2 _ A4 A5 A6] [B1 B2 _ B4 B5 B6]. cbn [s_g s_kinds set_outs g_id g_inputs g_next] in *. constructor; cbn [s_g s_kinds set_outs g_id g_inputs g_next]; try congruence; try reflexivity; [lia |].
  intros k Hk. change (lookup (set_outs g3 (g_outs g1)) k) with (lookup (set_outs g3 (g_outs g2)) k). rewrite B5 by lia. apply (A5 k Hk).
Qed.
Lemma extends_kinds g g' l : base_inv g -> extends g g' l -> kinds_ok F (mk_state g l) -> kinds_ok F (mk_state g' l).
Proof.
  intros B X K k kd Hin Hk. destruct (K k kd Hin Hk) as (n & Hn & R). exists n. split; [| exact R]. cbn [s_g] in *.
  rewrite <- Hn. apply (gr_lookup _ _ X k). cbn [s_g]. apply (bi_lt _ B). eapply lookup_key. exact Hn.
Qed.
Lemma connect_out_mixed env g l s so si a g' v w : wf g -> connect2 g s so si NGraph a false = Some (g', Ok) ->
  arr env g l (Some (mk_edge (src_of s) so false)) v -> arr env g l (out_edge g si) w ->
  extends g g' l /\ (forall c, c <> si -> out_edge g' c = out_edge g c) /\ out_edge g' si <> None /\ arr env g' l (out_edge g' si) (mixed F den a (out_edge g si) v w).
Proof.
  intros W H Hv Hw. destruct (step_connect_output g s so si a false g' W H) as [C Hlt]. unfold connect_to_output in C. pose proof (proj1 (proj1 W)) as B.
  set (ne := Some (mk_edge (src_of s) so false)) in *.
  assert (On : older g ne) by (intros e k E Es; injection E as <-; apply Hlt; exact Es).
  assert (Oo : older g (out_edge g si)) by (intros e k E Es; eapply (bi_out _ B); eauto).
  assert (X : (o <- set_nth (g_outs (set_recalc g true)) si ne;; Some (set_outs (set_recalc g true) o)) = Some g' ->
    extends g g' l /\ (forall c, c <> si -> out_edge g' c = out_edge g c) /\ out_edge g' si = ne).
  { intros E. destruct (set_nth (g_outs (set_recalc g true)) si ne) as [o |] eqn:Es; cbn [bind] in E; [| discriminate]. injection E as <-.
    split; [constructor; cbn; auto |]. split; [intros c Hc; rewrite (out_edge_set _ _ _ _ c Es); apply Nat.eqb_neq in Hc; rewrite Hc; reflexivity | rewrite (out_edge_set _ _ _ _ si Es), Nat.eqb_refl; reflexivity]. }
  assert (Y : extends g g' l /\ (forall c, c <> si -> out_edge g' c = out_edge g c) /\ out_edge g' si = ne -> mixed F den a (out_edge g si) v w = v ->
    extends g g' l /\ (forall c, c <> si -> out_edge g' c = out_edge g c) /\ out_edge g' si <> None /\ arr env g' l (out_edge g' si) (mixed F den a (out_edge g si) v w)).
  { intros (X1 & X2 & X3) ->. split; [exact X1 |]. split; [exact X2 |]. rewrite X3. split; [discriminate | exact (extends_arrives env g g' l ne v B X1 On Hv)]. }
  destruct a; cbn [negb] in C; [| apply Y; [apply X; exact C | reflexivity]].
  destruct (nth_error (g_outs (set_recalc g true)) si) as [ex |] eqn:En; cbn [bind] in C; [| discriminate].
  assert (Eo : out_edge g si = ex) by (unfold out_edge; change (g_outs g) with (g_outs (set_recalc g true)); rewrite En; reflexivity).
  destruct ex as [ex |]; [| apply Y; [apply X; exact C | rewrite Eo; reflexivity]]. clear X Y.
  pose proof (new_additive_spec (set_recalc g true) (inv_recalc g true (proj1 W))) as N. destruct (new_additive_node (set_recalc g true)) as [g1 add] eqn:Ea. cbn [fst snd] in N.
  destruct N as (-> & _ & N2 & N3 & N4 & N5 & N6). change (g_next (set_recalc g true)) with (g_next g) in *.
  destruct (set_edge g1 (g_next g) 0 (Some ex)) as [g2 |] eqn:E2; cbn [bind] in C; [| discriminate].
  destruct (set_edge g2 (g_next g) 1 ne) as [g3 |] eqn:E3; cbn [bind] in C; [| discriminate].
  destruct (set_nth (g_outs g3) si _) as [o |] eqn:Es; cbn [bind] in C; [| discriminate]. injection C as <-.
  pose proof (set_edge_in_edge _ _ _ _ _ E2) as I2. pose proof (set_edge_in_edge _ _ _ _ _ E3) as I3.
  pose proof (set_edge_frame _ _ _ _ _ E2) as (_ & F2a & F2b & _ & F2c & F2d & _). pose proof (set_edge_frame _ _ _ _ _ E3) as (_ & F3a & F3b & _ & F3c & F3d & _).
  assert (Lk : forall k, k <> g_next g -> lookup g3 k = lookup g k).
  { intros k Hk. apply set_edge_some in E2 as (es & es' & _ & _ & ->). apply set_edge_some in E3 as (es2 & es2' & _ & _ & ->).
    assert (Q : (g_next g =? k) = false) by (apply Nat.eqb_neq; congruence). rewrite !lookup_update, Q, N6, Q. reflexivity. }
  assert (Sm : summing g3 (g_next g) = true).
  { rewrite (summing_set_edge _ _ _ _ _ _ E3), (summing_set_edge _ _ _ _ _ _ E2). unfold summing. rewrite N6, Nat.eqb_refl. reflexivity. }
  assert (Xt : extends g (set_outs g3 o) l).
  { assert (Z : g_id g1 = g_id g /\ g_inputs g1 = g_inputs g) by (unfold new_additive_node, push_node in Ea; destruct (g_slots (set_recalc g true)); injection Ea as <-; split; reflexivity).
    destruct Z as [Z1 Z2]. constructor; cbn [s_g s_kinds set_outs g_id g_inputs g_next g_outs]; try congruence; try reflexivity; [lia |]. intros k Hk. exact (Lk k ltac:(lia)). }
  assert (Out : forall c, out_edge (set_outs g3 o) c = if c =? si then Some (mk_edge (Some (g_next g)) 0 false) else out_edge g c).
  { intros c. rewrite (out_edge_set _ _ _ _ c Es). destruct (c =? si); [reflexivity |]. unfold out_edge. rewrite F3b, F2b, N3. reflexivity. }
  split; [exact Xt |]. split; [intros c Hc; rewrite Out; apply Nat.eqb_neq in Hc; rewrite Hc; reflexivity |]. rewrite Out, Nat.eqb_refl. split; [discriminate |].
  rewrite Eo in *. cbn [mixed]. apply ar_math with (k := g_next g); [reflexivity | unfold kind_of; cbn [s_g]; change (summing (set_outs g3 o) (g_next g)) with (summing g3 (g_next g)); rewrite Sm; reflexivity | |]; cbn [s_g].
  - change (in_edge (set_outs g3 o) (g_next g) 0) with (in_edge g3 (g_next g) 0). rewrite I3, I2, Nat.eqb_refl. cbn [andb Nat.eqb]. exact (extends_arrives env g _ l _ w B Xt Oo Hw).
  - change (in_edge (set_outs g3 o) (g_next g) 1) with (in_edge g3 (g_next g) 1). rewrite I3, Nat.eqb_refl. cbn [andb Nat.eqb]. exact (extends_arrives env g _ l _ v B Xt On Hv).
Qed.
Lemma extends_refl g l : extends g g l.
Proof. constructor; reflexivity. Qed.
Lemma extends_older g g' l o : extends g g' l -> older g o -> older g' o.
Proof. intros X H e s E Es. pose proof (gr_next _ _ X) as L. cbn in L. specialize (H e s E Es). lia. Qed.
Lemma wire_expect_mixed env a kl : forall l cs vs ws g g', wf g -> NoDup cs -> length cs = length l ->
  Forall2 (fun x v => older g (as_edge x) /\ arr env g kl (as_edge x) v) l vs -> Forall2 (fun c w => arr env g kl (out_edge g c) w) cs ws ->
  wire_expect a g (combine l (map (fun c => (NGraph, c)) cs)) = Some g' ->
  wf g' /\ extends g g' kl /\ (forall c, ~ In c cs -> out_edge g' c = out_edge g c) /\
  forall i c v w, nth_error cs i = Some c -> nth_error vs i = Some v -> nth_error ws i = Some w ->
    out_edge g' c <> None /\ arr env g' kl (out_edge g' c) (mixed F den a (out_edge g c) v w).
Proof.
  induction l as [| [s so] l IH]; intros [| c cs] vs ws g g' W Nd L Hv Hw H; try (cbn [length] in L; discriminate); cbn [map combine wire_expect] in H.
  - injection H as <-. split; [exact W |]. split; [apply extends_refl |]. split; [auto |]. intros [| i] c v w E; discriminate.
  - destruct (connect2 g s so c NGraph a false) as [[g1 r] |] eqn:E1; cbn [bind fst snd] in H; [| discriminate]. destruct r; [| discriminate].
    inversion Nd as [| ? ? Hc Nd']; subst. inversion Hv as [| ? v ? vs' [Ov Av] Hv']; subst. inversion Hw as [| ? w ? ws' Aw Hw']; subst.
    pose proof (proj1 (proj1 W)) as B. destruct (connect_out_mixed env g kl s so c a g1 v w W E1 Av Aw) as (X1 & O1 & N1 & A1).
    assert (W1 : wf g1) by (eapply connect2_wf; eauto).
    destruct (IH cs vs' ws' g1 g' W1 Nd') as (W2 & X2 & O2 & A2); [cbn [length] in L; lia | | | exact H |].
    { clear - Hv' X1 B. induction Hv' as [| x v l vs [Ho Ha] _ IH]; constructor; [split; [exact (extends_older _ _ _ _ X1 Ho) | exact (extends_arrives env g g1 kl _ v B X1 Ho Ha)] | exact IH]. }
    { clear - Hw' X1 B O1 Hc. induction Hw' as [| d w cs ws Ha _ IH]; constructor; [| apply IH; intros Hin; apply Hc; right; exact Hin].
      rewrite O1 by (intros ->; apply Hc; left; reflexivity). apply (extends_arrives env g g1 kl _ w B X1); [intros e s E Es; eapply (bi_out _ B); eauto | exact Ha]. }
    split; [exact W2 |]. split; [exact (extends_trans _ _ _ _ X1 X2) |]. split; [intros d Hd; cbn [In] in Hd; rewrite O2 by tauto; apply O1; intros ->; tauto |].
    pose proof (proj1 (proj1 W1)) as B1. intros [| i] d v' w' Ed Ev Ew; cbn [nth_error] in Ed, Ev, Ew.
    + injection Ed as <-. injection Ev as <-. injection Ew as <-. rewrite (O2 c Hc). split; [exact N1 |].
      apply (extends_arrives env g1 g' kl _ _ B1 X2); [intros e s' E Es; eapply (bi_out _ B1); eauto | exact A1].
    + assert (d <> c) by (intros ->; apply Hc; eapply nth_error_In; exact Ed). rewrite <- (O1 d) by assumption. exact (A2 i d v' w' Ed Ev Ew).
Qed.

(** ** the samples of a block *)
Variable St : Type.
Variable proc : key -> St -> list (list F) -> list (N * list F) -> St * (nat -> nat -> F).
Variable bs : nat.
Lemma chan_nth V k c f : f < bs -> nth f (RenderSpec.chan F bs V k c) zero = V k c f.
Proof. intros Hf. unfold RenderSpec.chan. rewrite (nth_indep _ zero (V k c 0)) by (rewrite map_length, seq_length; exact Hf). rewrite map_nth, seq_nth by exact Hf. reflexivity. Qed.
Lemma kind_shape (st : state F) k : wf (s_g st) -> kinds_ok F st -> kind_of F st k <> KOther -> forall n, lookup (s_g st) k = Some n ->
  n_outputs n = 1 /\ (forall o, kind_of F st k = KMath o -> n_inputs n = 2).
Proof.
  intros W K Hk n Hn. unfold kind_of in *. destruct (summing (s_g st) k) eqn:Es.
  - unfold summing in Es. rewrite Hn in Es. destruct (sh_node _ (proj2 W) k n Hn) as (_ & A & _). destruct (A Es) as (I & O & _). auto.
  - destruct (find (fun e => fst e =? k) (s_kinds st)) as [[k' kd] |] eqn:Ef; [| congruence]. apply find_some in Ef as [Hin Ek]. apply Nat.eqb_eq in Ek. cbn [fst snd] in *. subst k'.
    destruct (K k kd Hin Hk) as (n' & Hn' & O & I). rewrite Hn in Hn'. injection Hn' as <-. auto.
Qed.
Lemma signal_value (st : state F) gin st0 V f : forward_graph (s_g st) -> kinds_ok F st -> behaves F zero den St proc bs st ->
  (forall c, c < g_inputs (s_g st) -> length (gin c) = bs) -> f < bs ->
  (forall k, heard (s_g st) k -> solves F zero St proc bs (s_g st) gin st0 V k) ->
  forall o v, arrives F zero den (at_frame F zero gin V f) st o v ->
  (forall e, o = Some e -> edge_ok (s_g st) e) -> (forall e s, o = Some e -> e_src e = Some s -> heard (s_g st) s) ->
  nth f (signal F zero bs gin V o) zero = v.
Proof.
  intros [W R _ Nf] K [Bc Bm] Hg Hf HV.
  assert (Len : forall o, (forall e, o = Some e -> edge_ok (s_g st) e) -> length (signal F zero bs gin V o) = bs).
  { intros [e |] Hk; cbn [signal]; [| apply repeat_length]. specialize (Hk e eq_refl). unfold edge_ok in Hk. destruct (e_src e) as [s |]; [| apply Hg; exact Hk].
    unfold RenderSpec.chan. rewrite map_length. apply seq_length. }
  induction 1 as [| e He | e k He Hk | e k c He Hk | e k m x y He Hk Hx IHx Hy IHy]; intros Hok Hh; cbn [signal].
  - apply nth_repeat.
  - rewrite He. reflexivity.
  - rewrite He. apply chan_nth. exact Hf.
  - rewrite He, chan_nth by exact Hf. destruct (HV k (Hh e k eq_refl He)) as (n & r & Hn & (es & ps & _ & _ & ->) & Hs).
    specialize (Hok e eq_refl). unfold edge_ok in Hok. rewrite He in Hok. destruct Hok as (n' & Hn' & _ & Hc). rewrite Hn in Hn'. injection Hn' as <-.
    destruct (kind_shape st k W K ltac:(congruence) n Hn) as [O _]. rewrite Hs by assumption. assert (e_chan e = 0) as -> by lia. apply Bc; assumption.
  - rewrite He, chan_nth by exact Hf. assert (Hhk : heard (s_g st) k) by (apply (Hh e k eq_refl He)). destruct (HV k Hhk) as (n & r & Hn & (es & ps & Hes & _ & ->) & Hs).
    specialize (Hok e eq_refl). unfold edge_ok in Hok. rewrite He in Hok. destruct Hok as (n' & Hn' & _ & Hc). rewrite Hn in Hn'. injection Hn' as <-.
    destruct (kind_shape st k W K ltac:(congruence) n Hn) as [O I]. rewrite Hs by assumption. assert (e_chan e = 0) as -> by lia.
    assert (Le : length es = 2).
    { rewrite <- (I m Hk). unfold edges_of in Hes. rewrite Hn in Hes. cbn [bind] in Hes. apply (sh_node _ (proj2 W) k n Hn). exact Hes. }
    destruct es as [| e0 [| e1 [|]]]; try discriminate. cbn [map].
    assert (I0 : in_edge (s_g st) k 0 = e0) by (unfold in_edge; rewrite Hes; reflexivity). assert (I1 : in_edge (s_g st) k 1 = e1) by (unfold in_edge; rewrite Hes; reflexivity).
    rewrite I0 in IHx. rewrite I1 in IHy.
    assert (Ok : forall c e', in_edge (s_g st) k c = Some e' -> edge_ok (s_g st) e') by (intros c e' E'; exact (proj1 R k c e' E')).
    assert (Hd : forall c e' s, in_edge (s_g st) k c = Some e' -> e_src e' = Some s -> heard (s_g st) s).
    { intros c e' s E' Es. destruct Hhk as (q & Hq & Hrt). exists q. split; [exact Hq |]. eapply rt_trans; [apply rt_step | exact Hrt]. left. exists c, e'. split; [exact E' |]. split; [exact Es | exact (Nf k c e' E')]. }
    assert (O0 : forall e', e0 = Some e' -> edge_ok (s_g st) e') by (intros e' ->; exact (Ok 0 e' I0)).
    assert (O1 : forall e', e1 = Some e' -> edge_ok (s_g st) e') by (intros e' ->; exact (Ok 1 e' I1)).
    rewrite (Bm k m _ _ _ _ f Hk (Len e0 O0) (Len e1 O1) Hf).
    rewrite (IHx O0) by (intros e' s E'; apply (Hd 0); congruence). rewrite (IHy O1) by (intros e' s E'; apply (Hd 1); congruence). reflexivity.
Qed.

Lemma signal_length (g : graph) gin V o : (forall c, c < g_inputs g -> length (gin c) = bs) -> (forall e, o = Some e -> edge_ok g e) -> length (signal F zero bs gin V o) = bs.
Proof.
  intros Hg Hk. destruct o as [e |]; cbn [signal]; [| apply repeat_length]. specialize (Hk e eq_refl). unfold edge_ok in Hk. destruct (e_src e); [| apply Hg; exact Hk].
  unfold RenderSpec.chan. rewrite map_length. apply seq_length.
Qed.
(** ** expression, outputs and samples together *)
Lemma outs_total env (st : state F) : well_founded (feeds (s_g st)) -> forall cs, exists ws, Forall2 (fun c w => arrives F zero den env st (out_edge (s_g st) c) w) cs ws.
Proof.
  intros W. induction cs as [| c cs [ws IH]]; [exists []; constructor |]. destruct (arrives_total env st (out_edge (s_g st) c) W) as [w Hw]. exists (w :: ws). constructor; assumption.
Qed.
Lemma formula_block (st : state F) e st' h additive cs g gin s V : wf (s_g st) -> kinds_ok F st -> left_commutes F den e -> operands_ok F (s_g st) e ->
  channels F e = Some (length cs) -> build F st e = Some (st', h) -> NoDup cs -> send_static additive (s_g st') h cs = Some g ->
  forward_graph g -> behaves F zero den St proc bs (mk_state g (s_kinds st')) -> (forall c, c < g_inputs g -> length (gin c) = bs) ->
  (forall k, heard g k -> solves F zero St proc bs g gin s V k) -> forall f, f < bs ->
  exists vs ws, means F zero den (at_frame F zero gin V f) st e vs /\ length vs = length cs /\
    Forall2 (fun c w => arrives F zero den (at_frame F zero gin V f) st (out_edge (s_g st) c) w) cs ws /\
    forall i c v w, nth_error cs i = Some c -> nth_error vs i = Some v -> nth_error ws i = Some w ->
      nth_error (nth c (map (signal F zero bs gin V) (g_outs g)) []) f = Some (mixed F den additive (out_edge (s_g st) c) v w).
Proof.
  intros W K Lc Ho Hc Hb Nd Hs Hg Hbe Hgin HV f Hf. set (env := at_frame F zero gin V f). pose proof (proj1 (proj1 W)) as B.
  destruct (means_total env st (proj2 (proj1 W)) e _ Ho Hc) as (vs & M & Lv). destruct (outs_total env st (proj2 (proj1 W)) cs) as (ws & Hws).
  exists vs, ws. split; [exact M |]. split; [exact Lv |]. split; [exact Hws |].
  destruct (build_ok F zero den env e st vs W Lc M) as (st1 & h1 & E1 & G & W1 & C). rewrite Hb in E1. injection E1 as <- <-.
  destruct (kinds_build F e st st' h W K Hb) as [_ K1]. pose proof (F2_len _ _ _ C) as L. pose proof (proj1 (proj1 W1)) as B1.
  assert (Oe : forall c, out_edge (s_g st') c = out_edge (s_g st) c) by (intros c; unfold out_edge; rewrite (gr_outs _ _ G); reflexivity).
  destruct (wire_expect_mixed env additive (s_kinds st') (h_out h) cs vs ws (s_g st') g W1 Nd ltac:(congruence)) as (_ & X & _ & A); [| | exact Hs |].
  { clear - C B1. destruct st' as [g1 l1]. induction C as [| x v l vs [Hx Hv] _ IH]; constructor; [split; [apply source_older; assumption | exact Hv] | exact IH]. }
  { clear - Hws Oe B G. induction Hws as [| c w cs ws Ha _ IH]; constructor; [| exact IH]. rewrite Oe.
    pose proof (arrives_grows zero den env st st' _ w B G Ha ltac:(intros e s E Es; eapply (bi_out _ B); eauto)) as R. destruct st'. exact R. }
  assert (Kg : kinds_ok F (mk_state g (s_kinds st'))) by (apply (extends_kinds (s_g st') g _ B1 X); destruct st'; exact K1).
  intros i c v w Ei Ev Ew. destruct (A i c v w Ei Ev Ew) as [Nn Ha]. rewrite Oe in Ha.
  assert (Hok : forall e', out_edge g c = Some e' -> edge_ok g e') by (intros e' E'; apply (proj2 (fg_refs _ Hg) c); exact E').
  assert (En : nth c (map (signal F zero bs gin V) (g_outs g)) [] = signal F zero bs gin V (out_edge g c)).
  { unfold out_edge in *. destruct (nth_error (g_outs g) c) as [o |] eqn:Ec; [| congruence]. apply nth_error_nth. rewrite nth_error_map, Ec. reflexivity. }
  rewrite En. rewrite (nth_error_nth' _ zero) by (rewrite (signal_length g) by assumption; exact Hf). f_equal.
  apply (signal_value (mk_state g (s_kinds st')) gin s V f Hg Kg Hbe Hgin Hf HV (out_edge g c) _ Ha Hok).
  intros e' k E' Es. exists k. split; [exists c, e'; split; [exact E' | exact Es] | apply rt_refl].
Qed.
End Values.
