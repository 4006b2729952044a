(** Proofs: several signals connected to the same place *)
From Verif Require Import Base GraphModel GraphSpec GraphBase GraphPath GraphInv GraphShape GraphSums GraphStep OrderSpec AllocModel RenderModel RenderSpec SoundSpec SoundProofs MixSpec.
Local Open Scope nat_scope.
Local Notation length := List.length.

(** ** combs of sums *)
Inductive comb (g : graph) : option edge -> list edge -> Prop :=
| comb_one e : comb g (Some e) [e]
| comb_add a l e : a < g_next g -> summing g a = true -> in_edge g a 1 = Some e -> comb g (in_edge g a 0) l -> comb g (Some (mk_edge (Some a) 0 false)) (l ++ [e]).
Definition combs (g : graph) (o : option edge) (l : list edge) : Prop := match o with None => l = [] | Some _ => comb g o l end.
(** The inserted sums stay as they are *)
Definition stays (g g' : graph) : Prop := g_next g <= g_next g' /\
  forall a, a < g_next g -> summing g a = true -> summing g' a = true /\ forall c, in_edge g' a c = in_edge g a c.
Lemma stays_refl g : stays g g.
Proof. split; [lia | auto]. Qed.
Lemma comb_stays g g' o l : stays g g' -> comb g o l -> comb g' o l.
Proof.
  intros [Sn S] H. induction H as [e | a l e Ha Hs H1 _ IH]; [constructor |]. destruct (S a Ha Hs) as [Hs' Hi].
  constructor; [lia | exact Hs' | rewrite Hi; exact H1 | rewrite Hi; exact IH].
Qed.
Lemma combs_stays g g' o l : stays g g' -> combs g o l -> combs g' o l.
Proof. intros S. destruct o as [e |]; cbn [combs]; [apply comb_stays; exact S | auto]. Qed.
Lemma comb_ne g o l : comb g o l -> l <> [].
Proof. intros H. destruct H; [discriminate | destruct l; discriminate]. Qed.

(** ** a sum in front of a place *)
Lemma add_comb g e ne g1 g2 g3 add l : inv g -> new_additive_node g = (g1, add) -> set_edge g1 add 0 (Some e) = Some g2 -> set_edge g2 add 1 (Some ne) = Some g3 ->
  comb g (Some e) l ->
  add = g_next g /\ g_next g3 = S (g_next g) /\ g_outs g3 = g_outs g /\ summing g3 add = true /\ in_edge g3 add 0 = Some e /\ in_edge g3 add 1 = Some ne /\
  (forall k, k <> add -> lookup g3 k = lookup g k) /\ stays g g3.
Proof.
  intros Hi Ea E2 E3 _. pose proof (new_additive_spec g Hi) as N. rewrite Ea in N. cbn [fst snd] in N. destruct N as (-> & _ & N2 & N3 & N4 & _ & N6).
  pose proof (set_edge_in_edge _ _ _ _ _ E2) as I2. pose proof (set_edge_in_edge _ _ _ _ _ E3) as I3.
  pose proof (set_edge_frame _ _ _ _ _ E2) as (_ & F2a & F2b & _). pose proof (set_edge_frame _ _ _ _ _ E3) as (_ & F3a & F3b & _).
  assert (Lk : forall k, k <> g_next g -> lookup g3 k = lookup g k).
  { intros k Hk. pose proof E2 as E2'. pose proof E3 as E3'. apply set_edge_some in E2' as (es & es' & _ & _ & ->). apply set_edge_some in E3' as (es2 & es2' & _ & _ & ->).
    assert (Q : (g_next g =? k) = false) by (apply Nat.eqb_neq; congruence). rewrite !lookup_update, Q, N6, Q. reflexivity. }
  split; [reflexivity |]. split; [congruence |]. split; [congruence |]. split; [| split; [| split; [| split; [exact Lk |]]]].
  - rewrite (summing_set_edge _ _ _ _ _ _ E3), (summing_set_edge _ _ _ _ _ _ E2). unfold summing. rewrite N6, Nat.eqb_refl. reflexivity.
  - rewrite I3, I2, Nat.eqb_refl. reflexivity.
  - rewrite I3, Nat.eqb_refl. reflexivity.
  - split; [lia |]. intros a Ha Hs. assert (La : lookup g3 a = lookup g a) by (apply Lk; lia). split; [unfold summing in *; rewrite La; exact Hs |].
    intros c. unfold in_edge, edges_of. rewrite La. reflexivity.
Qed.
Lemma set_edge_stays g k ch e g' : summing g k = false -> set_edge g k ch e = Some g' -> stays g g'.
Proof.
  intros Hk H. split; [rewrite (set_edge_next _ _ _ _ _ H); lia |]. intros a _ Hs. split; [rewrite (summing_set_edge _ _ _ _ _ _ H); exact Hs |].
  intros c. rewrite (set_edge_in_edge _ _ _ _ _ H). destruct (Nat.eqb_spec a k) as [-> |]; [congruence | reflexivity].
Qed.
Lemma stays_trans g1 g2 g3 : stays g1 g2 -> stays g2 g3 -> stays g1 g3.
Proof.
  intros [A1 A2] [B1 B2]. split; [lia |]. intros a Ha Hs. destruct (A2 a Ha Hs) as [Hs2 Hi2]. destruct (B2 a ltac:(lia) Hs2) as [Hs3 Hi3].
  split; [exact Hs3 |]. intros c. rewrite Hi3. apply Hi2.
Qed.
(** What a connection does: to the place, to the sums, and to the other places *)
Record places (g : graph) (d : node_or_graph) (si : nat) (additive : bool) (ne : edge) (g' : graph) : Prop := {
  pl_stays : stays g g';
  pl_here : forall l, combs g (arriving g d si) l -> combs g' (arriving g' d si) (if additive then l ++ [ne] else [ne]);
  pl_in : forall k c, k < g_next g -> ~ (same_place d (NNode (mk_id k 0)) /\ c = si) -> in_edge g' k c = in_edge g k c;
  pl_out : forall c, ~ (d = NGraph /\ c = si) -> out_edge g' c = out_edge g c }.
Lemma place_node g s k so si a g' : wf g -> summing g (id_key k) = false -> step g (OpConnect s so si (NNode k) a false) = Some (g', Ok) ->
  places g (NNode k) si a (mk_edge (src_of s) so false) g'.
Proof.
  intros W Hk H. destruct (step_connect_node g s k so si a g' W H) as (C & Hlt & Hkl). clear H.
  destruct (connect_to_node_sums _ _ _ _ _ _ _ (proj1 W) Hlt Hk C) as (_ & B & O & _).
  assert (PI : forall k0 c, k0 < g_next g -> ~ (same_place (NNode k) (NNode (mk_id k0 0)) /\ c = si) -> in_edge g' k0 c = in_edge g k0 c).
  { intros k0 c L N. apply B; [exact L |]. intros E. injection E as -> ->. apply N. split; reflexivity. }
  assert (PO : forall c, ~ (NNode k = NGraph /\ c = si) -> out_edge g' c = out_edge g c) by (intros c _; unfold out_edge; rewrite O; reflexivity).
  unfold connect_to_node in C. cbn [bind] in C. set (g0 := set_recalc g true) in *. set (ne := mk_edge (src_of s) so false) in *.
  assert (D : set_edge g0 (id_key k) si (Some ne) = Some g' -> stays g g' /\ in_edge g' (id_key k) si = Some ne).
  { intros E. split; [exact (set_edge_stays g0 (id_key k) si (Some ne) g' Hk E) | rewrite (set_edge_in_edge _ _ _ _ _ E), !Nat.eqb_refl; reflexivity]. }
  destruct a; cbn [negb] in C.
  2: { destruct (D C) as [S E]. constructor; [exact S | intros l _; cbn [arriving]; rewrite E; cbn [combs]; constructor | exact PI | exact PO]. }
  destruct (get_edge g0 (id_key k) si) as [ex |] eqn:Eg; cbn [bind] in C; [| discriminate].
  assert (Hex : in_edge g (id_key k) si = ex).
  { unfold get_edge in Eg. change (edges_of g0 (id_key k)) with (edges_of g (id_key k)) in Eg. unfold in_edge. destruct (edges_of g (id_key k)) as [es |]; cbn [bind] in Eg; [| discriminate]. rewrite Eg. reflexivity. }
  destruct ex as [e |].
  2: { destruct (D C) as [S E]. constructor; [exact S | intros l Hl; cbn [arriving] in *; rewrite Hex in Hl; cbn [combs] in Hl; subst l; rewrite E; cbn [combs app]; constructor | exact PI | exact PO]. }
  clear D. destruct (new_additive_node g0) as [g1 add] eqn:Ea. destruct (set_edge g1 add 0 (Some e)) as [g2 |] eqn:E2; cbn [bind] in C; [| discriminate].
  destruct (set_edge g2 add 1 (Some ne)) as [g3 |] eqn:E3; cbn [bind] in C; [| discriminate].
  destruct (add_comb g0 e ne g1 g2 g3 add [e] (inv_recalc g true (proj1 W)) Ea E2 E3 ltac:(constructor)) as (-> & Nx & _ & Sm & I0 & I1 & Lk & S3). change (g_next g0) with (g_next g) in *.
  assert (Hk3 : summing g3 (id_key k) = false) by (unfold summing; rewrite Lk by lia; exact Hk).
  pose proof (set_edge_stays g3 (id_key k) si _ g' Hk3 C) as S4. assert (S : stays g g') by exact (stays_trans g0 g3 g' S3 S4).
  constructor; [exact S | | exact PI | exact PO]. intros l Hl. cbn [arriving] in *. rewrite Hex in Hl. cbn [combs] in Hl.
  rewrite (set_edge_in_edge _ _ _ _ _ C), !Nat.eqb_refl. cbn [andb combs]. destruct S4 as [S4 S5]. destruct (S5 (g_next g) ltac:(lia) Sm) as [Sm' I'].
  constructor; [lia | exact Sm' | rewrite I'; exact I1 | rewrite I', I0; exact (comb_stays g g' _ l S Hl)].
Qed.
Lemma place_out g s so si a g' : wf g -> step g (OpConnect s so si NGraph a false) = Some (g', Ok) -> places g NGraph si a (mk_edge (src_of s) so false) g'.
Proof.
  intros W H. destruct (step_connect_output g s so si a false g' W H) as [C Hlt]. clear H.
  destruct (connect_to_output_sums _ _ _ _ _ _ (proj1 W) Hlt C) as (A & B & _ & _).
  assert (PI : forall k0 c, k0 < g_next g -> ~ (same_place NGraph (NNode (mk_id k0 0)) /\ c = si) -> in_edge g' k0 c = in_edge g k0 c) by (intros k0 c L _; apply A; exact L).
  assert (PO : forall c, ~ (NGraph = NGraph /\ c = si) -> out_edge g' c = out_edge g c) by (intros c N; apply B; intros ->; apply N; split; reflexivity).
  unfold connect_to_output in C. set (g0 := set_recalc g true) in *. set (ne := mk_edge (src_of s) so false) in *.
  assert (D : (o <- set_nth (g_outs g0) si (Some ne);; Some (set_outs g0 o)) = Some g' -> stays g g' /\ out_edge g' si = Some ne).
  { intros E. destruct (set_nth (g_outs g0) si (Some ne)) as [o |] eqn:Es; cbn [bind] in E; [| discriminate]. injection E as <-.
    split; [split; [cbn; lia | intros a0 _ Hs; split; [exact Hs | reflexivity]] | rewrite (out_edge_set _ _ _ _ si Es), Nat.eqb_refl; reflexivity]. }
  destruct a; cbn [negb] in C.
  2: { destruct (D C) as [S E]. constructor; [exact S | intros l _; cbn [arriving]; rewrite E; cbn [combs]; constructor | exact PI | exact PO]. }
  destruct (nth_error (g_outs g0) si) as [ex |] eqn:Eg; cbn [bind] in C; [| discriminate].
  assert (Hex : out_edge g si = ex) by (unfold out_edge; change (g_outs g) with (g_outs g0); rewrite Eg; reflexivity).
  destruct ex as [e |].
  2: { destruct (D C) as [S E]. constructor; [exact S | intros l Hl; cbn [arriving] in *; rewrite Hex in Hl; cbn [combs] in Hl; subst l; rewrite E; cbn [combs app]; constructor | exact PI | exact PO]. }
  clear D. destruct (new_additive_node g0) as [g1 add] eqn:Ea. destruct (set_edge g1 add 0 (Some e)) as [g2 |] eqn:E2; cbn [bind] in C; [| discriminate].
  destruct (set_edge g2 add 1 (Some ne)) as [g3 |] eqn:E3; cbn [bind] in C; [| discriminate].
  destruct (add_comb g0 e ne g1 g2 g3 add [e] (inv_recalc g true (proj1 W)) Ea E2 E3 ltac:(constructor)) as (-> & Nx & _ & Sm & I0 & I1 & Lk & S3). change (g_next g0) with (g_next g) in *.
  destruct (set_nth (g_outs g3) si _) as [o |] eqn:Es; cbn [bind] in C; [| discriminate]. injection C as <-.
  assert (S : stays g (set_outs g3 o)) by exact S3.
  constructor; [exact S | | exact PI | exact PO]. intros l Hl. cbn [arriving] in *. rewrite Hex in Hl. cbn [combs] in Hl.
  rewrite (out_edge_set _ _ _ _ si Es), Nat.eqb_refl. cbn [combs].
  constructor; [cbn; lia | exact Sm | exact I1 |]. change (in_edge (set_outs g3 o) (g_next g) 0) with (in_edge g3 (g_next g) 0). rewrite I0. exact (comb_stays g _ _ l S Hl).
Qed.

(** ** histories *)
Definition there (g : graph) (d : node_or_graph) : Prop := match d with NNode k => id_key k < g_next g /\ summing g (id_key k) = false | NGraph => True end.
Lemma connect_there g s so c d' a g' r : wf g -> step g (OpConnect s so c d' a false) = Some (g', r) -> no_sum g d' -> forall d, there g d -> there g' d.
Proof.
  intros W H Hn d Hd. destruct d as [| k]; [exact I |]. destruct Hd as [L Hs]. destruct r as [| e]; [| apply step_err in H; subst; split; assumption].
  destruct d' as [| k'].
  - destruct (step_connect_output g s so c a false g' W H) as [C Hlt]. unfold connect_to_output in C. set (g0 := set_recalc g true) in *.
    assert (D : forall x, (o <- set_nth (g_outs g0) c x;; Some (set_outs g0 o)) = Some g' -> there g' (NNode k)).
    { intros x E. destruct (set_nth (g_outs g0) c x) as [o |]; cbn [bind] in E; [| discriminate]. injection E as <-. split; assumption. }
    destruct a; cbn [negb] in C; [| apply (D _ C)]. destruct (nth_error (g_outs g0) c) as [[e |] |]; cbn [bind] in C; [| apply (D _ C) | discriminate]. clear D.
    destruct (new_additive_node g0) as [g1 add] eqn:Ea. destruct (set_edge g1 add 0 (Some e)) as [g2 |] eqn:E2; cbn [bind] in C; [| discriminate].
    destruct (set_edge g2 add 1 _) as [g3 |] eqn:E3; cbn [bind] in C; [| discriminate].
    destruct (add_comb g0 e _ g1 g2 g3 add [e] (inv_recalc g true (proj1 W)) Ea E2 E3 ltac:(constructor)) as (-> & Nx & _ & _ & _ & _ & Lk & _). change (g_next g0) with (g_next g) in *.
    destruct (set_nth (g_outs g3) c _) as [o |]; cbn [bind] in C; [| discriminate]. injection C as <-. split; [cbn; lia |].
    change (summing (set_outs g3 o) (id_key k)) with (summing g3 (id_key k)). unfold summing. rewrite Lk by lia. exact Hs.
  - destruct (step_connect_node g s k' so c a g' W H) as (C & Hlt & _). destruct (connect_to_node_sums _ _ _ _ _ _ _ (proj1 W) Hlt Hn C) as (A & _).
    pose proof (connect_to_node_next _ _ _ _ _ _ _ (proj1 W) C). split; [lia | rewrite A by exact L; exact Hs].
Qed.
Lemma push_stays g i o d r : base_inv g -> stays g (fst (push_node g i o d r)).
Proof.
  intros B. split; [rewrite push_next; lia |]. intros a Ha Hs. split; [| intros c; apply push_in_edge; exact B].
  unfold summing in *. rewrite push_lookup by exact B. destruct (Nat.eqb_spec (g_next g) a); [lia | exact Hs].
Qed.
Lemma mixes_combs d si g l g' : mixes d si g l g' -> forall l0, wf g -> there g d -> combs g (arriving g d si) l0 ->
  combs g' (arriving g' d si) (l0 ++ map (fun x => mk_edge (src_of (fst x)) (snd x) false) l).
Proof.
  induction 1 as [g | g s so g1 l g2 H _ IH | g o r g1 l g2 He H _ IH]; intros l0 W T Hl.
  - cbn [map]. rewrite app_nil_r. exact Hl.
  - cbn [map fst snd]. change (?x :: ?y) with ([x] ++ y). rewrite app_assoc. apply IH; [eapply step_wf; eauto | |].
    + eapply connect_there; [exact W | exact H | | exact T]. destruct d; [exact I | exact (proj2 T)].
    + destruct d as [| k]; [exact (pl_here _ _ _ _ _ _ (place_out g s so si true g1 W H) l0 Hl) | exact (pl_here _ _ _ _ _ _ (place_node g s k so si true g1 W (proj2 T) H) l0 Hl)].
  - destruct o; cbn [elsewhere] in He; try contradiction.
    + pose proof (step_wf _ _ _ _ W H) as W1. cbn [step] in H. injection H as <- _. pose proof (proj1 (proj1 W)) as B. apply IH.
      * exact W1.
      * destruct d as [| k]; [exact I |]. destruct T as [L Hs]. split; [rewrite push_next; lia |]. unfold summing in *. rewrite push_lookup by exact B. destruct (Nat.eqb_spec (g_next g) (id_key k)); [lia | exact Hs].
      * match goal with |- combs ?g1 _ _ => assert (E : arriving g1 d si = arriving g d si) end.
        { destruct d as [| k]; cbn [arriving]; [unfold out_edge; rewrite push_outs; reflexivity | apply push_in_edge; exact B]. }
        rewrite E. eapply combs_stays; [apply push_stays; exact B | exact Hl].
    + match type of He with context [if ?b then _ else _] => destruct b; [contradiction |] end. destruct He as [Hn Hne].
      apply IH; [eapply step_wf; eauto | eapply connect_there; eauto |]. destruct r as [| e]; [| apply step_err in H; subst; exact Hl].
      match type of H with step _ (OpConnect ?s ?so ?c ?d' ?a false) = _ =>
        assert (P : places g d' c a (mk_edge (src_of s) so false) g1) by (destruct d' as [| k']; [apply place_out; assumption | apply place_node; assumption]) end.
      match goal with |- combs ?g1 _ _ => assert (E : arriving g1 d si = arriving g d si) end.
      { destruct d as [| k]; cbn [arriving].
        - apply (pl_out _ _ _ _ _ _ P). intros [-> ->]. apply Hne. split; [exact I | reflexivity].
        - apply (pl_in _ _ _ _ _ _ P); [exact (proj1 T) |]. intros [Hp ->]. apply Hne. split; [| reflexivity].
          match type of Hp with same_place ?d' _ => destruct d' end; [contradiction | cbn in *; congruence]. }
      rewrite E. eapply combs_stays; [exact (pl_stays _ _ _ _ _ _ P) | exact Hl].
Qed.

(** ** samples *)
Section Samples.
Variable F : Type.
Variable zero : F.
Variable add : F -> F -> F.
Variable St : Type.
Variable proc : key -> St -> list (list F) -> list (N * list F) -> St * (nat -> nat -> F).
Variable bs : nat.
Lemma in_order_snoc xs x : xs <> [] -> in_order F zero add (xs ++ [x]) = add (in_order F zero add xs) x.
Proof. destruct xs as [| y xs]; [congruence |]. intros _. cbn [in_order app]. rewrite fold_left_app. reflexivity. Qed.
Lemma signal_len (g : graph) gin V o : (forall c, c < g_inputs g -> length (gin c) = bs) -> (forall e, o = Some e -> edge_ok g e) -> length (signal F zero bs gin V o) = bs.
Proof.
  intros Hg Hk. destruct o as [e |]; cbn [signal]; [| apply repeat_length]. specialize (Hk e eq_refl). unfold edge_ok in Hk. destruct (e_src e); [| apply Hg; exact Hk].
  unfold RenderSpec.chan. rewrite map_length. apply seq_length.
Qed.
Lemma chan_at V k c f : f < bs -> nth f (RenderSpec.chan F bs V k c) zero = V k c f.
Proof. intros Hf. unfold RenderSpec.chan. rewrite (nth_indep _ zero (V k c 0)) by (rewrite map_length, seq_length; exact Hf). rewrite map_nth, seq_nth by exact Hf. reflexivity. Qed.
Lemma comb_value g gin s V f : forward_graph g -> sums_add F zero add St proc bs g -> (forall c, c < g_inputs g -> length (gin c) = bs) -> f < bs ->
  (forall k, heard g k -> solves F zero St proc bs g gin s V k) ->
  forall o l, comb g o l -> (forall e, o = Some e -> edge_ok g e) -> (forall e k, o = Some e -> e_src e = Some k -> heard g k) ->
  nth f (signal F zero bs gin V o) zero = in_order F zero add (map (fun e => nth f (signal F zero bs gin V (Some e)) zero) l).
Proof.
  intros [W R _ Nf] Ha Hg Hf HV. induction 1 as [e | a l e La Hs H1 Hc IH]; intros Hok Hh; [reflexivity |].
  assert (Hha : heard g a) by (apply (Hh _ a eq_refl eq_refl)). destruct (HV a Hha) as (n & r & Hn & (es & ps & Hes & _ & ->) & HVa).
  destruct (sh_node _ (proj2 W) a n Hn) as (Hlen & A & _). assert (Hm : n_auto_math n = true) by (unfold summing in Hs; rewrite Hn in Hs; exact Hs). destruct (A Hm) as (Ni & No & _).
  assert (Le : length es = 2) by (rewrite <- Ni; unfold edges_of in Hes; rewrite Hn in Hes; cbn [bind] in Hes; apply Hlen; exact Hes).
  destruct es as [| e0 [| e1 [|]]]; try discriminate. assert (I0 : in_edge g a 0 = e0) by (unfold in_edge; rewrite Hes; reflexivity). assert (I1 : in_edge g a 1 = e1) by (unfold in_edge; rewrite Hes; reflexivity).
  assert (Ok : forall c e', in_edge g a c = Some e' -> edge_ok g e') by (intros c e' E'; exact (proj1 R a c e' E')).
  assert (Hd : forall c e' k, in_edge g a c = Some e' -> e_src e' = Some k -> heard g k).
  { intros c e' k E' Es. destruct Hha as (q & Hq & Hrt). exists q. split; [exact Hq |]. eapply rt_trans; [apply rt_step | exact Hrt]. left. exists c, e'. split; [exact E' |]. split; [exact Es | exact (Nf a c e' E')]. }
  change (signal F zero bs gin V (Some (mk_edge (Some a) 0 false))) with (RenderSpec.chan F bs V a 0). rewrite chan_at by exact Hf. rewrite HVa by (rewrite ?No; lia). cbn [map].
  rewrite Ha; [| exact Hs | apply (signal_len g); [exact Hg |]; intros e' E'; apply (Ok 0); congruence | apply (signal_len g); [exact Hg |]; intros e' E'; apply (Ok 1); congruence | exact Hf].
  rewrite map_app. cbn [map]. rewrite in_order_snoc by (intros E; apply map_eq_nil in E; exact (comb_ne _ _ _ Hc E)).
  rewrite <- IH; [| exact (Ok 0) | exact (Hd 0)]. rewrite I0. rewrite I1 in H1. rewrite H1. reflexivity.
Qed.
End Samples.
