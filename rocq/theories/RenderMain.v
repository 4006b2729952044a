(** From the placement to the rendered blocks. *)
From Verif Require Import Base GraphModel GraphSpec GraphBase GraphPath GraphInv GraphShape GraphRefs GraphClean
  OrderModel OrderSpec OrderProofs AllocModel AllocProofs PlaceProofs RenderSpec PlanProofs RenderModel RenderProofs.
Local Open Scope nat_scope.

(** Graphs for which rendering is shown to be right. *)
Record renderable (g : graph) : Prop := {
  rd_wf : wf g;
  rd_refs : refs_ok g;
  rd_links : (N.of_nat (links g) < usize_max)%N;
  rd_nofb : forall k c e, in_edge g k c = Some e -> e_fb e = false;
  rd_acyclic : forall k, ~ upstream g k k;
  rd_ends : forall s k, feeds_output g s -> ~ depends g s k }.

Lemma depends_same g s k : (forall k c e, in_edge g k c = Some e -> e_fb e = false) -> depends g s k <-> same_block g s k.
Proof.
  intros Hfb. split.
  - intros [(c & e & He & Hs)|H]; [left; exists c, e; split; [exact He|split; [exact Hs|exact (Hfb _ _ _ He)]]|right; exact H].
  - intros [(c & e & He & Hs & _)|H]; [left; exists c, e; auto|right; exact H].
Qed.
Lemma heard_good g order : renderable g -> node_order g = Some order -> forall k, heard g k -> In k order /\ good g order k.
Proof.
  intros [Hw Hr Hl Hfb Hac He] H k Hk. pose proof H as Hno.
  unfold node_order in H. destruct (node_order2 g) as [[o1 o2]|] eqn:E; cbn in H; [|discriminate]. injection H as <-.
  pose proof (heard_connected g o1 o2 Hw Hfb E k Hk) as Hin.
  destruct (roots_total g (proj1 Hw)) as [r Er].
  destruct (roots_spec g r (bi_nodup g (proj1 (proj1 Hw))) Er) as (Hnr & Hro & _).
  assert (Ha : after_sources g (o1 ++ o2) k).
  { eapply order_sorted; [exact Hw|exact Hac|exact E|exact Er| |exact Hin].
    apply safe_pairs_indep; [exact Hnr|]. intros a b Ha Hb Hab Hup. specialize (Hro _ Ha).
    assert (exists z, same_block g a z) as [z Hz].
    { clear - Hup. induction Hup as [x y H|x y z H1 IH1 H2 IH2]; eauto. }
    apply (He a z Hro). apply depends_same; assumption. }
  split; [apply in_or_app; left; exact Hin|]. intros l1 l2 Eo s Hs. eapply Ha; [exact Eo|].
  apply depends_same; [exact Hfb|]. apply sources_spec. exact Hs.
Qed.
Lemma heard_source g s k : renderable g -> heard g k -> In s (sources g k) -> heard g s.
Proof.
  intros Hr (r & Hout & Hk) Hs. exists r. split; [exact Hout|]. eapply rt_trans; [|exact Hk]. apply rt_step.
  apply depends_same; [apply rd_nofb; exact Hr|]. apply sources_spec. exact Hs.
Qed.

Section Main.
Variable F : Type.
Variable zero : F.
Variable St : Type.
Variable proc : key -> St -> list (list F) -> list (N * list F) -> St * (nat -> nat -> F).
Variable bs : nat.
Notation silent := (silent F zero bs).
Notation solves := (solves F zero St proc bs).
Notation computes := (computes F zero St proc bs).
Notation signal := (signal F zero bs).

Lemma render_block g a old a1 td gin m st m' st' out : renderable g -> 0 < bs ->
  plan g bs a old = Some (a1, td) -> silent m -> render F zero St proc bs td gin (m, st) = (m', st', out) ->
  silent m' /\ exists V, (forall k, heard g k -> solves g gin st V k) /\
    (forall k, heard g k -> exists r, computes g gin st V k r /\ st' k = fst r) /\
    out = map (signal gin V) (g_outs g).
Proof.
  intros Hr Hbs Hp Hm H. pose proof Hr as [Hw Hrefs Hl Hfb Hac He].
  destruct (plan_placed g bs a old a1 td Hw Hrefs Hbs Hl Hp) as (order & off & Ho & Hpl & Ht & Htd & Hoe).
  destruct (order_once g order Hw Ho) as [Hnd _].
  destruct (tasks_run F zero St proc bs Hbs g order off _ Hnd Hpl Hrefs gin st order _ Ht [] m st (fun _ _ _ => zero) eq_refl)
    as [V Hi]; [eapply rinv_start; eassumption|].
  unfold render in H. destruct (run_tasks F St proc bs gin (td_tasks td) (m, st)) as [m1 st1]. cbn in Hi, H.
  injection H as <- <- <-. split; [apply (r_zero _ _ _ _ _ _ _ _ _ _ _ _ _ _ Hi)|].
  exists V. pose proof (r_solved _ _ _ _ _ _ _ _ _ _ _ _ _ _ Hi) as Hsolved.
  split; [|split].
  - intros k Hk. destruct (heard_good g order Hr Ho k Hk) as [Hin Hg].
    destruct (Hsolved k Hin Hg) as (n & r & E1 & E2 & E3 & _). exists n, r. rewrite E3. auto.
  - intros k Hk. destruct (heard_good g order Hr Ho k Hk) as [Hin Hg].
    destruct (Hsolved k Hin Hg) as (n & r & E1 & E2 & E3 & E4). exists r. auto.
  - rewrite Htd, map_map. apply map_ext_in. intros [e|] Hin; [|reflexivity]. cbn.
    destruct (e_src e) as [s|] eqn:Es; [|reflexivity]. cbn. unfold read, chan. apply map_ext_in. intros i Hi'.
    apply in_seq in Hi'. destruct (Hoe e s Hin Es) as [Hs Hc].
    destruct (in_split _ _ Hs) as (l1 & l2 & El).
    apply (r_intact _ _ _ _ _ _ _ _ _ _ _ _ _ _ Hi l1 s l2 El); [exact Hc|lia|].
    intros y Hy. enough (Hd : disj (off s) (nouts g s * bs) (off y) (nouts g y * bs)) by (destruct Hd; nia).
    eapply (pl_kept _ _ _ _ _ Hpl l1 s l2 y El); [|exact Hy].
    destruct (Nat.eq_dec (dependents g s) 0) as [E|E]; [exact E|]. exfalso.
    apply In_nth_error in Hin as [c Hc'].
    assert (Hfo : feeds_output g s) by (exists c, e; split; [unfold out_edge; rewrite Hc'; reflexivity|exact Es]).
    destruct (proj1 (dependents_In g s)) as [k Hk]; [lia|]. exact (He s k Hfo Hk).
Qed.
Lemma render_blocks g a old a1 td : renderable g -> 0 < bs -> plan g bs a old = Some (a1, td) ->
  forall gins m st m' st' outs, silent m -> render_n F zero St proc bs td gins (m, st) = (m', st', outs) ->
  silent m' /\ plays F zero St proc bs g gins st outs.
Proof.
  intros Hr Hbs Hp gins. induction gins as [|gin gins IH]; intros m st m' st' outs Hm H; cbn [render_n] in H.
  - injection H as <- <- <-. split; [exact Hm|constructor].
  - destruct (render F zero St proc bs td gin (m, st)) as [[m1 st1] o] eqn:E1.
    destruct (render_n F zero St proc bs td gins (m1, st1)) as [[m2 st2] os] eqn:E2. injection H as <- <- <-.
    destruct (render_block g a old a1 td gin m st m1 st1 o Hr Hbs Hp Hm E1) as (Hm1 & V & V1 & V2 & ->).
    destruct (IH _ _ _ _ _ Hm1 E2) as [Hm2 Hpl]. split; [exact Hm2|]. eapply plays_cons; eauto.
Qed.
(** The meaning of the graph determines what is heard. *)
Lemma solution_unique g a old a1 td gin st : renderable g -> 0 < bs -> plan g bs a old = Some (a1, td) ->
  forall V V', (forall k, heard g k -> solves g gin st V k) -> (forall k, heard g k -> solves g gin st V' k) ->
  (forall k, heard g k -> forall c i, c < nouts g k -> i < bs -> V k c i = V' k c i) /\
  map (signal gin V) (g_outs g) = map (signal gin V') (g_outs g).
Proof.
  intros Hr Hbs Hp V V' HV HV'. pose proof Hr as [Hw Hrefs Hl Hfb Hac He].
  destruct (plan_placed g bs a old a1 td Hw Hrefs Hbs Hl Hp) as (order & off & Ho & Hpl & Ht & Htd & Hoe).
  destruct (order_once g order Hw Ho) as [Hnd _].
  assert (Hu : forall k, heard g k -> forall c i, c < nouts g k -> i < bs -> V k c i = V' k c i).
  { apply (solves_unique F zero St proc bs Hbs g order Hrefs gin st (heard g)); try assumption.
    - intros k Hk. apply (heard_good g order Hr Ho k Hk).
    - intros k Hk. apply (heard_good g order Hr Ho k Hk).
    - intros k s Hk Hs. eapply heard_source; eauto.
    - intros k p ps Hk Hps Hin. destruct (heard_good g order Hr Ho k Hk) as [Hko _].
      destruct (Forall2_In _ _ _ _ Ht Hko) as (t & n & es & ps' & _ & _ & E & _ & H & _).
      assert (ps' = ps) by congruence. subst ps'. apply H. exact Hin. }
  split; [exact Hu|]. apply map_ext_in. intros [e|] Hin; [|reflexivity]. cbn.
  destruct (e_src e) as [s|] eqn:Es; [|reflexivity]. unfold chan. apply map_ext_in. intros i Hi. apply in_seq in Hi.
  destruct (Hoe e s Hin Es) as [_ Hc]. apply In_nth_error in Hin as [c Hc'].
  apply Hu; [|exact Hc|lia]. exists s. split; [|apply rt_refl]. exists c, e.
  split; [unfold out_edge; rewrite Hc'; reflexivity|exact Es].
Qed.
End Main.
