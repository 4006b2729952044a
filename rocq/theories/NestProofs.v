(** Proofs for [NestSpec]. *)
From Verif Require Import Base GraphModel GraphSpec GraphBase GraphPath GraphInv GraphShape GraphRefs GraphClean
  OrderModel OrderSpec OrderProofs AllocModel AllocProofs PlaceProofs RenderSpec PlanProofs RenderModel RenderProofs RenderMain
  SoundSpec SoundProofs NestModel NestSpec.
Local Open Scope nat_scope.

Lemma net_induct (P : net -> Prop) : (forall g td sub, (forall k n', sub k = Some n' -> P n') -> P (Net g td sub)) -> forall n, P n.
Proof.
  intros H. fix IH 1. intros [g td sub]. apply H. intros k n' E.
  refine (match sub k as o return o = Some n' -> P n' with
          | Some x => fun e => match e in (_ = y) return match y with Some z => P z | None => True end with eq_refl => IH x end
          | None => fun e => match e in (_ = y) return match y with Some _ => P n' | None => True end with eq_refl => I end
          end E).
Qed.

(** A property of states that every node keeps is kept by a block. *)
Lemma run_tasks_inv F St (proc : key -> St -> list (list F) -> list (N * list F) -> St * (nat -> nat -> F)) bs gin (P : key -> St -> Prop) :
  (forall k s ins pars, P k s -> P k (fst (proc k s ins pars))) ->
  forall ts m st, (forall k, P k (st k)) -> forall k, P k (snd (run_tasks F St proc bs gin ts (m, st)) k).
Proof.
  intros Hp ts. induction ts as [|t ts IH]; intros m st Hst; [exact Hst|]. unfold run_tasks. cbn [fold_left].
  destruct (run_task F St proc bs gin (m, st) t) as [m1 st1] eqn:E. apply IH. cbn in E. injection E as _ <-.
  intros k. unfold upd_st. destruct (k =? t_key t) eqn:Ek; [apply Nat.eqb_eq in Ek; subst k; apply Hp, Hst|apply Hst].
Qed.

Section Nest.
Variable F : Type.
Variable zero : F.
Variable St : Type.
Variable proc : list key -> St -> list (list F) -> list (N * list F) -> St * (nat -> nat -> F).
Variable bs : nat.
Notation nstate := (nstate F St).
Notation nrender := (nrender F zero St proc bs).
Notation nproc := (nproc F zero St proc bs).
Notation means := (means F zero St proc bs).
Notation ready := (ready F zero St bs).
Notation signal := (signal F zero bs).
Notation chan := (chan F bs).

Definition good_plan (g : graph) (td : task_data) : Prop :=
  forward_graph g /\ (exists a old a1, plan g bs a old = Some (a1, td)) /\ sound_plan g bs td.
Hypothesis Hbs : 0 < bs.

Lemma nrender_eq g td sub p gin ms : nrender (Net g td sub) p gin ms = render F zero nstate (nproc sub p) bs td gin ms.
Proof. reflexivity. Qed.

Lemma chan_nth (l : list F) V k c : chan V k c = l -> forall i, i < bs -> nth i l zero = V k c i.
Proof. intros <- i Hi. unfold RenderSpec.chan. rewrite (nth_indep _ zero (V k c 0)) by (rewrite map_length, seq_length; exact Hi). rewrite map_nth, seq_nth by exact Hi. reflexivity. Qed.

(** every block of an output has the size of a block, when the inputs have *)
Lemma signal_length gin V o : (forall c, List.length (gin c) = bs) -> List.length (signal gin V o) = bs.
Proof.
  intros H. destruct o as [e|]; cbn; [|apply repeat_length]. destruct (e_src e); [|apply H].
  unfold RenderSpec.chan. rewrite map_length, seq_length. reflexivity.
Qed.
Lemma block_ext (l : list F) V k c : List.length l = bs -> (forall i, i < bs -> V k c i = nth i l zero) -> chan V k c = l.
Proof.
  intros Hl H. apply nth_ext with (d := zero) (d' := zero); unfold RenderSpec.chan; rewrite map_length, seq_length; [congruence|].
  intros i Hi. rewrite (nth_indep _ zero (V k c 0)) by (rewrite map_length, seq_length; exact Hi). rewrite map_nth, seq_nth by exact Hi. apply H. exact Hi.
Qed.

Lemma nrender_ready n : all_nets good_plan n -> forall p gin m st m' st' o, ready n m st -> nrender n p gin (m, st) = (m', st', o) -> ready n m' st'.
Proof.
  induction n as [g td sub IH] using net_induct. intros [(Hg & (a & old & a1 & Hp) & Hs) Hall] p gin m st m' st' o [Hm Hst] H.
  rewrite nrender_eq in H. split.
  - exact (proj1 (sound_block F zero nstate (nproc sub p) bs g a old a1 td gin m st m' st' o Hg Hbs Hp Hs Hm H)).
  - unfold render in H. injection H as E _. apply (f_equal snd) in E. cbn [snd] in E. intros k.
    pose (P := fun (k : key) (s : nstate) => match sub k with None => exists x, s = Leaf x | Some n' => exists m' s', s = Inner m' s' /\ ready n' m' s' end).
    change (P k (st' k)). rewrite <- E. apply run_tasks_inv; [|exact Hst]. clear k. intros k s ins pars. unfold P, NestModel.nproc.
    specialize (Hall k). destruct (sub k) as [n'|] eqn:Ek.
    + intros (m1 & s1 & -> & Hr). destruct (nrender n' (k :: p) (fun c => nth c ins (repeat zero bs)) (m1, s1)) as [[m2 s2] o2] eqn:E2.
      cbn [fst snd]. exists m2, s2. split; [reflexivity|]. eapply (IH k n' Ek); [exact (proj1 Hall)|exact Hr|exact E2].
    + intros (x & ->). cbn [fst]. eexists. reflexivity.
Qed.

(** The rendered block is the meaning. *)
Lemma nrender_means n : all_nets good_plan n -> forall p gin m st m' st' o, (forall c, List.length (gin c) = bs) ->
  ready n m st -> nrender n p gin (m, st) = (m', st', o) -> means n p gin st st' o /\ List.length o = List.length (g_outs (net_graph n)) /\ Forall (fun l => List.length l = bs) o.
Proof.
  induction n as [g td sub IH] using net_induct. intros [(Hg & (a & old & a1 & Hp) & Hs) Hall] p gin m st m' st' o Hgin [Hm Hst] H.
  rewrite nrender_eq in H.
  destruct (sound_block F zero nstate (nproc sub p) bs g a old a1 td gin m st m' st' o Hg Hbs Hp Hs Hm H) as (_ & V & HV & HV' & ->).
  split; [|split; [rewrite map_length; reflexivity|]].
  2:{ apply Forall_forall. intros l Hl. apply in_map_iff in Hl as (oe & <- & _). apply signal_length. exact Hgin. }
  exists V. split; [|reflexivity]. intros k Hk.
  destruct (HV k Hk) as (nd & r & El & (es & ps & E1 & E2 & Er) & Hr).
  destruct (HV' k Hk) as (r' & (es' & ps' & E1' & E2' & Er') & Hr').
  assert (es' = es) by congruence. assert (ps' = ps) by congruence. subst es' ps'. assert (r' = r) by congruence. clear Er'. subst r'. clear E1' E2'.
  exists nd, es, ps. do 3 (split; [assumption|]). specialize (Hall k). specialize (Hst k). unfold NestModel.nproc in Er.
  destruct (sub k) as [n'|] eqn:Ek.
  - destruct Hst as (m1 & s1 & Est & Hready). rewrite Est in Er. destruct Hall as [Hn' Hsz]. destruct (Hsz nd El) as [_ Hout].
    destruct (nrender n' (k :: p) (fun c => nth c (map (signal gin V) es) (repeat zero bs)) (m1, s1)) as [[m2 s2] o2] eqn:E3.
    subst r. cbn [fst snd] in Hr, Hr'. exists m1, s1, m2, s2, o2. split; [exact Est|]. split; [exact Hr'|].
    destruct (IH k n' Ek Hn' (k :: p) (fun c => nth c (map (signal gin V) es) (repeat zero bs)) m1 s1 m2 s2 o2) as (HM & Hlen & Hall2); [|exact Hready|exact E3|].
    { intros c. destruct (nth_in_or_default c (map (signal gin V) es) (repeat zero bs)) as [Hin| ->]; [|apply repeat_length].
      apply in_map_iff in Hin as (oe & <- & _). apply signal_length. exact Hgin. }
    split; [exact HM|]. intros c Hc. assert (Hc' : c < List.length o2) by (rewrite Hlen, <- Hout; exact Hc).
    rewrite (nth_error_nth' o2 [] Hc'). f_equal. symmetry. apply block_ext; [|intros i Hi; apply Hr; assumption].
    rewrite Forall_forall in Hall2. apply Hall2. apply nth_In. exact Hc'.
  - destruct Hst as (x & Est). rewrite Est in Er. subst r. exists x. split; [exact Est|]. cbv zeta. split; [exact Hr'|exact Hr].
Qed.

(** The meaning is unique. *)
Lemma means_render n : all_nets good_plan n -> forall p gin m st st1 o, (forall c, List.length (gin c) = bs) ->
  ready n m st -> means n p gin st st1 o -> snd (nrender n p gin (m, st)) = o.
Proof.
  induction n as [g td sub IH] using net_induct. intros [(Hg & (a & old & a1 & Hp) & Hs) Hall] p gin m st st1 o Hgin [Hm Hst] (V & HV & ->).
  rewrite nrender_eq. destruct (render F zero nstate (nproc sub p) bs td gin (m, st)) as [[m' st'] o] eqn:E. cbn [snd].
  destruct (sound_block F zero nstate (nproc sub p) bs g a old a1 td gin m st m' st' o Hg Hbs Hp Hs Hm E) as (_ & V' & HV' & _ & ->).
  assert (Hsol : forall k, heard g k -> solves F zero nstate (nproc sub p) bs g gin st V k).
  { intros k Hk. destruct (HV k Hk) as (nd & es & ps & El & E1 & E2 & H). exists nd, (nproc sub p k (st k) (map (signal gin V) es) (map (par_signal F bs V) ps)).
    split; [exact El|]. split; [exists es, ps; auto|]. specialize (Hall k). specialize (Hst k). unfold NestModel.nproc. destruct (sub k) as [n'|] eqn:Ek.
    - destruct H as (m1 & s & m2 & s1 & o & Es & _ & HM & Ho). rewrite Es. destruct Hst as (m1' & s' & Es' & Hr).
      rewrite Es in Es'. injection Es' as <- <-.
      assert (E3 : snd (nrender n' (k :: p) (fun c => nth c (map (signal gin V) es) (repeat zero bs)) (m1, s)) = o).
      { eapply (IH k n' Ek); [exact (proj1 Hall)| |exact Hr|exact HM]. intros c.
        destruct (nth_in_or_default c (map (signal gin V) es) (repeat zero bs)) as [Hin| ->]; [|apply repeat_length].
        apply in_map_iff in Hin as (oe & <- & _). apply signal_length. exact Hgin. }
      destruct (nrender n' (k :: p) (fun c => nth c (map (signal gin V) es) (repeat zero bs)) (m1, s)) as [[m3 s3] o3]. cbn [snd] in E3. subst o3.
      cbn [snd]. intros c i Hc Hi. rewrite (nth_error_nth _ _ [] (Ho c Hc)). symmetry. apply chan_nth; [reflexivity|exact Hi].
    - destruct H as (s & Es & _ & Hv). rewrite Es. exact Hv. }
  pose proof Hg as [Hw Hrefs Hl Hfb].
  destruct (plan_placed g bs a old a1 td Hw Hrefs Hbs Hl Hp) as (order & off & Ho & Hpl & Ht & Htd & Hoe).
  pose proof (sound_order g bs td order off Hg Ht Ho Hs) as Hgood.
  assert (Hu : forall k, heard g k -> forall c i, c < nouts g k -> i < bs -> V' k c i = V k c i).
  { apply (solves_unique F zero nstate (nproc sub p) bs Hbs g order Hrefs gin st (heard g)); try assumption.
    - intros k Hk. apply (Hgood k Hk).
    - intros k Hk. apply (Hgood k Hk).
    - intros k s Hk Hs'. eapply forward_source; eauto.
    - intros k q ps Hk Hps Hin. destruct (Hgood k Hk) as [Hko _].
      destruct (Forall2_In _ _ _ _ Ht Hko) as (t & n & es & ps' & _ & _ & E' & _ & H & _).
      assert (ps' = ps) by congruence. subst ps'. apply H. exact Hin. }
  apply map_ext_in. intros [e|] Hin; [|reflexivity]. cbn.
  destruct (e_src e) as [s|] eqn:Es; [|reflexivity]. unfold RenderSpec.chan. apply map_ext_in. intros i Hi. apply in_seq in Hi.
  destruct (Hoe e s Hin Es) as [_ Hc]. apply In_nth_error in Hin as [c Hc'].
  apply Hu; [|exact Hc|lia]. exists s. split; [|apply rt_refl]. exists c, e.
  split; [unfold out_edge; rewrite Hc'; reflexivity|exact Es].
Qed.

Lemma nrender_plays n : all_nets good_plan n -> forall gins m st m' st' os, (forall gin c, In gin gins -> List.length (gin c) = bs) ->
  ready n m st -> nrender_n F zero St proc bs n gins (m, st) = (m', st', os) -> ready n m' st' /\ nplays F zero St proc bs n gins st os.
Proof.
  intros Hn gins. induction gins as [|gin gins IH]; intros m st m' st' os Hgin Hr H; cbn [nrender_n] in H.
  - injection H as <- <- <-. split; [exact Hr|constructor].
  - destruct (nrender n [] gin (m, st)) as [[m1 st1] o] eqn:E1.
    destruct (nrender_n F zero St proc bs n gins (m1, st1)) as [[m2 st2] os2] eqn:E2. injection H as <- <- <-.
    destruct (IH m1 st1 m2 st2 os2) as [H1 H2]; [intros; apply Hgin; right; assumption|eapply nrender_ready; eauto|exact E2|].
    split; [exact H1|]. econstructor; [|exact H2]. eapply nrender_means; [exact Hn| |exact Hr|exact E1]. intros c. apply Hgin. left. reflexivity.
Qed.
End Nest.
