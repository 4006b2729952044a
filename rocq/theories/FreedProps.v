(** Property C30: a graph that removes itself is silent from that frame on. *)
From Verif Require Import Base GraphModel OrderModel AllocModel RenderModel FreedModel.
Local Open Scope nat_scope.

Section Props.
Variable F : Type.
Variable zero : F.
Variable St : Type.
Variable proc : key -> St -> list (list F) -> list (N * list F) -> St * (nat -> nat -> F).
Variable done_at : key -> St -> list (list F) -> list (N * list F) -> option N.
Variable wrapped : key -> option done_action.
Variable bs : nat.
Notation run_task := (run_task F St proc bs).
Notation gen_run := (gen_run F zero St proc done_at wrapped bs).
Notation gen_block := (gen_block F zero St proc done_at wrapped bs).
Notation states := (key -> St).
Notation block := (task_data * (nat -> list F))%type.
(** graph inputs are one block long *)
Definition sized (b : block) : Prop := forall c, List.length (snd b c) = bs.

(** ** specification *)
(** What the blocks sound like when nothing removes the graph. *)
Fixpoint plain (ms : memory F * states) (l : list block) : list (list (list F)) :=
  match l with
  | [] => []
  | (td, gin) :: l' => let r := render F zero St proc bs td gin ms in snd r :: plain (fst r) l'
  end.
(** The nodes that ask, in a block, for the graph to be removed, with the frame: those that are done at that frame and were
    pushed with the action [FreeParent]. *)
Fixpoint requests (gin : nat -> list F) (ts : list task) (ms : memory F * states) : list N :=
  match ts with
  | [] => []
  | t :: ts' =>
      match wrapped (t_key t), done_at (t_key t) (snd ms (t_key t)) (map (read_src F bs (fst ms) gin) (t_ins t))
             (map (fun p => (fst p, read F bs (fst ms) (snd p))) (t_pars t)) with
      | Some FreeParent, Some fr => [fr]
      | _, _ => []
      end ++ requests gin ts' (run_task gin ms t)
  end.
(** The requests of each block. *)
Fixpoint all_requests (ms : memory F * states) (l : list block) : list (list N) :=
  match l with
  | [] => []
  | (td, gin) :: l' => requests gin (td_tasks td) ms :: all_requests (fst (render F zero St proc bs td gin ms)) l'
  end.
(** Sample [i] of a channel. *)
Definition sample (ch : list F) (i : nat) : F := nth i ch zero.

(** ** proofs *)
Lemma run_flagged_ms gin ts : forall ms f, fst (fst (run_flagged F St proc done_at wrapped bs gin ts ms f)) = run_tasks F St proc bs gin ts ms.
Proof. induction ts as [|t ts IH]; intros ms f; [reflexivity|]. cbn [run_flagged fst]. rewrite IH. reflexivity. Qed.
Lemma run_flagged_req gin ts : forall ms f,
  remove_graph (snd (fst (run_flagged F St proc done_at wrapped bs gin ts ms f))) =
  match requests gin ts ms with [] => remove_graph f | _ => Some (last (requests gin ts ms) 0%N) end.
Proof.
  induction ts as [|t ts IH]; intros ms f; [reflexivity|]. cbn [run_flagged requests fst snd]. rewrite IH.
  assert (E : remove_graph (fst (task_flags F St done_at wrapped bs gin ms t f)) =
    match match wrapped (t_key t), done_at (t_key t) (snd ms (t_key t)) (map (read_src F bs (fst ms) gin) (t_ins t))
             (map (fun p => (fst p, read F bs (fst ms) (snd p))) (t_pars t)) with
      | Some FreeParent, Some fr => [fr] | _, _ => [] end with [] => remove_graph f | fr :: _ => Some fr end).
  { unfold task_flags. destruct (wrapped (t_key t)) as [[]|]; destruct (done_at _ _ _ _); reflexivity. }
  destruct (wrapped (t_key t)) as [[]|] eqn:Ew; cbn [app]; try (rewrite E; reflexivity).
  destruct (done_at _ _ _ _) as [fr|]; cbn [app]; [|rewrite E; reflexivity].
  rewrite E. destruct (requests gin ts (run_task gin ms t)); reflexivity.
Qed.

Lemma freed_silent l : forall g, gg_freed F St g = true -> forall j out, nth_error (gen_run g l) j = Some out ->
  forall ch, In ch out -> ch = repeat zero bs.
Proof.
  induction l as [|[td gin] l IH]; intros g Hg j out Hj; [destruct j; discriminate|].
  cbn [FreedModel.gen_run] in Hj. unfold FreedModel.gen_block in Hj at 1 2. rewrite Hg in Hj. cbn [fst snd] in Hj.
  destruct j as [|j]; [|eapply IH; [exact Hg|exact Hj]].
  injection Hj as <-. intros ch Hch. apply in_map_iff in Hch as (x & <- & _). reflexivity.
Qed.
Lemma out_len td gin ms o : (forall c, List.length (gin c) = bs) -> In o (snd (render F zero St proc bs td gin ms)) -> List.length o = bs.
Proof.
  intros Hg Ho. cbn in Ho. apply in_map_iff in Ho as (x & <- & _).
  destruct x as [[a|c]|]; cbn; [unfold read; rewrite map_length, seq_length; reflexivity|apply Hg|apply repeat_length].
Qed.

(** Blocks before the first request are untouched.  In the block of the first request every output channel is the
    rendered one before the frame of the request that is made last in processing order, and zero from that frame on.
    All later blocks are zero. *)
Theorem C30_silence_partial : forall ms l n req,
  Forall sized l -> nth_error (all_requests ms l) n = Some req -> req <> [] ->
  (forall j r, j < n -> nth_error (all_requests ms l) j = Some r -> r = []) ->
  forall j out, nth_error (gen_run (gen_new F St ms) l) j = Some out ->
  exists want, nth_error (plain ms l) j = Some want /\ List.length out = List.length want /\
  forall c ch wch, nth_error out c = Some ch -> nth_error want c = Some wch -> List.length ch = bs /\
  forall i, i < bs -> sample ch i = if (j <? n) || ((j =? n) && (N.of_nat i <? last req 0)%N) then sample wch i else zero.
Proof.
  intros ms l n req Hsz Hn Hreq Hfirst.
  assert (G : forall l g n, gg_freed F St g = false -> Forall sized l -> nth_error (all_requests (gg_ms F St g) l) n = Some req ->
    (forall j r, j < n -> nth_error (all_requests (gg_ms F St g) l) j = Some r -> r = []) ->
    forall j out, nth_error (gen_run g l) j = Some out ->
    exists want, nth_error (plain (gg_ms F St g) l) j = Some want /\ List.length out = List.length want /\
    forall c ch wch, nth_error out c = Some ch -> nth_error want c = Some wch -> List.length ch = bs /\
    forall i, i < bs -> sample ch i = if (j <? n) || ((j =? n) && (N.of_nat i <? last req 0)%N) then sample wch i else zero).
  2: { exact (G l (gen_new F St ms) n eq_refl Hsz Hn Hfirst). }
  clear l ms n Hsz Hn Hfirst. induction l as [|[td gin] l IH]; intros g n Hf Hsz Hn Hfirst j out Hj; [destruct j; discriminate|].
  inversion Hsz as [|? ? Hb Hsz']; subst. unfold sized in Hb; cbn [snd] in Hb.
  cbn [FreedModel.gen_run all_requests plain] in *.
  assert (Hrun : fst (fst (run_flagged F St proc done_at wrapped bs gin (td_tasks td) (gg_ms F St g) flags_new)) =
    fst (render F zero St proc bs td gin (gg_ms F St g))) by (rewrite run_flagged_ms; reflexivity).
  assert (Hout : map (out_block F zero bs (fst (fst (fst (run_flagged F St proc done_at wrapped bs gin (td_tasks td) (gg_ms F St g) flags_new)))) gin) (td_out td) =
    snd (render F zero St proc bs td gin (gg_ms F St g))) by (rewrite run_flagged_ms; reflexivity).
  pose proof (run_flagged_req gin (td_tasks td) (gg_ms F St g) flags_new) as Hr.
  destruct n as [|n].
  - (* the block of the request *)
    cbn [nth_error] in Hn. injection Hn as Hn. rewrite Hn in Hr.
    assert (Er : remove_graph (snd (fst (run_flagged F St proc done_at wrapped bs gin (td_tasks td) (gg_ms F St g) flags_new))) = Some (last req 0%N))
      by (rewrite Hr; destruct req; [contradiction|reflexivity]).
    unfold FreedModel.gen_block in Hj. rewrite Hf, Er in Hj. cbn [fst snd] in Hj.
    destruct j as [|j].
    + cbn [nth_error] in Hj |- *. injection Hj as <-. rewrite Hout. eexists. split; [reflexivity|]. rewrite map_length. split; [reflexivity|].
      intros c ch wch Hc Hw. rewrite nth_error_map, Hw in Hc. cbn [option_map] in Hc. injection Hc as <-.
      assert (Hl : List.length wch = bs) by (eapply out_len; [exact Hb|eapply nth_error_In; exact Hw]).
      cbn [Nat.ltb Nat.leb orb Nat.eqb andb]. unfold silence_from. destruct (N.ltb_spec (last req 0%N) (N.of_nat bs)).
      * rewrite app_length, firstn_length, repeat_length. split; [lia|]. intros i Hi. unfold sample.
        destruct (N.ltb_spec (N.of_nat i) (last req 0%N)).
        -- rewrite app_nth1 by (rewrite firstn_length; lia).
           rewrite <- (firstn_skipn (N.to_nat (last req 0%N)) wch) at 2. rewrite app_nth1 by (rewrite firstn_length; lia). reflexivity.
        -- rewrite app_nth2 by (rewrite firstn_length; lia). apply nth_repeat.
      * split; [exact Hl|]. intros i Hi. destruct (N.ltb_spec (N.of_nat i) (last req 0%N)); [reflexivity|lia].
    + cbn [nth_error] in Hj |- *. 
      assert (Hlen : forall l g ms j out, nth_error (gen_run g l) j = Some out -> exists want, nth_error (plain ms l) j = Some want /\ List.length out = List.length want).
      { clear. induction l as [|[td gin] l IH]; intros g ms j out H; [destruct j; discriminate|].
        cbn [FreedModel.gen_run plain] in *. destruct j as [|j].
        - cbn [nth_error] in *. injection H as <-. eexists. split; [reflexivity|]. unfold FreedModel.gen_block. destruct (gg_freed F St g); cbn [snd].
          + cbn. rewrite !map_length. reflexivity.
          + destruct (remove_graph _); cbn [snd]; cbn; rewrite !map_length; reflexivity.
        - cbn [nth_error] in *. eapply IH. exact H. }
      destruct (Hlen _ _ (fst (render F zero St proc bs td gin (gg_ms F St g))) _ _ Hj) as (want & Ew & El). exists want. split; [exact Ew|]. split; [exact El|].
      intros c ch wch Hc Hw. apply nth_error_In in Hc. assert (ch = repeat zero bs) as -> by (eapply freed_silent; [|exact Hj|exact Hc]; reflexivity). rewrite repeat_length. split; [reflexivity|].
      intros i Hi. cbn. apply nth_repeat.
  - assert (Hnil : requests gin (td_tasks td) (gg_ms F St g) = []) by (apply (Hfirst 0); [lia|reflexivity]).
    rewrite Hnil in Hr. cbn [remove_graph flags_new f_remove_parent] in Hr.
    unfold FreedModel.gen_block in Hj. rewrite Hf in Hj. unfold flags_new in Hj at 1 2 3 4. fold flags_new in Hj.
    rewrite Hr in Hj. cbn [fst snd] in Hj.
    destruct j as [|j].
    + cbn [nth_error] in Hj |- *. injection Hj as <-. rewrite Hout. eexists. split; [reflexivity|]. split; [reflexivity|].
      intros c ch wch Hc Hw. rewrite Hw in Hc. injection Hc as <-. split; [eapply out_len; [exact Hb|eapply nth_error_In; exact Hw]|].
      intros i Hi. reflexivity.
    + cbn [nth_error] in Hj |- *. cbn [nth_error] in Hn.
      assert (Hfirst' : forall j r, j < n -> nth_error (all_requests (fst (render F zero St proc bs td gin (gg_ms F St g))) l) j = Some r -> r = [])
        by (intros j' r Hj' Hr'; apply (Hfirst (S j')); [lia|exact Hr']).
      rewrite <- Hrun in Hn, Hfirst' |- *.
      match type of Hj with nth_error (gen_run ?g' _) _ = _ =>
        exact (IH g' n eq_refl Hsz' Hn Hfirst' j out Hj) end.
Qed.
(** And if no node ever asks, nothing changes. *)
Theorem C30_no_request : forall ms l, Forall (fun r => r = []) (all_requests ms l) -> gen_run (gen_new F St ms) l = plain ms l.
Proof.
  intros ms l0.
  assert (G : forall l g, gg_freed F St g = false -> Forall (fun r => r = []) (all_requests (gg_ms F St g) l) -> gen_run g l = plain (gg_ms F St g) l).
  { induction l as [|[td gin] l' IH]; intros g Hf H; [reflexivity|]. cbn [FreedModel.gen_run plain all_requests] in *.
    inversion H as [|? ? H1 H2]; subst.
    pose proof (run_flagged_req gin (td_tasks td) (gg_ms F St g) flags_new) as Hr. rewrite H1 in Hr.
    unfold FreedModel.gen_block. rewrite Hf, Hr. cbn [remove_graph flags_new f_remove_parent fst snd]. rewrite run_flagged_ms.
    f_equal. rewrite IH; [reflexivity|reflexivity|exact H2]. }
  intros H. apply (G l0 (gen_new F St ms)); [reflexivity|exact H].
Qed.
(** The nodes that ask, in a block, to be freed themselves: those that are done and were pushed with [FreeSelf]. *)
Fixpoint self_requests (gin : nat -> list F) (ts : list task) (ms : memory F * states) : list key :=
  match ts with
  | [] => []
  | t :: ts' =>
      match wrapped (t_key t), done_at (t_key t) (snd ms (t_key t)) (map (read_src F bs (fst ms) gin) (t_ins t))
             (map (fun p => (fst p, read F bs (fst ms) (snd p))) (t_pars t)) with
      | Some FreeSelf, Some _ => [t_key t]
      | _, _ => []
      end ++ self_requests gin ts' (run_task gin ms t)
  end.
Lemma run_flagged_self gin ts : forall ms f, snd (run_flagged F St proc done_at wrapped bs gin ts ms f) = self_requests gin ts ms.
Proof.
  induction ts as [|t ts IH]; intros ms f; [reflexivity|]. cbn [run_flagged self_requests fst snd]. rewrite IH. f_equal.
  unfold task_flags. destruct (wrapped (t_key t)) as [[]|]; destruct (done_at _ _ _ _); reflexivity.
Qed.
(** A block of a graph that is not yet freed marks exactly these nodes, in processing order and whatever the other
    nodes of the block ask for; a freed graph marks none. *)
Theorem C30_free_self : forall g td gin,
  gg_free_self F St (fst (gen_block g td gin)) =
  gg_free_self F St g ++ (if gg_freed F St g then [] else self_requests gin (td_tasks td) (gg_ms F St g)).
Proof.
  intros g td gin. unfold FreedModel.gen_block. destruct (gg_freed F St g) eqn:E; cbn [fst]; [rewrite app_nil_r; reflexivity|].
  rewrite <- (run_flagged_self gin (td_tasks td) (gg_ms F St g) flags_new).
  destruct (remove_graph _); reflexivity.
Qed.
(** The graph after some blocks. *)
Definition gen_after (g : gen F St) (l : list block) : gen F St := fold_left (fun g b => fst (gen_block g (fst b) (snd b))) l g.
(** The flag that makes the parent drop the graph is set after some blocks exactly if a node asked for it in one of
    them.  Once it is set no further block changes the graph: memory, node states and marks stay as they are. *)
Theorem C30_remove_me : forall ms l,
  (gg_remove_me F St (gen_after (gen_new F St ms) l) = true <-> exists r, In r (all_requests ms l) /\ r <> []) /\
  (gg_remove_me F St (gen_after (gen_new F St ms) l) = true -> forall l', gen_after (gen_new F St ms) (l ++ l') = gen_after (gen_new F St ms) l).
Proof.
  assert (Fz : forall l g, gg_freed F St g = true -> gen_after g l = g).
  { induction l as [|b l IH]; intros g Hg; [reflexivity|]. cbn [gen_after fold_left]. unfold FreedModel.gen_block at 2. rewrite Hg. apply IH, Hg. }
  assert (G : forall l g, gg_freed F St g = false -> gg_remove_me F St g = false ->
    gg_remove_me F St (gen_after g l) = gg_freed F St (gen_after g l) /\
    (gg_remove_me F St (gen_after g l) = true <-> exists r, In r (all_requests (gg_ms F St g) l) /\ r <> [])).
  { induction l as [|[td gin] l IH]; intros g Hg Hr.
    { cbn. rewrite Hg, Hr. split; [reflexivity|]. split; [discriminate|]. intros (r & [] & _). }
    change (gen_after g ((td, gin) :: l)) with (gen_after (fst (gen_block g td gin)) l). cbn [all_requests].
    pose proof (run_flagged_req gin (td_tasks td) (gg_ms F St g) flags_new) as Hq.
    pose proof (run_flagged_ms gin (td_tasks td) (gg_ms F St g) flags_new) as Hm.
    assert (E : fst (gen_block g td gin) = match remove_graph (snd (fst (run_flagged F St proc done_at wrapped bs gin (td_tasks td) (gg_ms F St g) flags_new))) with
      | Some _ => mk_gen F St true (fst (fst (run_flagged F St proc done_at wrapped bs gin (td_tasks td) (gg_ms F St g) flags_new))) true
                    (gg_free_self F St g ++ snd (run_flagged F St proc done_at wrapped bs gin (td_tasks td) (gg_ms F St g) flags_new))
      | None => mk_gen F St false (fst (fst (run_flagged F St proc done_at wrapped bs gin (td_tasks td) (gg_ms F St g) flags_new))) (gg_remove_me F St g)
                    (gg_free_self F St g ++ snd (run_flagged F St proc done_at wrapped bs gin (td_tasks td) (gg_ms F St g) flags_new)) end).
    { unfold FreedModel.gen_block. rewrite Hg. destruct (remove_graph _); reflexivity. }
    rewrite Hq, Hm in E. rewrite E. clear E Hq Hm.
    destruct (requests gin (td_tasks td) (gg_ms F St g)) as [|q qs] eqn:Eq; cbn [flags_new remove_graph].
    - match goal with |- context [gen_after ?g' l] => destruct (IH g') as (A & B); [reflexivity|exact Hr|] end.
      split; [exact A|]. rewrite B. clear A B. cbn [gg_ms]. split.
      + intros (r & Hi & Hn). exists r. split; [right; exact Hi|exact Hn].
      + intros (r & [<-|Hi] & Hn); [congruence|]. exists r. split; [exact Hi|exact Hn].
    - rewrite Fz; [|reflexivity]. split; [reflexivity|]. cbn [gg_remove_me]. split; [|reflexivity].
      intros _. exists (q :: qs). split; [left; reflexivity|discriminate]. }
  intros ms l. destruct (G l (gen_new F St ms) eq_refl eq_refl) as (A & B). split; [exact B|].
  intros H l'. rewrite A in H. unfold gen_after in *. rewrite fold_left_app. apply (Fz l'), H.
Qed.
End Props.
Print Assumptions C30_remove_me.
Print Assumptions C30_free_self.
Print Assumptions C30_silence_partial.
Print Assumptions C30_no_request.

(** ** cases: two nodes that each send one channel to an output and are done at given frames of their second block *)
Definition ex_proc (k : key) (st : nat) (_ : list (list nat)) (_ : list (N * list nat)) : nat * (nat -> nat -> nat) :=
  (S st, fun _ i => 100 * (k + 1) + 10 * st + i).
Definition ex_done (f0 f1 : option N) (k : key) (st : nat) (_ : list (list nat)) (_ : list (N * list nat)) : option N :=
  if st =? 1 then (if k =? 0 then f0 else f1) else None.
Definition ex_task (k : key) : task := mk_task k [] [] (4 * k) 1.
Definition ex_td : task_data := mk_td [ex_task 0; ex_task 1] [Some (IBuf 0); Some (IBuf 4)].
Definition ex_wrapped (k : key) : option done_action := Some FreeParent.
Definition ex_ms : memory nat * (key -> nat) := (fun _ => 0, fun _ => 0).
Definition ex_gin (_ : nat) : list nat := [0; 0; 0; 0].
Definition ex_run (f0 f1 : option N) := gen_run nat 0 nat ex_proc (ex_done f0 f1) ex_wrapped 4 (gen_new nat nat ex_ms) (repeat (ex_td, ex_gin) 3).
Example C30_case :
  all_requests nat 0 nat ex_proc (ex_done None (Some 2%N)) ex_wrapped 4 ex_ms (repeat (ex_td, ex_gin) 2) = [[]; [2%N]] /\
  ex_run None (Some 2%N) = [[[100; 101; 102; 103]; [200; 201; 202; 203]]; [[110; 111; 0; 0]; [210; 211; 0; 0]]; [[0; 0; 0; 0]; [0; 0; 0; 0]]].
Proof. vm_compute. split; reflexivity. Qed.
(** Node 0 frees itself and node 1 removes the graph in the same block. *)
Example C30_free_self_case :
  let w := fun k => Some (if k =? 0 then FreeSelf else FreeParent) in
  let b := fun g => gen_block nat 0 nat ex_proc (ex_done (Some 1%N) (Some 2%N)) w 4 g ex_td ex_gin in
  let g1 := fst (b (gen_new nat nat ex_ms)) in
  gg_free_self nat nat g1 = [] /\ gg_free_self nat nat (fst (b g1)) = [0] /\
  snd (b g1) = [[110; 111; 0; 0]; [210; 211; 0; 0]] /\ gg_free_self nat nat (fst (b (fst (b g1)))) = [0].
Proof. vm_compute. repeat split; reflexivity. Qed.
Example C30_remove_me_case :
  let a := fun n => gg_remove_me nat nat (gen_after nat 0 nat ex_proc (ex_done None (Some 2%N)) ex_wrapped 4 (gen_new nat nat ex_ms) (repeat (ex_td, ex_gin) n)) in
  (a 1, a 2, a 3) = (false, true, true).
Proof. vm_compute. reflexivity. Qed.
(** Full statement (false): with two requests in one block the one of the node that is processed last counts, even if
    it is later: node 0 asks at frame 1, node 1 at frame 3, and frames 1 and 2 are still audible. *)
Theorem C30_two_requests_refuted :
  all_requests nat 0 nat ex_proc (ex_done (Some 1%N) (Some 3%N)) ex_wrapped 4 ex_ms (repeat (ex_td, ex_gin) 2) = [[]; [1%N; 3%N]] /\
  exists ch, nth_error (ex_run (Some 1%N) (Some 3%N)) 1 = Some ch /\ exists c, nth_error ch 0 = Some c /\ nth 1 c 0 <> 0.
Proof.
  split; [vm_compute; reflexivity|]. eexists. split; [vm_compute; reflexivity|]. eexists. split; [vm_compute; reflexivity|]. vm_compute. discriminate.
Qed.
Print Assumptions C30_two_requests_refuted.
