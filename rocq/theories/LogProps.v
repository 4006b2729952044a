(** Results about logging from the audio thread (C33) *)
From Verif Require Import Base LogModel LogSpec LogProofs.
Local Open Scope nat_scope.

Lemma new_ok {T} cap : ok T (ring_new cap). Proof. split; [exact I | cbn; lia]. Qed.

(** Whatever is sent and whenever it is polled (also while a chunk is being read), wherever the ring buffer wraps: no panic, the
    calls of the handler are complete messages, two calls for each, and they are together with what is still queued exactly the
    parts and end marks that were not dropped, in order. *)
Theorem C33_kept : forall T cap (ops : list (lop T)), exists r outs logs, lrun (ring_new cap) ops = Some (r, outs) /\
  paired (calls outs) logs /\ kept outs = stream logs ++ r_q r.
Proof. intros T cap ops. destruct (lrun_ok T ops (ring_new cap) (new_ok cap)) as (r & outs & logs & E & _ & _ & P & Q). exists r, outs, logs. auto. Qed.
Print Assumptions C33_kept.

(** If nothing is dropped, the messages received are the first ones logged, each once, complete and in order; the others are still
    queued, and the next [recv] delivers all complete ones. Missing: full buffers. *)
Theorem C33_messages_partial : forall T cap (ops : list (lop T)) logs ps r outs, lrun (ring_new cap) ops = Some (r, outs) -> nothing_dropped outs ->
  sent ops = stream logs ++ map MPart ps ->
  (exists k, k <= length logs /\ paired (calls outs) (firstn k logs) /\ r_q r = stream (skipn k logs) ++ map MPart ps) /\
  (r_chunk r = None -> exists r' outs', lrun (ring_new cap) (ops ++ [LBegin; LCommit]) = Some (r', outs') /\ paired (calls outs') logs /\ r_q r' = map MPart ps).
Proof.
  intros T cap ops logs ps r outs E N S. destruct (lrun_ok T ops (ring_new cap) (new_ok cap)) as (r0 & outs0 & l0 & E0 & O0 & _ & P0 & Q0). rewrite E in E0. injection E0 as <- <-.
  cbn [ring_new r_q app] in Q0. rewrite (kept_sent T _ _ _ _ E N), S in Q0. symmetry in Q0. destruct (stream_prefix T _ _ _ _ Q0) as (k & -> & Q & Hk).
  split; [exists k; auto |]. intros Ec. rewrite lrun_app, E. cbn [bind fst snd lrun lstep]. rewrite Ec. cbn [bind fst snd].
  assert (Ob : ok T (begin r)) by (split; [cbn; lia | apply (proj2 O0)]).
  destruct (commit_ok T (begin r) Ob) as (r' & cs & l1 & E1 & _ & P1 & Q1 & _ & _ & F1 & _). rewrite E1. cbn [bind fst snd].
  eexists. eexists. split; [reflexivity |]. destruct (F1 (length (r_q r)) eq_refl) as (qs & F). cbn [begin r_q] in F, Q1. rewrite firstn_all in F. rewrite F in Q1. rewrite Q in F.
  symmetry in F. destruct (stream_prefix T _ _ _ _ F) as (j & El & Eq & Hj).
  assert (Es : stream (skipn j (skipn k logs)) = []).
  { destruct (skipn j (skipn k logs)) as [| l ls]; [reflexivity |]. exfalso. change (stream (l :: ls)) with (rt_log l ++ stream ls) in Eq. rewrite <- app_assoc in Eq. exact (parts_no_end _ _ _ _ Eq). }
  rewrite Es in Eq. cbn [app] in Eq. apply app_inv_head in Q1.
  assert (El' : l1 = skipn k logs).
  { rewrite El. rewrite <- (firstn_skipn j (skipn k logs)) at 2. destruct (skipn j (skipn k logs)) as [| l ls]; [rewrite app_nil_r; reflexivity |]. exfalso.
    apply (f_equal (@length _)) in Es. change (stream (l :: ls)) with (rt_log l ++ stream ls) in Es. rewrite app_length, rt_log_len in Es. discriminate. }
  split.
  - unfold calls in *. rewrite flat_map_app. cbn [flat_map app]. rewrite app_nil_r. rewrite <- (firstn_skipn k logs), <- El'. apply paired_app; assumption.
  - congruence.
Qed.
Print Assumptions C33_messages_partial.
(** A message received says what was logged: the calls determine the messages. *)
Theorem C33_unambiguous : forall T cs (a b : list (list T)), paired cs a -> paired cs b -> a = b.
Proof. exact paired_fun. Qed.
Print Assumptions C33_unambiguous.

(** With several senders every channel behaves as if it were alone. *)
Lemma crun_of {T} : forall ops (rs rs' : list (ring T)) outs i r, crun rs ops = Some (rs', outs) -> nth_error rs i = Some r ->
  exists r', lrun r (ops_of i ops) = Some (r', outs_of i outs) /\ nth_error rs' i = Some r'.
Proof.
  induction ops as [| [j o] ops IH]; intros rs rs' outs i r H Hr; cbn [crun] in H.
  - injection H as <- <-. exists r. split; [reflexivity | exact Hr].
  - destruct (nth_error rs j) as [rj |] eqn:Ej; cbn [bind] in H; [| discriminate]. destruct (lstep rj o) as [[r1 out] |] eqn:E1; cbn [bind fst snd] in H; [| discriminate].
    destruct (set_nth rs j r1) as [rs1 |] eqn:Es; cbn [bind] in H; [| discriminate]. destruct (crun rs1 ops) as [[rs2 o2] |] eqn:E2; cbn [bind fst snd] in H; [| discriminate]. injection H as <- <-.
    unfold ops_of, outs_of. cbn [filter fst]. destruct (Nat.eqb_spec j i) as [-> | Hji]; cbn [map snd].
    + assert (rj = r) by congruence. subst rj. destruct (IH _ _ _ i r1 E2 (set_nth_same _ _ _ _ Es)) as (r' & A & B). exists r'. cbn [lrun]. rewrite E1. cbn [bind fst snd].
      unfold ops_of, outs_of in A. rewrite A. split; [reflexivity | exact B].
    + apply (IH _ _ _ i r E2). rewrite (set_nth_other _ _ _ _ _ Es) by congruence. exact Hr.
Qed.
Theorem C33_channels : forall T (ops : list (nat * lop T)) rs rs' outs i r, crun rs ops = Some (rs', outs) -> nth_error rs i = Some r ->
  exists r', lrun r (ops_of i ops) = Some (r', outs_of i outs) /\ nth_error rs' i = Some r'.
Proof. intros T ops rs rs' outs i r. apply crun_of. Qed.
Print Assumptions C33_channels.

(** A buffer of 4, wrapping: two messages, with a poll in the middle of the second *)
Definition ex_ops : list (lop nat) := [LSend (MPart 1); LSend (MPart 2); LSend MEnd; LBegin; LSend (MPart 3); LCommit; LSend (MPart 4); LSend MEnd; LSend (MPart 5)].
Example C33_messages_case : exists r outs, lrun (ring_new 4) ex_ops = Some (r, outs) /\ nothing_dropped outs /\ sent ex_ops = stream [[1; 2]; [3; 4]] ++ map MPart [5] /\ r_chunk r = None /\ r_head r = 3.
Proof. eexists. eexists. split; [vm_compute; reflexivity |]. split; [intros m H; cbn in H; intuition discriminate |]. vm_compute. repeat split. Qed.
Example C33_channels_case : exists rs outs, crun [ring_new 4; ring_new 2] (map (fun o => (0, o)) ex_ops ++ [(1, LSend (MPart 7)); (1, LSend MEnd); (1, LBegin); (1, LCommit)]) = Some (rs, outs) /\ calls (outs_of 1 outs) = [[MPart 7; MEnd]; []].
Proof. eexists. eexists. vm_compute. split; reflexivity. Qed.

(** A full buffer does not lose whole messages: with a capacity of 4, after [1 2] has filled the buffer with one slot left, the first
    part of [3 4] is kept and its end is lost, and the next message is appended to it: [3 5] is received, which nobody logged. *)
Definition full_ops : list (lop nat) :=
  map LSend (rt_log [1; 2]) ++ map LSend (rt_log [3; 4]) ++ [LBegin; LCommit] ++ map LSend (rt_log [5]) ++ [LBegin; LCommit].
Theorem C33_full_refuted : exists r outs, lrun (ring_new 4) full_ops = Some (r, outs) /\ paired (calls outs) [[1; 2]; [3; 5]] /\ sent full_ops = stream [[1; 2]; [3; 4]; [5]].
Proof. eexists. eexists. split; [vm_compute; reflexivity |]. vm_compute. repeat split. Qed.
Print Assumptions C33_full_refuted.
(** Once the buffer is full and holds no end mark, nothing is ever received again, whatever is logged and however it is polled. *)
Theorem C33_stuck_forever : forall T (r : ring T) ops, ok T r -> r_cap r <= length (r_q r) -> (exists ps, r_q r = map MPart ps) ->
  exists r' outs, lrun r ops = Some (r', outs) /\ calls outs = [] /\ kept outs = [].
Proof. intros T r ops O A B. destruct (stuck_run T ops r O (conj A B)) as (r' & outs & E & _ & C & K). exists r', outs. auto. Qed.
Print Assumptions C33_stuck_forever.
(** One message with as many parts as the capacity does that. *)
Theorem C33_stuck_refuted : forall T (ps : list T) ops, exists r outs, lrun (ring_new (length ps)) (map LSend (rt_log ps) ++ ops) = Some (r, outs) /\ calls outs = [].
Proof.
  intros T ps ops. assert (F : forall qs rs h, exists outs, lrun (mk_ring (map MPart rs) (length rs + length qs) h None) (map LSend (map MPart qs)) = Some (mk_ring (map MPart (rs ++ qs)) (length rs + length qs) h None, outs) /\ @calls T outs = []).
  { induction qs as [| q qs IH]; intros rs h; cbn [map lrun].
    - exists []. rewrite app_nil_r. split; reflexivity.
    - cbn [lstep]. unfold send. cbn [r_q r_cap r_head r_chunk]. rewrite map_length. cbn [length]. replace (length rs <? length rs + S (length qs)) with true by (symmetry; apply Nat.ltb_lt; lia). cbn [bind fst snd].
      destruct (IH (rs ++ [q]) h) as (outs & E & C). rewrite map_app, app_length in E. cbn [map length] in E. replace (length rs + 1 + length qs) with (length rs + S (length qs)) in E by lia. rewrite E. cbn [bind fst snd].
      eexists. split; [rewrite <- app_assoc; reflexivity |]. exact C. }
  unfold rt_log. rewrite map_app, <- app_assoc, lrun_app. destruct (F ps [] 0) as (o1 & E1 & C1). cbn [map length app Nat.add] in E1. change (ring_new (length ps)) with (@mk_ring T [] (length ps) 0 None). rewrite E1. cbn [bind fst snd].
  destruct (stuck_run T ([LSend MEnd] ++ ops) (mk_ring (map MPart ps) (length ps) 0 None)) as (r' & o2 & E2 & _ & C2 & _).
  { split; [exact I | cbn [r_q r_cap]; rewrite map_length; lia]. }
  { split; [cbn [r_q r_cap]; rewrite map_length; lia | exists ps; reflexivity]. }
  change (map LSend [MEnd] ++ ops) with ([LSend (@MEnd T)] ++ ops). rewrite E2. cbn [bind fst snd]. eexists. eexists. split; [reflexivity |]. unfold calls in *. rewrite flat_map_app, C1, C2. reflexivity.
Qed.
Print Assumptions C33_stuck_refuted.
