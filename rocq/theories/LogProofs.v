From Verif Require Import Base LogModel LogSpec.
Local Open Scope nat_scope.

Section Log.
Variable T : Type.
Local Notation msg := (msg T). Local Notation ring := (ring T).

Lemma find_end_spec : forall l : list msg, match find_end l with
  | None => exists ps, l = map MPart ps
  | Some i => exists ps rest, l = rt_log ps ++ rest /\ length ps = i end.
Proof.
  induction l as [| m l IH]; cbn [find_end]; [exists []; reflexivity |]. destruct m as [x |]; cbn [is_end].
  - destruct (find_end l) as [i |]; cbn [option_map].
    + destruct IH as (ps & rest & -> & <-). exists (x :: ps), rest. split; reflexivity.
    + destruct IH as (ps & ->). exists (x :: ps). reflexivity.
  - exists [], l. split; reflexivity.
Qed.
Lemma rt_log_len (ps : list T) : length (rt_log ps) = S (length ps).
Proof. unfold rt_log. rewrite app_length, map_length. cbn [length]. lia. Qed.
Lemma skipn_add {A} : forall b a (l : list A), skipn a (skipn b l) = skipn (b + a) l.
Proof. induction b as [| b IH]; intros a l; [reflexivity |]. destruct l; [rewrite !skipn_nil; reflexivity | apply IH]. Qed.
(** The two slices of a range of the chunk *)
Lemma two_slices (s0 s1 : list msg) le pos : le + pos < length (s0 ++ s1) ->
  exists a b, (if length s0 <=? le then Some [] else slice s0 le (Nat.min (le + pos + 1) (length s0))) = Some a /\
    (if le + pos <? length s0 then Some [] else if length s0 <=? le then slice s1 (le - length s0) (le + pos - length s0 + 1) else slice s1 0 (le + pos - length s0 + 1)) = Some b /\
    a ++ b = firstn (pos + 1) (skipn le (s0 ++ s1)).
Proof.
  intros H. rewrite app_length in H. rewrite skipn_app. unfold slice. destruct (Nat.leb_spec (length s0) le) as [L | L].
  - destruct (Nat.ltb_spec (le + pos) (length s0)); [lia |].
    replace (le - length s0 <=? le + pos - length s0 + 1) with true by (symmetry; apply Nat.leb_le; lia).
    replace (le + pos - length s0 + 1 <=? length s1) with true by (symmetry; apply Nat.leb_le; lia). cbn [andb].
    eexists. eexists. split; [reflexivity |]. split; [reflexivity |]. rewrite (skipn_all2 s0) by lia. cbn [app]. f_equal. lia.
  - replace (le <=? Nat.min (le + pos + 1) (length s0)) with true by (symmetry; apply Nat.leb_le; lia).
    replace (Nat.min (le + pos + 1) (length s0) <=? length s0) with true by (symmetry; apply Nat.leb_le; lia). cbn [andb].
    replace (le - length s0) with 0 by lia. cbn [skipn]. rewrite firstn_app, skipn_length.
    destruct (Nat.ltb_spec (le + pos) (length s0)) as [K | K].
    + eexists. exists []. split; [reflexivity |]. split; [reflexivity |]. replace (pos + 1 - (length s0 - le)) with 0 by lia. cbn [firstn]. rewrite !app_nil_r. f_equal. lia.
    + replace (0 <=? le + pos - length s0 + 1) with true by reflexivity.
      replace (le + pos - length s0 + 1 <=? length s1) with true by (symmetry; apply Nat.leb_le; lia). cbn [andb skipn].
      eexists. eexists. split; [reflexivity |]. split; [reflexivity |]. f_equal; [| f_equal; lia].
      rewrite !firstn_all2; [reflexivity | rewrite skipn_length; lia | rewrite skipn_length; lia].
Qed.
Lemma recv_loop_ok (s0 s1 : list msg) : forall fuel le, length (s0 ++ s1) - le <= fuel -> le <= length (s0 ++ s1) ->
  exists cs le' logs ps, recv_loop fuel s0 s1 le = Some (cs, le') /\ paired cs logs /\ le' = le + length (stream logs) /\ skipn le (s0 ++ s1) = stream logs ++ map MPart ps.
Proof.
  induction fuel as [| fuel IH]; intros le Hf Hle; cbn [recv_loop]; pose proof (find_end_spec (skipn le (s0 ++ s1))) as F.
  - destruct (find_end (skipn le (s0 ++ s1))) as [pos |].
    + destruct F as (ps & rest & E & _). apply (f_equal (@length msg)) in E. rewrite skipn_length, (app_length (rt_log ps)), rt_log_len in E. lia.
    + destruct F as (ps & E). exists [], le, [], ps. split; [reflexivity |]. split; [exact I |]. split; [cbn; lia | exact E].
  - destruct (find_end (skipn le (s0 ++ s1))) as [pos |].
    + destruct F as (ps & rest & E & <-). pose proof (f_equal (@length msg) E) as EL. rewrite skipn_length, (app_length (rt_log ps)), rt_log_len in EL.
      destruct (two_slices s0 s1 le (length ps)) as (a & b & Ea & Eb & Eab); [lia |]. rewrite Ea. cbn [bind]. rewrite Eb. cbn [bind].
      destruct (IH (le + length ps + 1)) as (cs & le' & logs & qs & Er & P & EL' & S'); [lia | lia |]. rewrite Er. cbn [bind fst snd].
      exists (a :: b :: cs), le', (ps :: logs), qs. split; [reflexivity |]. split; [| split].
      * cbn [paired]. split; [| exact P]. rewrite Eab, E. rewrite firstn_app, rt_log_len. replace (length ps + 1 - S (length ps)) with 0 by lia. cbn [firstn]. rewrite app_nil_r. apply firstn_all2. rewrite rt_log_len. lia.
      * change (stream (ps :: logs)) with (rt_log ps ++ stream logs). rewrite app_length, rt_log_len. lia.
      * change (stream (ps :: logs)) with (rt_log ps ++ stream logs). rewrite <- app_assoc, <- S', E. f_equal. rewrite <- Nat.add_assoc, <- skipn_add, E.
        rewrite skipn_app, rt_log_len. replace (length ps + 1 - S (length ps)) with 0 by lia. cbn [skipn]. rewrite (skipn_all2 (rt_log ps)) by (rewrite rt_log_len; lia). reflexivity.
    + destruct F as (ps & E). exists [], le, [], ps. split; [reflexivity |]. split; [exact I |]. split; [cbn; lia | exact E].
Qed.
Lemma paired_app : forall cs ds (ls ms : list (list T)), paired cs ls -> paired ds ms -> paired (cs ++ ds) (ls ++ ms).
Proof.
  fix IH 1. intros [| a [| b cs]] ds [| l ls] ms H1 H2; try contradiction; [exact H2 |]. cbn [app paired] in *. destruct H1 as [A B]. split; [exact A | apply IH; assumption].
Qed.
Lemma stream_app (a b : list (list T)) : stream (a ++ b) = stream a ++ stream b.
Proof. unfold stream. apply flat_map_app. Qed.

(** The chunk being read is part of the queue, and the queue fits *)
Definition ok (r : ring) : Prop := (match r_chunk r with Some n => n <= length (r_q r) | None => True end) /\ length (r_q r) <= r_cap r.
Lemma commit_ok (r : ring) : ok r -> exists r' cs logs, commit r = Some (r', cs) /\ ok r' /\ paired cs logs /\ r_q r = stream logs ++ r_q r' /\ r_cap r' = r_cap r /\ r_chunk r' = None /\
  (forall n, r_chunk r = Some n -> exists ps, firstn n (r_q r) = stream logs ++ map MPart ps) /\ (r_chunk r = None -> cs = []).
Proof.
  intros [A B]. unfold commit. destruct (r_chunk r) as [n |] eqn:Ec.
  2: { exists r, [], []. split; [reflexivity |]. split; [split; [rewrite Ec; exact I | exact B] |]. split; [exact I |]. split; [reflexivity |]. split; [reflexivity |]. split; [exact Ec |]. split; [discriminate | reflexivity]. }
  set (l := firstn n (r_q r)). set (k := Nat.min n (r_cap r - r_head r)). assert (Ll : length l = n) by (apply firstn_length_le; exact A).
  destruct (recv_loop_ok (firstn k l) (skipn k l) n 0) as (cs & le & logs & ps & E & P & EL & S'); [rewrite firstn_skipn; lia | lia |].
  rewrite firstn_skipn in S'. cbn [skipn] in S'. rewrite E. cbn [bind fst snd]. cbn [Nat.add] in EL. subst le.
  eexists. exists cs, logs. split; [reflexivity |].
  assert (Q : r_q r = stream logs ++ skipn (length (stream logs)) (r_q r)).
  { rewrite <- (firstn_skipn n (r_q r)) at 1 2. fold l. rewrite S'. rewrite <- !app_assoc. rewrite skipn_app, skipn_all, Nat.sub_diag. reflexivity. }
  split; [split; [exact I | cbn [r_q r_cap]; rewrite skipn_length; lia] |]. split; [exact P |]. split; [exact Q |]. split; [reflexivity |]. split; [reflexivity |]. split; [| discriminate].
  intros m Em. injection Em as <-. exists ps. exact S'.
Qed.
Lemma lstep_ok (r : ring) o : ok r -> exists r' out logs, lstep r o = Some (r', out) /\ ok r' /\ r_cap r' = r_cap r /\ paired (calls [out]) logs /\ r_q r ++ kept [out] = stream logs ++ r_q r'.
Proof.
  intros H. destruct o as [m | |]; cbn [lstep].
  - unfold send. destruct (Nat.ltb_spec (length (r_q r)) (r_cap r)) as [L | L]; cbn [fst snd]; eexists; eexists; exists [].
    + split; [reflexivity |]. destruct H as [A B]. split; [split; cbn [r_q r_chunk r_cap]; [destruct (r_chunk r); [rewrite app_length; cbn [length]; lia | exact I] | rewrite app_length; cbn [length]; lia] |].
      split; [reflexivity |]. split; [exact I |]. reflexivity.
    + split; [reflexivity |]. split; [exact H |]. split; [reflexivity |]. split; [exact I |]. cbn. apply app_nil_r.
  - eexists. eexists. exists []. split; [reflexivity |]. destruct H as [A B]. destruct (r_chunk r) as [n |] eqn:Ec.
    + split; [split; [rewrite Ec; exact A | exact B] |]. split; [reflexivity |]. split; [exact I |]. cbn. apply app_nil_r.
    + split; [split; [cbn; lia | exact B] |]. split; [reflexivity |]. split; [exact I |]. cbn. apply app_nil_r.
  - destruct (commit_ok r H) as (r' & cs & logs & E & O & P & Q & C & _). rewrite E. cbn [bind fst snd]. exists r', (LCalls cs), logs. split; [reflexivity |]. split; [exact O |]. split; [exact C |].
    cbn [calls kept flat_map]. rewrite !app_nil_r. split; [exact P | exact Q].
Qed.
Lemma lrun_ok : forall ops (r : ring), ok r -> exists r' outs logs, lrun r ops = Some (r', outs) /\ ok r' /\ r_cap r' = r_cap r /\ paired (calls outs) logs /\ r_q r ++ kept outs = stream logs ++ r_q r'.
Proof.
  induction ops as [| o ops IH]; intros r H; cbn [lrun].
  - exists r, [], []. split; [reflexivity |]. split; [exact H |]. split; [reflexivity |]. split; [exact I |]. cbn. apply app_nil_r.
  - destruct (lstep_ok r o H) as (r1 & out & l1 & E1 & O1 & C1 & P1 & Q1). rewrite E1. cbn [bind fst snd].
    destruct (IH r1 O1) as (r2 & outs & l2 & E2 & O2 & C2 & P2 & Q2). rewrite E2. cbn [bind fst snd].
    exists r2, (out :: outs), (l1 ++ l2). split; [reflexivity |]. split; [exact O2 |]. split; [congruence |].
    assert (Ec : calls (out :: outs) = calls [out] ++ calls outs) by (unfold calls; cbn [flat_map]; rewrite app_nil_r; reflexivity).
    assert (Ek : kept (out :: outs) = kept [out] ++ kept outs) by (unfold kept; cbn [flat_map]; rewrite app_nil_r; reflexivity).
    rewrite Ec, Ek. split; [apply paired_app; assumption |]. rewrite app_assoc, Q1, <- app_assoc, Q2, stream_app, app_assoc. reflexivity.
Qed.
Lemma lrun_app : forall a b (r : ring), lrun r (a ++ b) = (q <- lrun r a;; p <- lrun (fst q) b;; Some (fst p, snd q ++ snd p)).
Proof.
  induction a as [| o a IH]; intros b r; cbn [app lrun].
  - cbn [bind fst snd app]. destruct (lrun r b) as [[r' outs] |]; reflexivity.
  - destruct (lstep r o) as [[r1 out] |]; cbn [bind fst snd]; [| reflexivity]. rewrite IH. destruct (lrun r1 a) as [[r2 o2] |]; cbn [bind fst snd]; [| reflexivity].
    destruct (lrun r2 b) as [[r3 o3] |]; reflexivity.
Qed.
Lemma kept_sent : forall ops (r r' : ring) outs, lrun r ops = Some (r', outs) -> nothing_dropped outs -> kept outs = sent ops.
Proof.
  induction ops as [| o ops IH]; intros r r' outs H N; cbn [lrun] in H; [injection H as <- <-; reflexivity |].
  destruct (lstep r o) as [[r1 out] |] eqn:E1; cbn [bind fst snd] in H; [| discriminate]. destruct (lrun r1 ops) as [[r2 o2] |] eqn:E2; cbn [bind fst snd] in H; [| discriminate]. injection H as <- <-.
  assert (I2 : kept o2 = sent ops) by (eapply IH; [exact E2 | intros m Hm; apply (N m); right; exact Hm]).
  destruct o as [m | |]; cbn [lstep] in E1.
  - injection E1 as <- <-. destruct (snd (send r m)); [| exfalso; apply (N m); left; reflexivity]. unfold kept, sent in *. cbn [flat_map app]. rewrite I2. reflexivity.
  - injection E1 as <- <-. exact I2.
  - destruct (commit r) as [[r3 cs] |]; cbn [bind fst snd] in E1; [| discriminate]. injection E1 as <- <-. exact I2.
Qed.
(** Two ways to read the same messages *)
Lemma rt_log_inj : forall (a b : list T) x y, rt_log a ++ x = rt_log b ++ y -> a = b /\ x = y.
Proof.
  unfold rt_log. induction a as [| p a IH]; intros [| q b] x y H; cbn [map app] in H; try discriminate.
  - injection H as ->. auto.
  - injection H as -> H. destruct (IH b x y H) as [-> ->]. auto.
Qed.
Lemma parts_no_end : forall (ps a : list T) x, map MPart ps <> rt_log a ++ x.
Proof. unfold rt_log. induction ps as [| p ps IH]; intros [| q a] x H; cbn [map app] in H; try discriminate. injection H as _ H. exact (IH a x H). Qed.
Lemma stream_prefix : forall (a logs : list (list T)) ps q, stream a ++ q = stream logs ++ map MPart ps -> exists k, a = firstn k logs /\ q = stream (skipn k logs) ++ map MPart ps /\ k <= length logs.
Proof.
  induction a as [| x a IH]; intros logs ps q H.
  - exists 0. split; [reflexivity |]. split; [exact H | lia].
  - change (stream (x :: a)) with (rt_log x ++ stream a) in H. rewrite <- app_assoc in H. destruct logs as [| y logs].
    + cbn [stream flat_map app] in H. exfalso. symmetry in H. exact (parts_no_end _ _ _ H).
    + change (stream (y :: logs)) with (rt_log y ++ stream logs) in H. rewrite <- app_assoc in H. destruct (rt_log_inj _ _ _ _ H) as [-> H2].
      destruct (IH logs ps q H2) as (k & -> & -> & L). exists (S k). split; [reflexivity |]. split; [reflexivity | cbn [length]; lia].
Qed.
Lemma paired_fun : forall cs (a b : list (list T)), paired cs a -> paired cs b -> a = b.
Proof.
  fix IH 1. intros [| x [| y cs]] [| l a] [| m b] H1 H2; try contradiction; [reflexivity |]. cbn [paired] in *. destruct H1 as [A1 A2], H2 as [B1 B2].
  assert (E : rt_log l ++ [] = rt_log m ++ []) by congruence. destruct (rt_log_inj _ _ _ _ E) as [-> _]. f_equal. eapply IH; eauto.
Qed.

(** A full buffer without an end mark *)
Definition stuck (r : ring) : Prop := r_cap r <= length (r_q r) /\ (exists ps, r_q r = map MPart ps).
Lemma stuck_step (r : ring) o : ok r -> stuck r -> exists r' out, lstep r o = Some (r', out) /\ ok r' /\ stuck r' /\ r_q r' = r_q r /\ calls [out] = [].
Proof.
  intros H [S1 (ps & S2)]. destruct (lstep_ok r o H) as (r' & out & logs & E & O & C & P & Q). exists r', out. split; [exact E |]. split; [exact O |].
  assert (X : r_q r' = r_q r /\ calls [out] = []).
  { destruct o as [m | |]; cbn [lstep] in E.
    - unfold send in E. destruct (Nat.ltb_spec (length (r_q r)) (r_cap r)); [lia |]. injection E as <- <-. split; reflexivity.
    - injection E as <- <-. split; [destruct (r_chunk r); reflexivity | reflexivity].
    - destruct (commit r) as [[r2 cs] |] eqn:Ec; cbn [bind fst snd] in E; [| discriminate]. injection E as -> <-. cbn [kept flat_map app] in Q. rewrite app_nil_r in Q. rewrite S2 in Q.
      destruct logs as [| l logs]; [split; [rewrite S2; symmetry; exact Q |]; cbn [calls flat_map] in *; rewrite app_nil_r in *; destruct cs as [| a [| b cs]]; [reflexivity | destruct P | destruct P] |].
      change (stream (l :: logs)) with (rt_log l ++ stream logs) in Q. rewrite <- app_assoc in Q. exfalso. exact (parts_no_end _ _ _ Q). }
  destruct X as [X1 X2]. split; [| split; assumption]. split; [rewrite C, X1; exact S1 | exists ps; rewrite X1; exact S2].
Qed.
Lemma stuck_run : forall ops (r : ring), ok r -> stuck r -> exists r' outs, lrun r ops = Some (r', outs) /\ r_q r' = r_q r /\ calls outs = [] /\ kept outs = [].
Proof.
  induction ops as [| o ops IH]; intros r O S; cbn [lrun]; [exists r, []; auto |].
  destruct (stuck_step r o O S) as (r1 & out & E1 & O1 & S1 & Q1 & C1). rewrite E1. cbn [bind fst snd]. destruct (IH r1 O1 S1) as (r2 & outs & E2 & Q2 & C2 & K2). rewrite E2. cbn [bind fst snd].
  exists r2, (out :: outs). split; [reflexivity |]. split; [congruence |].
  assert (K1 : kept [out] = []).
  { destruct o as [m | |]; cbn [lstep] in E1; [| injection E1 as <- <-; reflexivity | destruct (commit r) as [[r3 cs] |]; cbn [bind] in E1; [injection E1 as <- <-; reflexivity | discriminate]].
    unfold send in E1. destruct S as [S _]. destruct (Nat.ltb_spec (length (r_q r)) (r_cap r)); [lia |]. injection E1 as <- <-. reflexivity. }
  unfold calls, kept in *. cbn [flat_map] in *. rewrite app_nil_r in C1, K1. rewrite C1, K1, C2, K2. split; reflexivity.
Qed.

End Log.
