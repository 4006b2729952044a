(** C77: an edit neither blocks nor aborts the program *)
From Verif Require Import Base GraphModel HandleModel OutModel OutProps LockModel LockSpec.
Local Open Scope nat_scope.
Local Notation length := List.length.

Lemma lock_own ls : lock_at (ls ++ [Free]) (length ls) = Free.
Proof. unfold lock_at. rewrite app_nth2 by lia. rewrite Nat.sub_diag. reflexivity. Qed.
Lemma put_own ls l : put (ls ++ [Free]) (length ls) l = ls ++ [l].
Proof.
  unfold put. rewrite firstn_app, Nat.sub_diag, firstn_O, app_nil_r, firstn_all. f_equal. rewrite skipn_app, Nat.sub_diag, skipn_all. reflexivity.
Qed.
Lemma put_own' ls l m : put (ls ++ [m]) (length ls) l = ls ++ [l].
Proof. unfold put. rewrite firstn_app, Nat.sub_diag, firstn_O, app_nil_r, firstn_all. f_equal. rewrite skipn_app, Nat.sub_diag, skipn_all. reflexivity. Qed.
Lemma lock_outer d i : i < d -> lock_at (repeat Writing d ++ [Free]) i = Writing.
Proof. intros H. unfold lock_at. rewrite app_nth1 by (rewrite repeat_length; exact H). revert d H. induction i as [| i IH]; intros [| d] H; cbn; [lia | reflexivity | lia | apply IH; lia]. Qed.

(** A closure at depth [d] runs with all outer locks held. *)
Lemma exec_spec : forall p d, scoped d p ->
  match trouble d p with
  | None => exec (repeat Writing d ++ [Free]) p = (repeat Writing d ++ [Free], Done)
  | Some Outer => snd (exec (repeat Writing d ++ [Free]) p) = Stuck
  | Some (Fails e w) => (e = d /\ exec (repeat Writing d ++ [Free]) p = (repeat Writing d ++ [if w then Poisoned else Free], Panicked)) \/
      (d < e /\ (snd (exec (repeat Writing d ++ [Free]) p) = Aborted \/ exec (repeat Writing d ++ [Free]) p = (repeat Writing d ++ [Poisoned], Panicked)))
  end.
Proof.
  induction p as [| | i w b next IH | i body IHb cp next IHn]; intros d S; cbn [trouble exec scoped] in *.
  - reflexivity.
  - left. split; reflexivity.
  - destruct S as [Hi S]. destruct (Nat.eqb_spec i d) as [-> | Hn]; cbn [negb].
    + pose proof (lock_own (repeat Writing d)) as L. rewrite repeat_length in L. rewrite L. destruct b; [| exact (IH d S)].
      left. split; [reflexivity |]. destruct w; [| reflexivity]. pose proof (put_own (repeat Writing d) Poisoned) as P. rewrite repeat_length in P. rewrite P. reflexivity.
    + rewrite lock_outer by lia. reflexivity.
  - destruct S as (Hi & Sb & Sn). destruct (Nat.eqb_spec i d) as [-> | Hn]; cbn [negb]; [| rewrite lock_outer by lia; reflexivity].
    pose proof (lock_own (repeat Writing d)) as L. rewrite repeat_length in L. rewrite L.
    assert (P : forall l m, put (repeat Writing d ++ [m]) d l = repeat Writing d ++ [l]) by (intros l m; pose proof (put_own' (repeat Writing d) l m) as Q; rewrite repeat_length in Q; exact Q).
    rewrite P. assert (R : repeat Writing d ++ [Writing] = repeat Writing (S d)) by (symmetry; apply repeat_cons). rewrite R.
    specialize (IHb (S d) Sb). specialize (IHn d Sn).
    destruct (trouble (S d) body) as [[| e w] |].
    + destruct (exec (repeat Writing (S d) ++ [Free]) body) as [ls o]. cbn [fst snd] in *. subst o. reflexivity.
    + destruct IHb as [(-> & E) | (He & E)].
      * rewrite E. cbn [fst snd]. rewrite removelast_last, last_last. right. split; [lia |]. destruct w; cbn [drop_edit]; [left; reflexivity |].
        destruct cp; [left; reflexivity | right; rewrite <- R, P; reflexivity].
      * right. split; [lia |]. destruct E as [E | E].
        -- destruct (exec (repeat Writing (S d) ++ [Free]) body) as [ls o]. cbn [fst snd] in *. subst o. left. reflexivity.
        -- rewrite E. cbn [fst snd]. rewrite removelast_last, last_last. left. reflexivity.
    + rewrite IHb. cbn [fst snd]. rewrite removelast_last, last_last. cbn [drop_edit]. destruct cp.
      * right. split; [lia |]. right. rewrite <- R, P. reflexivity.
      * rewrite <- R, P. exact IHn.
Qed.

(** Every edit, exactly: it is complete if nothing goes wrong; it never returns if the edit around a subgraph is used inside the
    closure of that subgraph; a panic leaves the call to [edit] (so that the caller can go on) only if it happens in the outermost
    closure without the lock held for writing, or in the final commit; every other panic - inside any method that writes, or
    anywhere within a subgraph - ends the process. *)
Theorem C77_exactly : forall p commit_panics, scoped 0 p -> edit p commit_panics =
  match trouble 0 p with
  | None => if commit_panics then Panicked else Done
  | Some Outer => Stuck
  | Some (Fails 0 false) => if commit_panics then Aborted else Panicked
  | Some (Fails _ _) => Aborted
  end.
Proof.
  intros p cp S. unfold edit. pose proof (exec_spec p 0 S) as H. cbn [repeat app] in H. destruct (trouble 0 p) as [[| e w] |].
  - destruct (exec [Free] p) as [ls o]. cbn [fst snd] in *. subst o. reflexivity.
  - destruct H as [(-> & E) | (He & E)].
    + rewrite E. destruct w, cp; reflexivity.
    + destruct e as [| e]; [lia |]. destruct E as [E | E]; [| rewrite E; reflexivity].
      destruct (exec [Free] p) as [ls o]. cbn [fst snd] in *. subst o. reflexivity.
  - rewrite H. destruct cp; reflexivity.
Qed.
Print Assumptions C77_exactly.

(** Two calls and a subgraph with two calls of its own *)
Example C77_case : let p := PCall 0 true false (PSub 0 (PCall 1 true false (PCall 1 false false PEnd)) false (PCall 0 true false PEnd)) in
  scoped 0 p /\ edit p false = Done.
Proof. split; [cbn; repeat split; lia | vm_compute; reflexivity]. Qed.
(** The call of [C76_too_many_refuted]: a handle with two channels sent to the outputs of a graph that has one. The process is gone,
    with the audio it plays. *)
Theorem C77_abort_refuted : edit (PCall 0 true (match send_static_all true one_out both with None => true | Some _ => false end) PEnd) false = Aborted.
Proof. vm_compute. reflexivity. Qed.
Print Assumptions C77_abort_refuted.
(** A panic of the user's own code in the closure of a subgraph has the same effect, although it unwinds from an outermost closure. *)
Theorem C77_subgraph_abort_refuted : edit (PSub 0 PPanic false PEnd) false = Aborted /\ edit PPanic false = Panicked.
Proof. split; vm_compute; reflexivity. Qed.
Print Assumptions C77_subgraph_abort_refuted.
(** Pushing a node to the graph around a subgraph, in the closure of that subgraph, never returns. *)
Theorem C77_block_refuted : edit (PSub 0 (PCall 1 true false (PCall 0 true false PEnd)) false PEnd) false = Stuck.
Proof. vm_compute. reflexivity. Qed.
Print Assumptions C77_block_refuted.
