(** C29: audio-rate parameters. *)
From Verif Require Import Base BlockModel PreciseModel PreciseProofs PreciseProps ArModel ArSpec.
Local Open Scope nat_scope.

Section Proofs.
Context {F V St : Type}.
Variable zero : F.
Variable u : ugen F V St.
Variable to_value : F -> V.

Definition tracks (l : links) (a : arparams St) : Prop :=
  length (a_bufs a) = u_params u /\ forall i, i < u_params u -> nth_error (a_bufs a) i = Some (l i).

Lemma ar_params_app : forall mem b1 b2 p k st,
  ar_params u to_value mem p (b1 ++ b2) k st = ar_params u to_value mem (p + length b1) b2 k (ar_params u to_value mem p b1 k st).
Proof.
  induction b1 as [| b b1 IH]; intros b2 p k st; cbn [app ar_params length].
  - rewrite Nat.add_0_r. reflexivity.
  - rewrite IH. replace (S p + length b1) with (p + S (length b1)) by lia. reflexivity.
Qed.
Lemma drive_spec : forall mem l n bufs k st, length bufs = n -> (forall i, i < n -> nth_error bufs i = Some (l i)) ->
  ar_params u to_value mem 0 bufs k st = drive u to_value mem l n k st.
Proof.
  induction n as [| n IH]; intros bufs k st Hl Hb.
  - destruct bufs; [reflexivity | discriminate].
  - destruct (exists_last (l := bufs)) as (b1 & b & E). { intros ->. discriminate. }
    subst bufs. rewrite app_length in Hl. cbn [length] in Hl. rewrite ar_params_app. cbn [drive ar_params Nat.add].
    rewrite (IH b1).
    + replace (length b1) with n by lia.
      specialize (Hb n ltac:(lia)). rewrite nth_error_app2 in Hb by lia. replace (n - length b1) with 0 in Hb by lia.
      injection Hb as ->. reflexivity.
    + lia.
    + intros i Hi. specialize (Hb i ltac:(lia)). rewrite nth_error_app1 in Hb by lia. exact Hb.
Qed.
Lemma calls_spec : forall cs l a, tracks l a -> calls_ok u cs ->
  exists a', ar_calls u a cs = Some a' /\ tracks (fst (ideal_calls u l (a_st a) cs)) a' /\
    a_st a' = snd (ideal_calls u l (a_st a) cs) /\ a_index a' = a_index a.
Proof.
  induction cs as [| c cs IH]; intros l a [T1 T2] Hc.
  - exists a. cbn. repeat split; auto.
  - assert (Hc' : calls_ok u cs) by (intros c' H; apply (Hc c'); right; exact H).
    specialize (Hc c (or_introl eq_refl)). destruct c as [i v | i p]; cbn [ar_calls ar_call ideal_calls].
    + unfold ar_apply. rewrite (T2 i Hc). cbn [bind]. destruct (l i) as [p |]; cbn [bind].
      * apply IH; [split; assumption | exact Hc'].
      * destruct (IH l (mk_ar (u_apply u i v (a_st a)) (a_bufs a) (a_index a))) as (a' & A & B & C & D); [split; assumption | exact Hc' |].
        exists a'. repeat split; assumption || apply B.
    + unfold ar_set_buffer. destruct (set_nth_some (a_bufs a) i (Some p) ltac:(lia)) as [bufs E]. rewrite E. cbn [bind].
      destruct (IH (fun j => if j =? i then Some p else l j) (mk_ar (a_st a) bufs (a_index a))) as (a' & A & B & C & D); [| exact Hc' |].
      { split; cbn [a_bufs]; [rewrite (set_nth_length _ _ _ _ E); exact T1 |].
        intros j Hj. destruct (Nat.eqb_spec j i) as [-> | N].
        - apply (set_nth_same _ _ _ _ E).
        - rewrite (set_nth_other _ _ _ _ _ E) by lia. apply T2. exact Hj. }
      exists a'. repeat split; assumption || apply B.
Qed.

Lemma frames_spec : forall mem bs n k l a ib ob, tracks l a -> a_index a = k mod bs -> k + n <= bs ->
  match ideal_frames zero u to_value mem l n k (a_st a) ib ob with
  | None => frames zero (ar_ugen u to_value mem bs) n k a ib [] ob [] = None
  | Some (st, ob') => exists a', frames zero (ar_ugen u to_value mem bs) n k a ib [] ob [] = Some (a', ob') /\
      a_st a' = st /\ tracks l a' /\ a_index a' = (k + n) mod bs
  end.
Proof.
  induction n as [| n IH]; intros k l a ib ob T Hi Hn; cbn [ideal_frames frames].
  - exists a. rewrite Nat.add_0_r. repeat split; try assumption; apply T.
  - cbn [ar_ugen u_ins u_outs u_process].
    destruct (read_frame zero ib [] k (u_ins u)) as [x |]; [| reflexivity]. cbn [bind].
    unfold ar_process. cbn [fst snd].
    assert (K : a_index a = k) by (rewrite Hi; apply Nat.mod_small; lia).
    rewrite (drive_spec mem l (u_params u) (a_bufs a) (a_index a) (a_st a) (proj1 T) (proj2 T)). rewrite K.
    destruct (write_frame ob [] k (u_outs u) _) as [ob1 |]; [| reflexivity]. cbn [bind].
    set (a1 := mk_ar _ _ _).
    specialize (IH (k + 1) l a1 ib ob1). cbn [a1 a_st] in IH.
    replace (k + S n) with (k + 1 + n) by lia.
    apply IH; [exact T | reflexivity | lia].
Qed.
Lemma ar_parts_in_parts : forall mem bs parts start a ib ob,
  ar_parts zero u to_value mem bs parts start a ib ob = frames zero (ar_ugen u to_value mem bs) (list_sum parts) start a ib [] ob [].
Proof.
  induction parts as [| n parts IH]; intros; [reflexivity |].
  cbn [ar_parts]. unfold ugen_block. cbn [m_frames make_partial]. rewrite frames_window.
  change (list_sum (n :: parts)) with (n + list_sum parts). rewrite frames_app. cbn [Nat.add].
  destruct (frames zero (ar_ugen u to_value mem bs) n start a ib [] ob []) as [[a1 ob1] |]; [| reflexivity]. cbn [bind fst snd]. apply IH.
Qed.
Lemma ar_run_spec : forall bs bl l a ob, 0 < bs -> tracks l a -> a_index a = 0 -> (forall b, In b bl -> arblock_ok u bs b) ->
  option_map (fun r => (a_st (fst r), snd r)) (ar_run zero u to_value bs a bl ob) = ideal_ar_run zero u to_value bs l (a_st a) bl ob.
Proof.
  induction bl as [| b bl IH]; intros l a ob Hbs T Hi Hb; [reflexivity |].
  cbn [ar_run ideal_ar_run].
  destruct (Hb b (or_introl eq_refl)) as [Hc Hp].
  destruct (calls_spec (ab_calls b) l a T Hc) as (a1 & A & B & C & D). rewrite A. cbn [bind].
  rewrite ar_parts_in_parts, Hp. rewrite <- C.
  pose proof (frames_spec (ab_mem b) bs bs 0 _ a1 (ab_in b) ob B) as Q.
  rewrite D, Hi, Nat.mod_0_l in Q by lia. specialize (Q eq_refl (le_n _)).
  destruct (ideal_frames zero u to_value (ab_mem b) _ bs 0 (a_st a1) (ab_in b) ob) as [[st ob'] |].
  - destruct Q as (a2 & Q1 & Q2 & Q3 & Q4). rewrite Q1. cbn [bind fst snd].
    rewrite Nat.add_0_l, Nat.mod_same in Q4 by lia.
    specialize (IH _ a2 ob Hbs Q3 Q4 (fun b H => Hb b (or_intror H))). rewrite Q2 in IH. rewrite <- IH.
    destruct (ar_run zero u to_value bs a2 bl ob) as [[a3 obs] |]; reflexivity.
  - rewrite Q. reflexivity.
Qed.
Lemma new_tracks : forall st, tracks (fun _ => None) (ar_new u st).
Proof. intros st. split; [apply repeat_length |]. intros i Hi. cbn. apply nth_error_repeat. exact Hi. Qed.
End Proofs.

(** In every block of a run (with any calls before the blocks, any division of the blocks into parts): at frame [k] each
    driven parameter has been given sample [k] of its signal's current block, and ordinary sets of a driven parameter are
    ignored, of others not. *)
Theorem C29_matching_sample : forall F V St (zero : F) (u : ugen F V St) to_value bs bl st ob,
  0 < bs -> (forall b, In b bl -> arblock_ok u bs b) ->
  option_map (fun r => (a_st (fst r), snd r)) (ar_run zero u to_value bs (ar_new u st) bl ob) =
  ideal_ar_run zero u to_value bs (fun _ => None) st bl ob.
Proof.
  intros. rewrite (ar_run_spec zero u to_value bs bl (fun _ => None) (ar_new u st) ob); try assumption; try reflexivity.
  apply new_tracks.
Qed.
Print Assumptions C29_matching_sample.

(** The raw pointer read is always within the block: the index is always smaller than the block size. *)
Theorem C29_read_in_bounds : forall F V St (zero : F) (u : ugen F V St) to_value bs mem n f a ib iv ob ov r,
  0 < bs -> a_index a < bs -> frames zero (ar_ugen u to_value mem bs) n f a ib iv ob ov = Some r -> a_index (fst r) < bs.
Proof.
  intros F V St zero u to_value bs mem n. induction n as [| n IH]; intros f a ib iv ob ov r Hbs Ha H; cbn [frames] in H.
  - injection H as <-. exact Ha.
  - cbn [ar_ugen u_ins u_outs u_process] in H.
    destruct (read_frame zero ib iv f (u_ins u)) as [x |]; [| discriminate]. cbn [bind] in H.
    destruct (write_frame ob ov f (u_outs u) _) as [ob1 |]; [| discriminate]. cbn [bind] in H.
    apply IH in H; [exact H | exact Hbs |]. unfold ar_process. cbn [fst a_index]. apply Nat.mod_upper_bound. lia.
Qed.
Print Assumptions C29_read_in_bounds.

(** The ramp of [PreciseProps] with its step (parameter 0) driven by a signal; 2 blocks of 4 frames, the first in parts. *)
Definition ar_example : list (arblock Z Z) :=
  [mk_arblock [ArLink 0 7; ArApply 0 50%Z; ArApply 1 5%Z] [1; 3] (mk_block true [0;0;0;0]%Z 1 4) (fun p i => Z.of_nat (p + i));
   mk_arblock [ArApply 0 50%Z] [4] (mk_block true [0;0;0;0]%Z 1 4) (fun p i => Z.of_nat (100 * i))].
Example C29_example :
  (forall b, In b ar_example -> arblock_ok ramp 4 b) /\
  option_map (fun r => (a_st (fst r), snd r)) (ar_run 0%Z ramp (fun x => x) 4 (ar_new ramp (0, 1)%Z) ar_example (block_new 0%Z true 1 4)) =
  Some ((639, 300)%Z, [mk_block true [5;12;20;29]%Z 1 4; mk_block true [39;39;139;339]%Z 1 4]).
Proof.
  split.
  - intros b [<- | [<- | []]]; (split; [| reflexivity]); intros c H; cbn in H;
      repeat (destruct H as [<- | H]; [cbn; lia |]); destruct H.
  - vm_compute. reflexivity.
Qed.

(** Once driven, a parameter stays driven: no call of the wrapper undoes it, so that ordinary sets are ignored for ever. *)
Theorem C29_driven_for_ever : forall F V St (u : ugen F V St) (a a' : arparams St) cs i p,
  nth_error (a_bufs a) i = Some (Some p) -> ar_calls u a cs = Some a' -> exists p', nth_error (a_bufs a') i = Some (Some p').
Proof.
  intros F V St u a a' cs. revert a. induction cs as [| c cs IH]; intros a i p H E; cbn [ar_calls] in E.
  - injection E as <-. exists p. exact H.
  - destruct (ar_call u a c) as [a1 |] eqn:C; [| discriminate]. cbn [bind] in E.
    assert (Q : exists p1, nth_error (a_bufs a1) i = Some (Some p1)).
    { destruct c as [j v | j q]; cbn [ar_call] in C.
      - unfold ar_apply in C. destruct (nth_error (a_bufs a) j) as [[q |] |] eqn:N; cbn [bind] in C; try discriminate C; injection C as <-; exists p; exact H.
      - unfold ar_set_buffer in C. destruct (set_nth (a_bufs a) j (Some q)) as [b |] eqn:N; [| discriminate]. cbn [bind] in C. injection C as <-. cbn [a_bufs].
        destruct (Nat.eq_dec j i) as [-> | D].
        + exists q. apply (set_nth_same _ _ _ _ N).
        + exists p. rewrite (set_nth_other _ _ _ _ _ N D). exact H. }
    destruct Q as [p1 Q]. apply (IH a1 i p1 Q E).
Qed.
Print Assumptions C29_driven_for_ever.
