(** C26 and C27: sample-accurate changes, processing in parts. *)
From Verif Require Import Base BlockModel PreciseModel PreciseSpec PreciseProofs.
Local Open Scope nat_scope.

(** * C27 *)
(** Processing in consecutive partial calls of any lengths is the same as processing in one call: same output block (and
    same panics), same final state. *)
Theorem C27_parts_are_whole : forall F V St (zero : F) (u : ugen F V St) parts st ib iv ob ov,
  in_parts zero u parts 0 st ib iv ob ov = ugen_block zero u (mk_meta 0 (list_sum parts)) st ib iv ob ov.
Proof. intros. rewrite parts_whole. reflexivity. Qed.
Print Assumptions C27_parts_are_whole.

Lemma timed_identity : forall F V St (zero : F) (u : ugen F V St), (forall i v st, u_apply u i v st = st) ->
  forall n t l st ib iv ob ov, timed zero u n t l st ib iv ob ov = frames zero u n t st ib iv ob ov.
Proof.
  intros F V St zero u Hid.
  assert (A : forall l st, apply_all u l st = st).
  { induction l as [| c l IH]; intros st; [reflexivity |]. unfold apply_all in *. cbn [fold_left]. rewrite Hid. apply IH. }
  induction n as [| n IH]; intros; cbn [timed frames]; [reflexivity |]. rewrite A.
  destruct (read_frame zero ib iv t (u_ins u)); [| reflexivity]. cbn [bind].
  destruct (write_frame ob ov t (u_outs u) _); [| reflexivity]. cbn [bind]. apply IH.
Qed.
(** The wrapper's own splitting: with changes that change nothing, wherever they split the block, the wrapped UGen's block
    and final state are those of the UGen without the wrapper. *)
Theorem C27_wrapper_splits : forall F V St (zero : F) (u : ugen F V St) slots bs es st ib ob tp,
  (forall i v st, u_apply u i v st = st) -> 0 < bs -> block_ok u bs slots es -> offsets_stated tp es ->
  option_map (fun r => (p_st (fst r), snd r))
    (p <- precise_events u (precise_new u slots st) es ;; precise_block zero u (mk_meta 0 bs) p ib [] ob []) =
  ugen_block zero u (mk_meta 0 bs) st ib [] ob [].
Proof.
  intros F V St zero u slots bs es st ib ob tp Hid Hbs B O.
  destruct (block_spec zero u tp slots bs es (precise_new u slots st) ib ob Hbs) as (p1 & E & R); try assumption.
  { split; [apply repeat_length |]. split; [apply repeat_length |].
    intros i _ Hi. cbn. apply nth_error_repeat. exact Hi. }
  { reflexivity. }
  rewrite E. cbn [bind]. rewrite timed_identity in R by exact Hid. cbn [precise_new p_st] in R.
  unfold ugen_block. cbn [m_frames].
  destruct (frames zero u bs 0 st ib [] ob []) as [[st' ob'] |].
  - destruct R as (p2 & R & S1 & _). rewrite R. cbn [option_map fst snd]. rewrite S1. reflexivity.
  - rewrite R. reflexivity.
Qed.
Print Assumptions C27_wrapper_splits.

(** A ramp: parameter 0 is the step, parameter 1 sets the value; the output is the value plus the input. *)
Definition ramp : ugen Z Z (Z * Z) :=
  mk_ugen 1 1 2 (fun st x => ((fst st + snd st, snd st)%Z, fun _ => (fst st + x O)%Z))
    (fun i v st => match i with O => (fst st, v) | _ => (v, snd st) end).
Definition ramp_in : block Z := mk_block true [100;200;300;400;500;600;700;800]%Z 1 8.
Definition ramp_out : block Z := block_new 0%Z true 1 8.
Example C27_example :
  ugen_block 0%Z ramp (mk_meta 0 8) (0, 1)%Z ramp_in [] ramp_out [] =
    Some ((8, 1)%Z, mk_block true [100;201;302;403;504;605;706;807]%Z 1 8) /\
  in_parts 0%Z ramp [3;1;4] 0 (0, 1)%Z ramp_in [] ramp_out [] =
    Some ((8, 1)%Z, mk_block true [100;201;302;403;504;605;706;807]%Z 1 8).
Proof. vm_compute. split; reflexivity. Qed.

(** * C26 *)
(** Changes in time order, at most [slots] with an offset per block, and each parameter always or never changed with an
    offset: in every block of a run, each change takes effect exactly at its frame, and none is lost. *)
Theorem C26_on_time_partial : forall F V St (zero : F) (u : ugen F V St) slots bs tp l st ob,
  0 < bs -> (forall es ib, In (es, ib) l -> block_ok u bs slots es /\ offsets_stated tp es) ->
  option_map (fun r => (p_st (fst r), snd r)) (precise_run zero u bs (precise_new u slots st) l ob) =
  ideal_run zero u bs st l ob.
Proof.
  intros F V St zero u slots bs tp l st ob Hbs Hl.
  rewrite (run_spec zero u tp slots bs l (precise_new u slots st) ob Hbs); [reflexivity | | reflexivity | exact Hl].
  split; [apply repeat_length |]. split; [apply repeat_length |].
  intros i _ Hi. cbn. apply nth_error_repeat. exact Hi.
Qed.
Print Assumptions C26_on_time_partial.

Definition ev (delay : N) (index : nat) (value : Z) : event Z := (delay, index, value).
Definition ramp_events : list (list (event Z) * block Z) :=
  [([ev 2 0 10; ev 0 1 7; ev 5 0 (-1)], ramp_in); ([ev 3 0 2], ramp_in)].
Example C26_example :
  (forall es ib, In (es, ib) ramp_events -> block_ok ramp 8 2 es /\ offsets_stated (fun i => i =? 0) es) /\
  option_map snd (precise_run 0%Z ramp 8 (precise_new ramp 2 (0, 1)%Z) ramp_events ramp_out) =
    Some [mk_block true [107;208;309;419;529;639;738;837]%Z 1 8; mk_block true [136;235;334;433;535;637;739;841]%Z 1 8] /\
  ideal_run 0%Z ramp 8 (0, 1)%Z ramp_events ramp_out =
    Some ((43, 2)%Z, [mk_block true [107;208;309;419;529;639;738;837]%Z 1 8; mk_block true [136;235;334;433;535;637;739;841]%Z 1 8]).
Proof.
  split.
  - intros es ib [H | [H | []]]; injection H as <- <-.
    + split.
      * split; [cbn; lia |]. split; [cbn; lia |].
        intros d i v H. cbn in H. destruct H as [H | [H | [H | []]]]; injection H as <- <- <-; cbn; lia.
      * intros d i v H. cbn in H. destruct H as [H | [H | [H | []]]]; injection H as <- <- <-; reflexivity.
    + split.
      * split; [cbn; lia |]. split; [cbn; lia |].
        intros d i v H. cbn in H. destruct H as [H | []]; injection H as <- <- <-; cbn; lia.
      * intros d i v H. cbn in H. destruct H as [H | []]; injection H as <- <- <-; reflexivity.
  - vm_compute. split; reflexivity.
Qed.

(** A change without an offset, for a parameter that earlier got a change with offset 5, only takes effect at frame 5: the
    offset is never reset. *)
Definition sticky_events : list (list (event Z) * block Z) := [([ev 5 1 0], ramp_in); ([ev 0 1 0], ramp_in)].
Theorem C26_no_offset_at_block_start_refuted :
  (forall es ib, In (es, ib) sticky_events -> block_ok ramp 8 2 es) /\
  option_map snd (precise_run 0%Z ramp 8 (precise_new ramp 2 (0, 1)%Z) sticky_events ramp_out) <>
  option_map snd (ideal_run 0%Z ramp 8 (0, 1)%Z sticky_events ramp_out) /\
  option_map (fun r => nth_error (snd r) 1) (precise_run 0%Z ramp 8 (precise_new ramp 2 (0, 1)%Z) sticky_events ramp_out) =
    Some (Some (mk_block true [103;204;305;406;507;600;701;802]%Z 1 8)) /\
  option_map (fun r => nth_error (snd r) 1) (ideal_run 0%Z ramp 8 (0, 1)%Z sticky_events ramp_out) =
    Some (Some (mk_block true [100;201;302;403;504;605;706;807]%Z 1 8)).
Proof.
  split.
  - intros es ib [H | [H | []]]; injection H as <- <-; (split; [cbn; lia |]; split; [cbn; lia |]);
      intros d i v H; cbn in H; destruct H as [H | []]; injection H as <- <- <-; cbn; lia.
  - vm_compute. split; [discriminate | split; reflexivity].
Qed.
Print Assumptions C26_no_offset_at_block_start_refuted.

(** Two changes given out of time order: the earlier one is only applied after the later one. *)
Definition unordered_events : list (list (event Z) * block Z) := [([ev 5 0 0; ev 2 1 0], ramp_in)].
Theorem C26_out_of_order_refuted :
  offsets_stated (fun _ => true) [ev 5 0 0; ev 2 1 0] /\
  option_map snd (precise_run 0%Z ramp 8 (precise_new ramp 2 (0, 1)%Z) unordered_events ramp_out) =
    Some [mk_block true [100;201;302;403;504;600;700;800]%Z 1 8] /\
  option_map snd (ideal_run 0%Z ramp 8 (0, 1)%Z unordered_events ramp_out) =
    Some [mk_block true [100;201;300;401;502;603;703;803]%Z 1 8].
Proof.
  split.
  - intros d i v [H | [H | []]]; injection H as <- <- <-; reflexivity.
  - vm_compute. split; reflexivity.
Qed.
Print Assumptions C26_out_of_order_refuted.

(** Processing one sample at a time (a block of one frame): the count of delayed changes is never reset, so that with room
    for one change per block, the second change is lost although it is the only one for its sample. *)
Definition per_sample (ps : precise Z (Z * Z)) (es : list (event Z)) : option (precise Z (Z * Z)) :=
  p <- precise_events ramp ps es ;; Some (fst (precise_process ramp p (fun _ => 0%Z))).
Theorem C26_per_sample_lost_refuted :
  option_map (fun p => p_st p)
    (p <- per_sample (precise_new ramp 1 (0, 1)%Z) [ev 1 0 10] ;; per_sample p [ev 1 0 20]) = Some (20, 10)%Z.
Proof. vm_compute. reflexivity. Qed.
Print Assumptions C26_per_sample_lost_refuted.

(** One sample at a time: if nothing waits and there is room for the changes, all of them are made before the sample, in
    the order in which they came.  Partial: only with room for them (the count is never reset, see above). *)
Theorem C26_per_sample_partial : forall F V St (u : ugen F V St) (p : precise V St) es x,
  Forall (fun w => w = None) (p_wait p) -> p_n p + length es <= length (p_wait p) -> length (p_delay p) = u_params u ->
  Forall (fun e => (0 < fst (fst e))%N /\ snd (fst e) < u_params u) es ->
  exists p1, precise_events u p es = Some p1 /\
    let want := u_process u (fold_left (fun st e => u_apply u (snd (fst e)) (snd e) st) es (p_st p)) x in
    p_st (fst (precise_process u p1 x)) = fst want /\ snd (precise_process u p1 x) = snd want /\
    Forall (fun w => w = None) (p_wait (fst (precise_process u p1 x))).
Proof.
  intros F V St u p es x Hw Hr Hd He.
  assert (T0 : forall a, Forall (fun w : option (N * nat * V) => w = None) a -> forall b st, take_all u (a ++ b) st = take_all u b st).
  { induction 1 as [|w a -> _ IH]; intros b st; [reflexivity|]. cbn. apply IH. }
  assert (T1 : forall es st b, take_all u (map Some es ++ b) st = take_all u b (fold_left (fun st e => u_apply u (snd (fst e)) (snd e) st) es st)).
  { induction es0 as [|[[d i] v] es0 IH]; intros st b; [reflexivity|]. cbn. apply IH. }
  assert (P : forall (a : list (option (N * nat * V))) w y b, set_nth (a ++ w :: b) (length a) y = Some (a ++ y :: b)).
  { induction a as [|h a IH]; intros w y b; [reflexivity|]. cbn. rewrite IH. reflexivity. }
  assert (G : forall es done q a b, p_wait q = a ++ map Some done ++ b -> Forall (fun w => w = None) a -> Forall (fun w => w = None) b ->
    p_n q = length a + length done -> length es <= length b -> length (p_delay q) = u_params u ->
    Forall (fun e => (0 < fst (fst e))%N /\ snd (fst e) < u_params u) es ->
    exists q' b', precise_events u q es = Some q' /\ p_st q' = p_st q /\ p_wait q' = a ++ map Some (done ++ es) ++ b' /\ Forall (fun w => w = None) b').
  { clear. induction es as [|[[d i] v] es IH]; intros done q a b Hq Ha Hb Hn Hl Hd He.
    { exists q, b. rewrite app_nil_r. repeat split; assumption. }
    inversion He as [|? ? [H1 H2] He']; subst. cbn [fst snd] in H1, H2. destruct b as [|w b]; [cbn in Hl; lia|]. inversion Hb as [|? ? -> Hb']; subst.
    cbn [precise_events]. unfold precise_event, precise_set_delay. replace (0 <? d)%N with true by (symmetry; apply N.ltb_lt; exact H1).
    destruct (set_nth_some (p_delay q) i d) as (dl & Ed); [lia|]. rewrite Ed. cbn [bind]. unfold precise_apply. cbn [p_delay p_st p_wait p_n].
    assert (Gi : nth_error dl i = Some d).
    { clear -Ed. revert i dl Ed. induction (p_delay q) as [|h t IHt]; intros [|i] dl Ed; cbn in Ed; try discriminate; [injection Ed as <-; reflexivity|].
      destruct (set_nth t i d) as [t'|] eqn:E; [|discriminate]. injection Ed as <-. cbn. apply IHt, E. }
    rewrite Gi. cbn [bind]. replace (d =? 0)%N with false by (symmetry; apply N.eqb_neq; lia).
    assert (Ln : length (p_wait q) = length a + (length done + S (length b))) by (rewrite Hq, !app_length, map_length; reflexivity).
    replace (p_n q <? length (p_wait q)) with true by (symmetry; apply Nat.ltb_lt; lia).
    assert (Es : set_nth (p_wait q) (p_n q) (Some (d, i, v)) = Some (a ++ map Some (done ++ [(d, i, v)]) ++ b)).
    { rewrite Hq, Hn, map_app. cbn [map]. rewrite <- !app_assoc. cbn [app].
      assert (Q : forall (a : list (option (N * nat * V))) w y b, set_nth (a ++ w :: b) (length a) y = Some (a ++ y :: b)).
      { clear. induction a as [|h a IHa]; intros w y b; [reflexivity|]. cbn. rewrite IHa. reflexivity. }
      specialize (Q (a ++ map Some done) None (Some (d, i, v)) b). rewrite app_length, map_length, <- !app_assoc in Q. exact Q. }
    rewrite Es. cbn [bind].
    match goal with |- context [precise_events u ?q1 es] => destruct (IH (done ++ [(d, i, v)]) q1 a b) as (q' & b' & E & S1 & W1 & N1) end;
      [reflexivity|exact Ha|exact Hb'|cbn; rewrite app_length; cbn; lia|cbn in Hl; lia|cbn; rewrite (set_nth_length _ _ _ _ Ed); exact Hd|exact He'|].
    exists q', b'. split; [exact E|]. split; [exact S1|]. split; [|exact N1]. rewrite W1, <- app_assoc. reflexivity. }
  pose proof (firstn_skipn (p_n p) (p_wait p)) as Sp.
  assert (Hw2 := Hw). rewrite <- Sp in Hw2. apply Forall_app in Hw2 as (Ha & Hb).
  destruct (G es [] p (firstn (p_n p) (p_wait p)) (skipn (p_n p) (p_wait p))) as (q & b' & E & S1 & W1 & N1);
    [cbn; symmetry; exact Sp|exact Ha|exact Hb|rewrite firstn_length; cbn; lia|rewrite skipn_length; lia|exact Hd|exact He|].
  exists q. split; [exact E|]. cbn zeta. unfold precise_process. cbn [fst snd p_st p_wait]. rewrite W1, S1. cbn [app].
  rewrite (T0 _ Ha), T1. rewrite <- (app_nil_r b'), (T0 _ N1). cbn [take_all]. split; [reflexivity|]. split; [reflexivity|].
  apply Forall_map. apply Forall_forall. reflexivity.
Qed.
Print Assumptions C26_per_sample_partial.
(** Two changes of the same parameter for one sample: the later one holds. *)
Example C26_per_sample_case : Forall (fun w => w = None) (p_wait (precise_new ramp 2 (0, 1)%Z)) /\ length (p_delay (precise_new ramp 2 (0, 1)%Z)) = u_params ramp /\
  Forall (fun e : event Z => (0 < fst (fst e))%N /\ snd (fst e) < u_params ramp) [ev 1 0 10; ev 1 0 20] /\
  option_map (fun p => p_st p) (per_sample (precise_new ramp 2 (0, 1)%Z) [ev 1 0 10; ev 1 0 20]) =
  option_map (fun p => p_st p) (per_sample (precise_new ramp 2 (0, 1)%Z) [ev 1 0 20]) /\
  option_map (fun p => p_st p) (per_sample (precise_new ramp 2 (0, 1)%Z) [ev 1 0 10; ev 1 0 20]) <>
  option_map (fun p => p_st p) (per_sample (precise_new ramp 2 (0, 1)%Z) [ev 1 0 20; ev 1 0 10]).
Proof. split; [repeat constructor|]. split; [reflexivity|]. split; [repeat constructor|]. split; [vm_compute; reflexivity|]. vm_compute. discriminate. Qed.
