From Flocq Require Import BinarySingleNaN.
From Verif Require Import Base FloatBase MathModel MathSpec MathProofs EnvModel BufferModel PlayModel SplitModel SplitSpec.
Open Scope nat_scope.

Section Parts.
Context {F P T : Type}.
Variable zero : F.
Notation frames := (MathSpec.frames zero).

Lemma cut_length : forall s n (ch : list F), s + n <= length ch -> length (cut s n ch) = n.
Proof. intros s n ch H. unfold cut. rewrite firstn_length, skipn_length. lia. Qed.
Lemma window_shape : forall c m s n (b : list (list F)), shape c m b -> s + n <= m -> shape c n (window s n b).
Proof.
  intros c m s n b [L A] H. split; [unfold window; rewrite map_length; exact L |]. unfold window. apply Forall_map. eapply Forall_impl; [| exact A].
  intros ch E. cbn beta in E. apply cut_length. lia.
Qed.
Lemma nth_window : forall k s n (b : list (list F)), nth k (window s n b) [] = cut s n (nth k b []).
Proof.
  intros k s n b. unfold window. destruct (Nat.lt_ge_cases k (length b)) as [H | H]; [apply (map_nth_in _ _ (cut s n) b k [] []); exact H |].
  rewrite !nth_overflow by (try rewrite map_length; exact H). unfold cut. rewrite skipn_nil, firstn_nil. reflexivity.
Qed.
Lemma skipn_more : forall A s n (l : list A), skipn n (skipn s l) = skipn (s + n) l.
Proof. intros A s. induction s; intros n [| x l]; cbn; try reflexivity; [apply skipn_nil | apply IHs]. Qed.
Lemma nth_skipn : forall A s (l : list A) j d, nth j (skipn s l) d = nth (s + j) l d.
Proof. intros A s. induction s; intros [| x l] j d; cbn; try reflexivity; [destruct j; reflexivity | apply IHs]. Qed.
Lemma nth_firstn : forall A n (l : list A) j d, j < n -> nth j (firstn n l) d = nth j l d.
Proof. intros A n. induction n; intros [| x l] j d H; cbn; try reflexivity; [lia |]. destruct j; [reflexivity |]. apply IHn. lia. Qed.
Lemma nth_cut : forall s n (ch : list F) j d, j < n -> nth j (cut s n ch) d = nth (s + j) ch d.
Proof. intros. unfold cut. rewrite nth_firstn by assumption. apply nth_skipn. Qed.
(** The frames of a window are those of the block *)
Lemma window_frames : forall c m s n (b : list (list F)), s + n <= m -> frames c n (window s n b) = firstn n (skipn s (frames c m b)).
Proof.
  intros c m s n b H. apply eq_nth with (d := []); rewrite frames_length.
  - rewrite firstn_length, skipn_length, frames_length. lia.
  - intros k K. rewrite nth_firstn by exact K. rewrite nth_skipn, !frames_nth by lia. apply map_ext_in. intros ch I. rewrite nth_window. apply nth_cut. exact K.
Qed.

Lemma put_length : forall s (b w : list (list F)), length (put s b w) = length b.
Proof. intros s b. induction b as [| ch b IH]; intros [| wc w]; cbn; try reflexivity. rewrite IH. reflexivity. Qed.
Lemma put_nth : forall s (b w : list (list F)) k, k < length b -> k < length w ->
  nth k (put s b w) [] = firstn s (nth k b []) ++ nth k w [] ++ skipn (s + length (nth k w [])) (nth k b []).
Proof.
  intros s b. induction b as [| ch b IH]; intros [| wc w] k Hb Hw; cbn [length] in *; try lia. destruct k as [| k]; [reflexivity |].
  cbn [put nth]. apply IH; lia.
Qed.
Lemma put_row : forall s n m (ch wc : list F) j d, length ch = m -> length wc = n -> s + n <= m -> j < m ->
  nth j (firstn s ch ++ wc ++ skipn (s + length wc) ch) d = if (s <=? j) && (j <? s + n) then nth (j - s) wc d else nth j ch d.
Proof.
  intros s n m ch wc j d L W H J. destruct (Nat.leb_spec s j) as [A | A]; cbn [andb].
  - rewrite app_nth2 by (rewrite firstn_length; lia). rewrite firstn_length, L, Nat.min_l by lia. destruct (Nat.ltb_spec j (s + n)) as [B | B].
    + rewrite app_nth1 by lia. reflexivity.
    + rewrite app_nth2 by lia. rewrite nth_skipn. f_equal. lia.
  - rewrite app_nth1 by (rewrite firstn_length; lia). apply nth_firstn. exact A.
Qed.
Lemma put_shape : forall c m s n (b w : list (list F)), shape c m b -> shape c n w -> s + n <= m -> shape c m (put s b w).
Proof.
  intros c m s n b w B W H. apply shape_intro; [rewrite put_length; exact (proj1 B) |].
  intros k K. rewrite put_nth by (try rewrite (proj1 B); try rewrite (proj1 W); exact K).
  pose proof (shape_nth c m b k B K). pose proof (shape_nth c n w k W K). rewrite !app_length, firstn_length, skipn_length. lia.
Qed.
Lemma put_cell : forall c m s n (b w : list (list F)) k j, shape c m b -> shape c n w -> s + n <= m -> k < c -> j < m ->
  nth j (nth k (put s b w) []) zero = if (s <=? j) && (j <? s + n) then nth (j - s) (nth k w []) zero else nth j (nth k b []) zero.
Proof.
  intros c m s n b w k j B W H K J. rewrite put_nth by (try rewrite (proj1 B); try rewrite (proj1 W); exact K).
  apply put_row with (m := m); [apply shape_nth with c; assumption | apply shape_nth with c; assumption | exact H | exact J].
Qed.
(** Blocks with the same frames are the same *)
Lemma frames_inj : forall c n (a b : list (list F)), shape c n a -> shape c n b -> frames c n a = frames c n b -> a = b.
Proof.
  intros c n a b A B H. apply eq_nth with (d := []); [rewrite (proj1 A), (proj1 B); reflexivity |]. intros k K. rewrite (proj1 A) in K.
  apply eq_nth with (d := zero); [rewrite (shape_nth c n a k A K), (shape_nth c n b k B K); reflexivity |]. intros j J. rewrite (shape_nth c n a k A K) in J.
  pose proof (f_equal (fun l => nth k (nth j l []) zero) H) as E. cbn beta in E. rewrite !frames_nth in E by exact J. rewrite !nth_seq_map in E by exact K. exact E.
Qed.
(** Frames before a place, from a block equal there *)
Lemma frames_split : forall c m s n (b w : list (list F)), shape c m b -> shape c n w -> s + n <= m ->
  firstn (s + n) (frames c m (put s b w)) = firstn s (frames c m b) ++ frames c n w /\ skipn (s + n) (frames c m (put s b w)) = skipn (s + n) (frames c m b).
Proof.
  intros c m s n b w B W H. split.
  - apply eq_nth with (d := []); [rewrite app_length, !firstn_length, !frames_length; lia |]. rewrite firstn_length, frames_length. intros j J.
    rewrite nth_firstn by lia. rewrite frames_nth by lia. destruct (Nat.lt_ge_cases j s) as [A | A].
    + rewrite app_nth1 by (rewrite firstn_length, frames_length; lia). rewrite nth_firstn by exact A. rewrite frames_nth by lia. apply map_ext_in. intros k K. apply in_seq in K.
      rewrite (put_cell c m s n) by (try assumption; lia). destruct (Nat.leb_spec s j); [lia | reflexivity].
    + rewrite app_nth2 by (rewrite firstn_length, frames_length; lia). rewrite firstn_length, frames_length, Nat.min_l by lia. rewrite frames_nth by lia.
      apply map_ext_in. intros k K. apply in_seq in K. rewrite (put_cell c m s n) by (try assumption; lia). destruct (Nat.leb_spec s j); [| lia]. destruct (Nat.ltb_spec j (s + n)); [reflexivity | lia].
  - apply eq_nth with (d := []); [rewrite !skipn_length, !frames_length; reflexivity |]. rewrite skipn_length, frames_length. intros j J.
    rewrite !nth_skipn. rewrite !frames_nth by lia. apply map_ext_in. intros k K. apply in_seq in K. rewrite (put_cell c m s n) by (try assumption; lia).
    destruct (Nat.ltb_spec (s + n + j) (s + n)); [lia |]. rewrite andb_false_r. reflexivity.
Qed.

Section Described.
Variable g : gen F P.
Variable pi : g_state g -> T.
Variable proc : T -> list F -> T * list F.
Variable param : T -> P -> T.
Hypothesis D : described zero g pi proc param.

Lemma params_ok : forall ps s, pi (fold_left (g_param g) ps s) = fold_left param ps (pi s).
Proof. induction ps as [| p ps IH]; intros s; cbn; [reflexivity |]. rewrite IH, (proj2 D). reflexivity. Qed.
Lemma parts_from : forall l s start i o m, start + total l = m -> shape (g_ins g) m i -> shape (g_outs g) m o ->
  let r := in_parts g s start l i o in let q := timed proc param (pi s) l (skipn start (frames (g_ins g) m i)) in
  pi (fst r) = fst q /\ shape (g_outs g) m (snd r) /\ frames (g_outs g) m (snd r) = firstn start (frames (g_outs g) m o) ++ snd q.
Proof.
  induction l as [| [ps n] l IH]; intros s start i o m H HI HO; cbn [in_parts timed total map list_sum fst snd] in *.
  - split; [reflexivity | split; [exact HO |]]. rewrite app_nil_r, firstn_all2; [reflexivity |]. rewrite frames_length. unfold total in H. cbn in H. lia.
  - unfold total in H. cbn [map snd] in H. change (list_sum (n :: map snd l)) with (n + list_sum (map snd l)) in H. change (list_sum (map snd l)) with (total l) in H.
    set (s1 := fold_left (g_param g) ps s).
    destruct (proj1 D s1 n (window start n i) (window start n o)) as [E1 [E2 E3]]; [apply window_shape with m; [assumption | lia] | apply window_shape with m; [assumption | lia] |].
    rewrite (window_frames _ m) in E1, E3 by lia. unfold s1 in E1 at 2, E3 at 2. rewrite params_ok in E1, E3. fold s1.
    destruct (IH (fst (g_block g s1 n (window start n i) (window start n o))) (start + n) i (put start o (snd (g_block g s1 n (window start n i) (window start n o)))) m) as [R1 [R2 R3]];
      [lia | exact HI | apply put_shape with n; [exact HO | exact E2 | lia] |].
    replace (skipn (start + n) (frames (g_ins g) m i)) with (skipn n (skipn start (frames (g_ins g) m i))) in R1, R3 by (apply skipn_more).
    rewrite E1 in R1, R3. split; [exact R1 | split; [exact R2 |]]. rewrite R3.
    rewrite (proj1 (frames_split (g_outs g) m start n o _ HO E2 ltac:(lia))). rewrite E3, app_assoc. reflexivity.
Qed.
Lemma parts_ok : forall l s i o, shape (g_ins g) (total l) i -> shape (g_outs g) (total l) o ->
  let r := in_parts g s 0 l i o in let q := timed proc param (pi s) l (frames (g_ins g) (total l) i) in
  pi (fst r) = fst q /\ shape (g_outs g) (total l) (snd r) /\ frames (g_outs g) (total l) (snd r) = snd q.
Proof. intros l s i o HI HO. exact (parts_from l s 0 i o (total l) eq_refl HI HO). Qed.
Lemma by_frame_app : forall xs ys (s : T), by_frame proc s (xs ++ ys) = (fst (by_frame proc (fst (by_frame proc s xs)) ys), snd (by_frame proc s xs) ++ snd (by_frame proc (fst (by_frame proc s xs)) ys)).
Proof.
  induction xs as [| x xs IH]; intros ys s; cbn [by_frame app fst snd]; [destruct (by_frame proc s ys); reflexivity |]. rewrite IH. reflexivity.
Qed.
Lemma timed_plain : forall lens s xs, length xs = list_sum lens -> timed proc param s (map (fun n => ([], n)) lens) xs = by_frame proc s xs.
Proof.
  induction lens as [| n lens IH]; intros s xs H; cbn [map timed fold_left].
  - change (list_sum []) with 0 in H. destruct xs; [reflexivity | discriminate].
  - change (list_sum (n :: lens)) with (n + list_sum lens) in H. rewrite IH by (rewrite skipn_length; lia).
    transitivity (by_frame proc s (firstn n xs ++ skipn n xs)); [rewrite by_frame_app; reflexivity | rewrite firstn_skipn; reflexivity].
Qed.
Lemma total_plain : forall lens, total (P := P) (map (fun n => ([], n)) lens) = list_sum lens.
Proof. intros lens. unfold total. rewrite map_map. cbn [snd]. rewrite map_id. reflexivity. Qed.
Lemma whole_ok : forall lens s i o, shape (g_ins g) (list_sum lens) i -> shape (g_outs g) (list_sum lens) o ->
  let r := in_parts g s 0 (map (fun n => ([], n)) lens) i o in let q := g_block g s (list_sum lens) i o in
  pi (fst r) = pi (fst q) /\ snd r = snd q.
Proof.
  intros lens s i o HI HO. pose proof (parts_ok (map (fun n => ([], n)) lens) s i o) as H. rewrite total_plain in H. specialize (H HI HO). cbn zeta in H.
  rewrite timed_plain in H by (apply frames_length). destruct H as [R1 [R2 R3]]. destruct (proj1 D s (list_sum lens) i o HI HO) as [Q1 [Q2 Q3]].
  split; [rewrite R1, Q1; reflexivity |]. apply frames_inj with (c := g_outs g) (n := list_sum lens); [exact R2 | exact Q2 |]. rewrite R3, Q3. reflexivity.
Qed.
End Described.

Lemma agrees_described : forall g : gen F P, agrees zero g -> described zero g (fun s => s) (g_process g) (g_param g).
Proof. intros g A. split; [exact A | reflexivity]. Qed.
Lemma wr_op_described : forall V (op : V -> F -> F) set (g : gen F P) (pi : g_state g -> T) proc param, described zero g pi proc param ->
  described zero (wr_op op set g) (fun s => (fst s, pi (snd s))) (fun s x => ((fst s, fst (proc (snd s) x)), map (op (fst s)) (snd (proc (snd s) x))))
    (fun s p => match set p with Some v => (v, snd s) | None => (fst s, param (snd s) p) end).
Proof.
  intros V op set g pi proc param [D1 D2]. split.
  - intros s n i o Hi Ho. cbn [wr_op g_block g_ins g_outs g_state fst snd] in *. destruct s as [v s]. cbn [fst snd]. destruct (D1 s n i o Hi Ho) as (A & B & C).
    assert (E : forall xs s, by_frame (fun (s0 : V * T) x => ((fst s0, fst (proc (snd s0) x)), map (op (fst s0)) (snd (proc (snd s0) x)))) (v, s) xs =
      ((v, fst (by_frame proc s xs)), map (map (op v)) (snd (by_frame proc s xs)))).
    { induction xs as [| x xs IH]; intros s0; cbn [by_frame map fst snd]; [reflexivity |]. rewrite IH. reflexivity. }
    rewrite E. cbn [fst snd]. split; [f_equal; exact A |]. split; [apply shape_map; exact B |]. rewrite frames_map by exact B. rewrite C. reflexivity.
  - intros s p. cbn [wr_op g_param]. destruct (set p); cbn [fst snd]; [reflexivity |]. rewrite D2. reflexivity.
Qed.
End Parts.

(** ** Slice generators *)
Section Slice.
Context {F P E : Type}.
Variable zero : F.
Variable next : E -> N -> E * F * option N.
Variable param : E -> P -> E.
Variable step : E -> E * F * bool.
Hypothesis S : forall e i, next e i = (fst (step e), if snd (step e) then Some i else None).
Definition step_frame (e : E) (x : list F) : E * list F := (fst (fst (step e)), [snd (fst (step e))]).

Lemma fill_ok : forall m i e d, fst (fst (fill next i m e d)) = fst (by_frame step_frame e (repeat [] m)) /\ map (fun x => [x]) (snd (fill next i m e d)) = snd (by_frame step_frame e (repeat [] m)) /\ length (snd (fill next i m e d)) = m.
Proof.
  induction m as [| m IH]; intros i e d; cbn [fill repeat by_frame fst snd map length]; [auto |]. unfold step_frame at 2 4. cbn [fst snd]. rewrite S. cbn [fst snd].
  destruct (IH (i + 1)%N (fst (fst (step e))) (mark d (if snd (step e) then Some i else None))) as [A [B C]]. rewrite A, B, C. auto.
Qed.
Lemma frames_none : forall n (i : list (list F)), frames zero 0 n i = repeat [] n.
Proof.
  intros n i. unfold frames. cbn [seq map]. generalize 0. induction n as [| n IH]; intros k; cbn; [reflexivity |]. rewrite IH. reflexivity.
Qed.
Lemma slice_described : described zero (slice_gen next param) fst step_frame param.
Proof.
  split; [| reflexivity]. intros s n i o HI HO. cbn [slice_gen g_block g_ins g_outs g_state fst snd]. cbn [slice_gen g_ins g_outs] in HI, HO.
  rewrite (shape_nth 1 n o 0 HO ltac:(lia)). destruct (fill_ok n 0%N (fst s) (snd s)) as [A [B C]]. rewrite frames_none.
  destruct o as [| ch [| ch2 o]]; [destruct HO; discriminate | | destruct HO; discriminate]. cbn [upd]. split; [exact A | split].
  - split; [reflexivity |]. constructor; [exact C | constructor].
  - rewrite mono_frames by exact C. exact B.
Qed.

(** The done flag: [flag i m e] is the last frame marked by [m] samples with numbers from [i] on *)
Definition flag (i : N) (m : nat) (e : E) : option N := snd (fst (fill next i m e None)).
Lemma mark_assoc : forall a b c, mark (mark a b) c = mark a (mark b c).
Proof. intros a [b |] [c |]; reflexivity. Qed.
Lemma fill_flag : forall m i e d, snd (fst (fill next i m e d)) = mark d (flag i m e).
Proof.
  unfold flag. induction m as [| m IH]; intros i e d; cbn [fill fst snd]; [reflexivity |]. rewrite IH, (IH _ _ (mark None _)), mark_assoc. destruct (snd (next e i)); reflexivity.
Qed.
Lemma fill_state : forall m i e d, fst (fst (fill next i m e d)) = fst (by_frame step_frame e (repeat [] m)).
Proof. intros. apply fill_ok. Qed.
Lemma flag_S : forall m i e, flag i (Datatypes.S m) e = mark (if snd (step e) then Some i else None) (flag (i + 1) m (fst (fst (step e)))).
Proof. intros m i e. unfold flag at 1. cbn [fill fst snd]. rewrite fill_flag, S. cbn [fst snd]. destruct (snd (step e)); reflexivity. Qed.
Lemma flag_app : forall a b i e, flag i (a + b) e = mark (flag i a e) (flag (i + N.of_nat a) b (fst (by_frame step_frame e (repeat [] a)))).
Proof.
  induction a as [| a IH]; intros b i e; cbn [Nat.add].
  - rewrite N.add_0_r. unfold flag at 2. cbn. destruct (flag i b e); reflexivity.
  - rewrite !flag_S, IH, <- mark_assoc. cbn [repeat by_frame fst]. unfold step_frame at 2. cbn [fst snd]. do 2 f_equal. lia.
Qed.
Lemma flag_shift : forall m i k e, flag (i + k) m e = option_map (fun d => d + k)%N (flag i m e).
Proof.
  induction m as [| m IH]; intros i k e; [reflexivity |]. rewrite !flag_S. replace (i + k + 1)%N with (i + 1 + k)%N by lia. rewrite IH.
  destruct (snd (step e)), (flag (i + 1) m _); reflexivity.
Qed.
Lemma flag_range : forall m i e d, flag i m e = Some d -> (i <= d < i + N.of_nat m)%N.
Proof.
  induction m as [| m IH]; intros i e d H; [discriminate |]. rewrite flag_S in H. destruct (flag (i + 1) m (fst (fst (step e)))) as [c |] eqn:C.
  - cbn [mark] in H. injection H as <-. apply IH in C. lia.
  - destruct (snd (step e)); cbn [mark] in H; [| discriminate]. injection H as <-. lia.
Qed.
(** The flag after the parts *)
Lemma parts_flag : forall lens e d start (i o : list (list F)) m, start + list_sum lens = m -> shape 1 m o ->
  snd (fst (in_parts (slice_gen next param) (e, d) start (map (fun n => ([], n)) lens) i o)) = mark d (option_map (place lens) (flag 0 (list_sum lens) e)).
Proof.
  induction lens as [| n lens IH]; intros e d start i o m H HO; cbn [map in_parts fold_left]; [reflexivity |].
  change (list_sum (n :: lens)) with (n + list_sum lens) in *.
  assert (W : length (nth 0 (window start n o) []) = n) by (apply shape_nth with 1; [apply window_shape with m; [exact HO | lia] | lia]).
  cbn [slice_gen g_block fst snd]. rewrite W. set (r := fill next 0 n e d).
  assert (R : fst r = (fst (by_frame step_frame e (repeat [] n)), mark d (flag 0 n e))).
  { rewrite (surjective_pairing (fst r)). unfold r. rewrite fill_flag, fill_state. reflexivity. }
  rewrite R. change (mk_gen _ _ _ _ _ _) with (slice_gen next param). rewrite (IH _ _ (start + n) _ _ m); [| lia |].
  - rewrite flag_app, mark_assoc. f_equal. rewrite N.add_0_l. change (N.of_nat n) with (0 + N.of_nat n)%N. rewrite flag_shift.
    destruct (flag 0 (list_sum lens) _) as [c |] eqn:C; cbn [option_map mark place].
    + destruct (N.ltb_spec (c + N.of_nat n) (N.of_nat n)); [lia |]. do 2 f_equal. lia.
    + destruct (flag 0 n e) as [c |] eqn:A; [| reflexivity]. cbn [option_map place]. apply flag_range in A. destruct (N.ltb_spec c (N.of_nat n)); [reflexivity | lia].
  - apply put_shape with n; [exact HO | | lia]. destruct o as [| ch [| ch2 o]]; [destruct HO; discriminate | | destruct HO; discriminate].
    cbn [window map upd]. split; [reflexivity |]. constructor; [| constructor]. unfold r. apply fill_ok.
Qed.
End Slice.

(** ** The reader *)
Section Reader.
Context {prec emax : Z} {I : ieee prec emax}.
Notation fl := (binary_float prec emax).
Variable b : buffer.
Variable mem : list fl.
Variable channels : nat.
Notation play := (play_block b mem channels).

Lemma write_samples_panics : forall size start (xs : list (option fl)) o c f, xs <> [] -> (size <= start + f)%nat -> write_samples size start o xs c f = None.
Proof.
  intros size start [| x xs] o c f H G; [congruence |]. cbn [write_samples]. destruct x as [v |]; [| reflexivity]. cbn [bind]. unfold write_in.
  destruct (Nat.ltb_spec (start + f) size); [lia |]. rewrite andb_false_r. reflexivity.
Qed.
Lemma frame_samples : forall d s, length (snd (fst (play_frame b mem channels d s))) = channels.
Proof. intros d s. unfold play_frame. destruct (pl_fin s); cbn [fst snd]; [apply repeat_length | rewrite map_length, seq_length; reflexivity]. Qed.
Lemma play_state : forall d d' s, fst (fst (play_frame b mem channels d s)) = fst (fst (play_frame b mem channels d' s)).
Proof. intros d d' s. unfold play_frame. destruct (pl_fin s); reflexivity. Qed.
Lemma play_stays : forall n i s, pl_fin s = true -> fst (fst (play i n s)) = s.
Proof. intros n i s H. destruct n; cbn [play_block]; [reflexivity |]. rewrite H. reflexivity. Qed.
(** Unfinished after [n] frames: it was after fewer *)
Lemma still_playing : forall n i s, pl_fin (fst (fst (play i n s))) = false -> pl_fin s = false.
Proof. intros n i s H. destruct (pl_fin s) eqn:A; [| reflexivity]. rewrite play_stays in H by exact A. congruence. Qed.
Lemma loop_panics : forall size start m f s o, (0 < channels)%nat -> (f <= size - start)%nat -> (size - start < f + m)%nat -> (start <= size)%nat ->
  pl_fin (fst (fst (play (N.of_nat f) (size - start - f) s))) = false -> reader_loop b mem channels size start m f s o = None.
Proof.
  intros size start m. induction m as [| m IH]; intros f s o C L G Z H; [lia |]. cbn [reader_loop].
  destruct (Nat.eq_dec f (size - start)) as [A | A].
  - rewrite write_samples_panics; [reflexivity | | lia]. intros K. pose proof (frame_samples (N.of_nat f + 1) s) as Q. rewrite K in Q. cbn in Q. lia.
  - replace (size - start - f)%nat with (Datatypes.S (size - start - (f + 1)))%nat in H by lia. pose proof (still_playing _ _ _ H) as U. cbn [play_block] in H. rewrite U in H. cbn [fst snd] in H.
    rewrite (still_playing _ _ _ H). destruct (write_samples _ _ _ _ _ _) as [o' |]; [| reflexivity]. cbn [bind]. apply IH; try lia. replace (N.of_nat (Datatypes.S f)) with (N.of_nat f + 1)%N by lia.
    replace (size - start - Datatypes.S f)%nat with (size - start - (f + 1))%nat by lia. exact H.
Qed.
Lemma loop_goes_on : forall size start m f s o r, reader_loop b mem channels size start m f s o = Some r -> pl_fin (fst (fst (play (N.of_nat f) m s))) = false -> fst (fst (fst r)) = fst (fst (play (N.of_nat f) m s)) /\ snd r = None.
Proof.
  intros size start m. induction m as [| m IH]; intros f s o r R H; cbn [reader_loop] in R; [injection R as <-; split; reflexivity |].
  pose proof (still_playing _ _ _ H) as U. cbn [play_block] in H |- *. rewrite U in H |- *. cbn [fst snd] in H |- *. destruct (write_samples _ _ _ _ _ _) as [o' |]; [| discriminate]. cbn [bind] in R.
  rewrite (still_playing _ _ _ H) in R. replace (N.of_nat f + 1)%N with (N.of_nat (Datatypes.S f)) in H, R |- * by lia. exact (IH _ _ _ _ R H).
Qed.
(** A whole block *)
Lemma write_samples_ok : forall (vs : list fl) o c f n, c + length vs <= length o -> f < n -> write_samples n 0 o (map Some vs) c f = Some (write_chans o vs c f).
Proof.
  induction vs as [| v vs IH]; intros o c f n H G; cbn [map write_samples write_chans bind length] in *; [reflexivity |]. unfold write_in at 1.
  destruct (Nat.ltb_spec c (length o)); [| lia]. change (0 + f)%nat with f. destruct (Nat.ltb_spec f n); [| lia]. cbn [andb bind]. apply IH; [| exact G]. unfold bwrite; rewrite upd_length. lia.
Qed.
Definition last_mark (l : list (option N)) : option N := fold_left mark l None.
Lemma marks_none : forall n d, fold_left mark (repeat None n) d = d.
Proof. induction n; intros d; cbn; [reflexivity | apply IHn]. Qed.
Lemma no_mark : forall d s, pl_fin (fst (fst (play_frame b mem channels d s))) = false -> snd (play_frame b mem channels d s) = None.
Proof. intros d s. unfold play_frame. destruct (pl_fin s); cbn [fst snd]; [reflexivity |]. intros ->. reflexivity. Qed.
Lemma loop_ok : forall n m f s o vs, f + m = n -> shape channels n o -> snd (fst (play (N.of_nat f) m s)) = map (map Some) vs -> pl_fin s = false ->
  exists o' t, reader_loop b mem channels n 0 m f s o = Some (fst (fst (play (N.of_nat f) m s)), o', last_mark (snd (play (N.of_nat f) m s)), t) /\ shape channels n o' /\
    let stop := match t with Some t => t | None => n end in f <= stop <= n /\
    (forall k j, k < channels -> j < stop -> nth j (nth k o' []) fzero = if f <=? j then nth k (nth (j - f) vs []) fzero else nth j (nth k o []) fzero) /\
    (forall j, stop <= j < n -> nth (j - f) vs [] = repeat fzero channels).
Proof.
  intros n m. induction m as [| m IH]; intros f s o vs Hn Ho Hv Hs; cbn [reader_loop].
  - exists o, None. split; [reflexivity | split; [exact Ho |]]. split; [lia |]. split; [| intros; lia]. intros k j Hk Hj. destruct (Nat.leb_spec f j); [lia | reflexivity].
  - cbn [play_block] in Hv |- *. rewrite Hs in Hv |- *. cbn [fst snd] in Hv |- *. set (r := play_frame b mem channels (N.of_nat f + 1) s) in *.
    destruct vs as [| v vs]; [discriminate |]. cbn [map] in Hv. injection Hv as V1 V2.
    assert (L : length v = channels) by (rewrite <- (map_length Some v), <- V1; apply frame_samples).
    rewrite V1, write_samples_ok by (try rewrite (proj1 Ho); lia). cbn [bind].
    assert (So : forall k, k < length o -> length (nth k o []) = n) by (intros k Hk; apply (shape_nth channels n); [exact Ho | rewrite <- (proj1 Ho); exact Hk]).
    destruct (write_chans_shape v o 0 f) as [W1 W2].
    assert (Ho' : shape channels n (write_chans o v 0 f)) by (apply shape_intro; [rewrite W1; apply Ho | intros k Hk; rewrite W2; apply So; rewrite (proj1 Ho); lia]).
    pose proof (write_chans_nth fzero v o 0 f n) as Wc. rewrite (proj1 Ho) in Wc. specialize (Wc ltac:(lia)). assert (So' := So). rewrite (proj1 Ho) in So'. specialize (Wc So' ltac:(lia)).
    destruct (pl_fin (fst (fst r))) eqn:Fi.
    + exists (write_chans o v 0 f), (Some (Datatypes.S f)). rewrite play_stays by exact Fi. split; [| split; [exact Ho' |]].
      * do 2 f_equal. destruct m; cbn [play_block snd fst]; [destruct (snd r); reflexivity |]. rewrite Fi. cbn [snd]. unfold last_mark. cbn [fold_left]. rewrite marks_none. destruct (snd r); reflexivity.
      * split; [lia |]. split.
        -- intros k j Hk Hj. rewrite Wc, L. replace (k <? 0 + channels) with true by (symmetry; apply Nat.ltb_lt; lia). change (0 <=? k) with true. cbn [andb]. rewrite Nat.sub_0_r.
           destruct (Nat.eqb_spec j f) as [-> | Ne]; [rewrite Nat.leb_refl, Nat.sub_diag; reflexivity |]. destruct (Nat.leb_spec f j); [lia | reflexivity].
        -- intros j Hj. replace (j - f) with (Datatypes.S (j - f - 1)) by lia. cbn [nth]. destruct m as [| m]; [lia |]. cbn [play_block] in V2. rewrite Fi in V2. cbn [snd fst] in V2.
           assert (Q : nth (j - f - 1) (map (map Some) vs) [] = repeat (Some fzero) channels).
           { rewrite <- V2. rewrite nth_indep with (d' := repeat (Some fzero) channels) by (rewrite repeat_length; lia). apply nth_repeat. }
           assert (Len : length vs = Datatypes.S m) by (rewrite <- (map_length (map Some) vs), <- V2; apply repeat_length).
           rewrite (map_nth_in _ _ (map Some) vs _ [] []) in Q by lia. apply (f_equal (map (fun x => match x with Some x => x | None => fzero end))) in Q. rewrite map_map, map_id in Q.
           rewrite Q. clear. induction channels as [| c IHc]; cbn; [reflexivity | rewrite IHc; reflexivity].
    + replace (N.of_nat f + 1)%N with (N.of_nat (Datatypes.S f)) in V2 |- * by lia. destruct (IH (Datatypes.S f) (fst (fst r)) (write_chans o v 0 f) vs) as (o' & t & A & B & C & D & G); [lia | exact Ho' | exact V2 | exact Fi |].
      exists o', t. rewrite A. split; [| split; [exact B |]].
      * do 2 f_equal. unfold last_mark. cbn [fold_left]. unfold r. rewrite no_mark by exact Fi. reflexivity.
      * split; [lia |]. split.
        -- intros k j Hk Hj. rewrite D by assumption. destruct (Nat.leb_spec (Datatypes.S f) j) as [Q | Q].
           ++ destruct (Nat.leb_spec f j); [| lia]. replace (j - f) with (Datatypes.S (j - Datatypes.S f)) by lia. reflexivity.
           ++ rewrite Wc, L. replace (k <? 0 + channels) with true by (symmetry; apply Nat.ltb_lt; lia). change (0 <=? k) with true. cbn [andb]. rewrite Nat.sub_0_r.
              destruct (Nat.eqb_spec j f) as [-> | Ne]; [rewrite Nat.leb_refl, Nat.sub_diag; reflexivity |]. destruct (Nat.leb_spec f j); [lia | reflexivity].
        -- intros j Hj. replace (j - f) with (Datatypes.S (j - Datatypes.S f)) by lia. cbn [nth]. apply G. exact Hj.
Qed.
Lemma play_length : forall n i s, length (snd (fst (play i n s))) = n.
Proof. induction n as [| n IH]; intros i s; cbn [play_block fst snd length]; [reflexivity |]. destruct (pl_fin s); cbn [fst snd length]; [rewrite repeat_length; reflexivity | rewrite IH; reflexivity]. Qed.
Lemma play_rows : forall n i s, Forall (fun y => length y = channels) (snd (fst (play i n s))).
Proof.
  induction n as [| n IH]; intros i s; cbn [play_block fst snd]; [constructor |]. destruct (pl_fin s); cbn [fst snd].
  - apply (Forall_forall _ (repeat (repeat (Some fzero) channels) (Datatypes.S n))). intros x Hx. apply repeat_spec in Hx. subst x. apply repeat_length.
  - constructor; [apply frame_samples | apply IH].
Qed.
Lemma part_whole : forall n s o vs, shape channels n o -> snd (fst (play 0 n s)) = map (map Some) vs ->
  exists o', reader_part b mem channels n n 0 n s o = Some (fst (fst (play 0 n s)), o', last_mark (snd (play 0 n s))) /\ shape channels n o' /\ frames fzero channels n o' = vs.
Proof.
  intros n s o vs Ho Hv.
  assert (Lv : length vs = n) by (rewrite <- (map_length (map Some) vs), <- Hv; apply play_length).
  assert (Rv : Forall (fun y => length y = channels) vs).
  { pose proof (play_rows n 0 s) as R. rewrite Hv in R. apply Forall_map in R. eapply Forall_impl; [| exact R]. intros y Hy. cbn beta in Hy. rewrite map_length in Hy. exact Hy. }
  assert (Clear : forall stop (o' : list (list fl)), stop <= n -> shape channels n o' ->
    exists o'', clear_from 0 n stop o' = Some o'' /\ shape channels n o'' /\ forall k j, k < channels -> j < n -> nth j (nth k o'' []) fzero = if j <? stop then nth j (nth k o' []) fzero else fzero).
  { intros stop o' Hs S'. unfold clear_from. destruct (Nat.leb_spec stop n); [| lia]. eexists. split; [reflexivity |].
    assert (E : forall k, k < channels -> nth k (map (fun ch => firstn (0 + stop) ch ++ repeat fzero (n - stop) ++ skipn (0 + n) ch) o') [] = firstn stop (nth k o' []) ++ repeat fzero (n - stop)).
    { intros k Hk. rewrite (map_nth_in _ _ (fun ch => firstn (0 + stop) ch ++ repeat fzero (n - stop) ++ skipn (0 + n) ch) o' k [] []) by (rewrite (proj1 S'); exact Hk). pose proof (shape_nth channels n o' k S' Hk).
      rewrite (skipn_all2 (nth k o' [])) by lia. rewrite app_nil_r. reflexivity. }
    split.
    - apply shape_intro; [rewrite map_length; apply S' |]. intros k Hk. rewrite E by exact Hk. pose proof (shape_nth channels n o' k S' Hk). rewrite app_length, firstn_length, repeat_length. lia.
    - intros k j Hk Hj. rewrite E by exact Hk. pose proof (shape_nth channels n o' k S' Hk). destruct (Nat.ltb_spec j stop).
      + rewrite app_nth1 by (rewrite firstn_length; lia). apply nth_firstn. assumption.
      + rewrite app_nth2 by (rewrite firstn_length; lia). rewrite nth_repeat. reflexivity. }
  unfold reader_part. destruct (pl_fin s) eqn:Fi.
  - destruct (Clear 0 o ltac:(lia) Ho) as (o' & A & B & C). exists o'. rewrite A. cbn [bind]. rewrite play_stays by exact Fi. split; [| split; [exact B |]].
    + do 2 f_equal. destruct n; cbn [play_block snd]; [reflexivity |]. rewrite Fi. cbn [snd]. unfold last_mark. rewrite marks_none. reflexivity.
    + apply agree_frames; [exact Lv | exact Rv |]. intros k j Hk Hj. rewrite C by assumption. cbn [Nat.ltb Nat.leb].
      assert (Q : nth j (map (map Some) vs) [] = repeat (Some fzero) channels).
      { rewrite <- Hv. destruct n; [lia |]. cbn [play_block]. rewrite Fi. cbn [fst snd]. rewrite nth_indep with (d' := repeat (Some fzero) channels) by (rewrite repeat_length; lia). apply nth_repeat. }
      rewrite (map_nth_in _ _ (map Some) vs _ [] []) in Q by lia. pose proof (f_equal (fun l => nth k l (Some fzero)) Q) as Z. cbn beta in Z. rewrite nth_repeat in Z.
      rewrite (map_nth Some (nth j vs []) fzero k) in Z. injection Z as ->. reflexivity.
  - change 0%N with (N.of_nat 0) in Hv |- *. destruct (loop_ok n n 0 s o vs eq_refl Ho Hv Fi) as (o' & t & A & B & C & D & G). rewrite A. cbn [bind snd fst]. destruct t as [stop |].
    + destruct (Clear stop o' (proj2 C) B) as (o'' & A2 & B2 & C2). exists o''. rewrite A2. cbn [bind]. split; [reflexivity | split; [exact B2 |]].
      apply agree_frames; [exact Lv | exact Rv |]. intros k j Hk Hj. rewrite C2 by assumption. destruct (Nat.ltb_spec j stop) as [Q | Q].
      * rewrite D by assumption. cbn [Nat.leb]. rewrite Nat.sub_0_r. reflexivity.
      * specialize (G j (conj Q Hj)). rewrite Nat.sub_0_r in G. rewrite G, nth_repeat. reflexivity.
    + exists o'. split; [reflexivity | split; [exact B |]]. apply agree_frames; [exact Lv | exact Rv |]. intros k j Hk Hj. rewrite D by assumption. cbn [Nat.leb]. rewrite Nat.sub_0_r. reflexivity.
Qed.
(** Looping readers never finish *)
Lemma looping : forall n i s, pl_loop s = true -> pl_fin s = false -> pl_fin (fst (fst (play i n s))) = false.
Proof.
  induction n as [| n IH]; intros i s L U; cbn [play_block]; [exact U |]. rewrite U. cbn [fst snd].
  assert (K : pl_loop (fst (fst (play_frame b mem channels (i + 1) s))) = true /\ pl_fin (fst (fst (play_frame b mem channels (i + 1) s))) = false).
  { unfold play_frame, player_step. rewrite U. cbn [fst snd pl_end pl_rp pl_loop]. destruct (fleb _ _); cbn [fst]; rewrite ?L; split; try reflexivity; exact L. }
  apply IH; apply K.
Qed.
End Reader.
