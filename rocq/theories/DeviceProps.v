(** Results about the audio callbacks (C32) *)
From Verif Require Import Base DeviceModel DeviceSpec DeviceProofs.
Local Open Scope nat_scope.

(** cpal, for a graph without inputs: for every processor whose blocks have the announced size and every sequence of buffer sizes
    (in frames) the callbacks do not panic, fill the buffers, and together they are frames 0, 1, 2, ... of the processor's signal, each
    once; a block is only made when it is needed. *)
Theorem C32_cpal : forall P S D (process : P -> list (list S) -> P * list (list S)) (out_conv : S -> D) bs channels p initial sizes,
  0 < bs -> 0 < channels -> (forall n, shaped S bs channels (nth_block P S process p n)) ->
  exists st outs fs, cpal_run P S D process out_conv bs 0 channels (cpal_new P S bs p initial) (map (fun m => m * channels) sizes) = Some (st, outs) /\
    concat outs = concat fs /\ map (@length D) outs = map (fun m => m * channels) sizes /\ length fs = list_sum sizes /\
    (forall k f, nth_error fs k = Some f -> is_frame P S D process bs channels p out_conv k f) /\
    c_proc _ _ st = after P S process p ((list_sum sizes + bs - 1) / bs).
Proof.
  intros P S D process out_conv bs channels p initial sizes Hb Hc Hs.
  destruct (run_ok P S D process out_conv bs channels Hb p Hs Hc sizes 0 _ (new_at P S process bs channels Hb p Hs initial)) as (st & outs & fs & E & (r & Ep & En & Hr & _) & C & M & L & F).
  exists st, outs, fs. split; [exact E |]. split; [exact C |]. split; [exact M |]. split; [exact L |]. split; [exact F |]. rewrite Ep. f_equal.
  cbn [Nat.add] in En. apply (Nat.div_unique _ bs r (c_counter _ _ st - 1)); [lia |]. nia.
Qed.
Print Assumptions C32_cpal.
(** A processor with two channels and blocks of four frames: frame [k] of its signal is [k] and [100 + k]. *)
Definition count_process (p : nat) (_ : list (list nat)) : nat * list (list nat) := (p + 4, [seq p 4; seq (100 + p) 4]).
Lemma count_after n : after nat nat count_process 0 n = 4 * n.
Proof. induction n as [| n IH]; [reflexivity |]. cbn [after count_process fst]. rewrite IH. lia. Qed.
Example C32_cpal_case : (forall n, shaped nat 4 2 (nth_block nat nat count_process 0 n)) /\
  exists st outs, cpal_run nat nat nat count_process (fun x => x) 4 0 2 (cpal_new nat nat 4 0 []) (map (fun m => m * 2) [3; 0; 2; 5]) = Some (st, outs) /\
    outs = [[0; 100; 1; 101; 2; 102]; []; [3; 103; 4; 104]; [5; 105; 6; 106; 7; 107; 8; 108; 9; 109]].
Proof.
  split; [intros n; split; [reflexivity |]; intros ch Hch; unfold nth_block in Hch; cbn [count_process snd In] in Hch; destruct Hch as [<- | [<- | []]]; apply seq_length |].
  eexists. eexists. vm_compute. split; reflexivity.
Qed.
(** A graph with inputs is accepted by [start_processing] (with a logged error saying that the inputs will have no data) and then
    panics in the first callback that asks for a frame. *)
Theorem C32_inputs_refuted : forall P S D (process : P -> list (list S) -> P * list (list S)) (out_conv : S -> D) bs channels inputs p initial m sizes,
  0 < inputs -> 0 < channels -> 0 < m -> cpal_run P S D process out_conv bs inputs channels (cpal_new P S bs p initial) (m * channels :: sizes) = None.
Proof.
  intros P S D process out_conv bs channels inputs p initial m sizes Hi Hc Hm. cbn [cpal_run]. unfold cpal_callback, chunk_widths. replace (channels =? 0) with false by (symmetry; apply Nat.eqb_neq; lia). cbn [bind].
  rewrite Nat.div_mul by lia. destruct m as [| m]; [lia |]. cbn [repeat app cpal_frames]. unfold cpal_frame at 1. cbn [cpal_new c_counter c_proc]. rewrite Nat.leb_refl. unfold run_without_inputs.
  replace (inputs =? 0) with false by (symmetry; apply Nat.eqb_neq; lia). reflexivity.
Qed.
Print Assumptions C32_inputs_refuted.
(** A device that reports no channels is accepted with a graph without outputs, and every callback panics, even for an empty buffer. *)
Theorem C32_no_channels_refuted : forall P S D (process : P -> list (list S) -> P * list (list S)) (out_conv : S -> D) bs inputs st len lens,
  cpal_run P S D process out_conv bs inputs 0 st (len :: lens) = None.
Proof. reflexivity. Qed.
Print Assumptions C32_no_channels_refuted.

(** JACK, as long as the server keeps the buffer size the blocks were made with: every input is delivered and every block handed out
    (clamped), in order. Missing: changes of the buffer size. *)
Theorem C32_jack_partial : forall P S D (process : P -> list (list S) -> P * list (list S)) (out_conv : S -> D) (in_conv : D -> S) (clean : S -> S) bs inputs outputs calls p buf,
  (forall q i, shaped S bs outputs (snd (process q i))) -> shaped S bs inputs buf ->
  (forall c, In c calls -> shaped D bs inputs (fst c) /\ shaped D bs outputs (snd c)) ->
  snd (jack_run P S D process out_conv in_conv clean (mk_jack P S p buf) calls) =
  map (map (map (fun x => out_conv (clean x)))) (driven P S process p (map (fun c => map (map in_conv) (fst c)) calls)).
Proof.
  intros P S D process out_conv in_conv clean bs inputs outputs calls. induction calls as [| [i o] cs IH]; intros p buf Hp Hb Hc; [reflexivity |].
  cbn [jack_run driven map fst snd]. destruct (Hc (i, o) (or_introl eq_refl)) as [Hi Ho]. cbn [fst snd] in Hi, Ho.
  assert (Eq : forall A B n m (a : list (list A)) (b : list (list B)), shaped A n m a -> shaped B n m b -> length a = length b /\ Forall2 (fun x y => length x = length y) a b).
  { intros A B n m a b [A1 A2] [B1 B2]. split; [congruence |]. clear Hc IH Hp. assert (L : length a = length b) by congruence. clear A1 B1. revert b L B2. induction a as [| x a IHa]; intros [| y b] L B2; try discriminate; constructor.
    - rewrite (A2 x (or_introl eq_refl)), (B2 y (or_introl eq_refl)). reflexivity.
    - apply IHa; [intros ch H; apply A2; right; exact H | injection L; auto | intros ch H; apply B2; right; exact H]. }
  unfold jack_process. cbn [j_in j_proc fst snd]. destruct (Eq _ _ _ _ _ _ Hi Hb) as [L1 F1]. rewrite (copy_ports_full in_conv _ _ L1 F1). set (i' := map (map in_conv) i).
  assert (Hi' : shaped S bs inputs i').
  { destruct Hi as [A1 A2]. split; [unfold i'; rewrite map_length; exact A1 |]. intros ch H. unfold i' in H. apply in_map_iff in H as (x & <- & Hx). rewrite map_length. apply A2. exact Hx. }
  assert (Hq : shaped S bs outputs (map (map clean) (snd (process p i')))).
  { destruct (Hp p i') as [A1 A2]. split; [rewrite map_length; exact A1 |]. intros ch H. apply in_map_iff in H as (x & <- & Hx). rewrite map_length. apply A2. exact Hx. }
  destruct (Eq _ _ _ _ _ _ Hq Ho) as [L2 F2]. rewrite (copy_ports_full out_conv _ _ L2 F2). f_equal.
  - rewrite map_map. apply map_ext. intros l. rewrite map_map. reflexivity.
  - apply IH; [exact Hp | exact Hi' | intros c H; apply Hc; right; exact H].
Qed.
Print Assumptions C32_jack_partial.
(** One input, one output; the output is the input plus one *)
Definition inc_process (p : nat) (i : list (list nat)) : nat * list (list nat) := (p, map (map Datatypes.S) i).
Example C32_jack_case : snd (jack_run nat nat nat inc_process (fun x => x) (fun x => x) (fun x => x) (mk_jack nat nat 0 [[0; 0; 0; 0]]) [([[1; 2; 3; 4]], [[0; 0; 0; 0]]); ([[5; 6; 7; 8]], [[0; 0; 0; 0]])]) = [[[2; 3; 4; 5]]; [[6; 7; 8; 9]]].
Proof. vm_compute. reflexivity. Qed.
Example C32_jack_shape_case : forall q, shaped nat 4 2 (snd (count_process q [])) /\ shaped nat 4 1 [[0; 0; 0; 0]].
Proof. intros q. split; (split; [reflexivity |]); intros ch H; cbn in H; intuition (subst; reflexivity). Qed.
(** With a smaller buffer than before frames of every block are skipped (2, 3 and 102, 103 here); with a larger one the rest of
    the buffer is left as it was (9 here). *)
Theorem C32_jack_refuted :
  snd (jack_run nat nat nat count_process (fun x => x) (fun x => x) (fun x => x) (mk_jack nat nat 0 []) [([], [[9; 9]; [9; 9]]); ([], [[9; 9]; [9; 9]])]) = [[[0; 1]; [100; 101]]; [[4; 5]; [104; 105]]] /\
  snd (jack_run nat nat nat count_process (fun x => x) (fun x => x) (fun x => x) (mk_jack nat nat 0 []) [([], [[9; 9; 9; 9; 9; 9]; [9; 9; 9; 9; 9; 9]])]) = [[[0; 1; 2; 3; 9; 9]; [100; 101; 102; 103; 9; 9]]].
Proof. vm_compute. split; reflexivity. Qed.
Print Assumptions C32_jack_refuted.
(** Likewise the inputs: with a smaller buffer the graph gets the end of the previous input again. This processor puts out the sum of
    all its inputs so far: after 1+2+3+4 and 5+6 it has 28 and not 21. *)
Definition sum_process (p : nat) (i : list (list nat)) : nat * list (list nat) := let q := p + list_sum (concat i) in (q, [repeat q 4]).
Theorem C32_jack_inputs_refuted :
  snd (jack_run nat nat nat sum_process (fun x => x) (fun x => x) (fun x => x) (mk_jack nat nat 0 [[0; 0; 0; 0]]) [([[1; 2; 3; 4]], [[0; 0; 0; 0]]); ([[5; 6]], [[0; 0]])]) = [[[10; 10; 10; 10]]; [[28; 28]]].
Proof. vm_compute. reflexivity. Qed.
Print Assumptions C32_jack_inputs_refuted.
