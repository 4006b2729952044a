From Flocq Require Import BinarySingleNaN.
From Verif Require Import Base FloatBase MathModel MathSpec MathProofs EnvModel EnvProps BufferModel PlayModel PlayProps SplitModel SplitSpec SplitProofs.
Open Scope nat_scope.

(** A generator that makes its blocks frame by frame, processing a block in parts with parameter changes between them, gives the frames
    with every change in effect from its frame on: the parts do not show. *)
Theorem C70_parts : forall F P T (zero : F) (g : gen F P) (pi : g_state g -> T) proc param, described zero g pi proc param ->
  forall l s i o, shape (g_ins g) (total l) i -> shape (g_outs g) (total l) o ->
  let r := in_parts g s 0 l i o in let q := timed proc param (pi s) l (frames zero (g_ins g) (total l) i) in
  pi (fst r) = fst q /\ shape (g_outs g) (total l) (snd r) /\ frames zero (g_outs g) (total l) (snd r) = snd q.
Proof. exact @parts_ok. Qed.
Print Assumptions C70_parts.
(** In parts of any lengths without changes between them: the same samples and state as in one go *)
Theorem C70_whole : forall F P T (zero : F) (g : gen F P) (pi : g_state g -> T) proc param, described zero g pi proc param ->
  forall lens s i o, shape (g_ins g) (list_sum lens) i -> shape (g_outs g) (list_sum lens) o ->
  let r := in_parts g s 0 (map (fun n => ([], n)) lens) i o in let q := g_block g s (list_sum lens) i o in
  pi (fst r) = pi (fst q) /\ snd r = snd q.
Proof. exact @whole_ok. Qed.
Print Assumptions C70_whole.
(** The generators with block code of their own are such (all but the reader), with the state without the done flag: the arithmetic ones,
    constants, oscillators, envelopes, those with the default block code, and arithmetic on any of these *)
Theorem C70_units : forall F P (zero : F),
  (forall op channels, let g := math_gen (P := P) zero op channels in described zero g (fun s => s) (g_process g) (g_param g)) /\
  (forall op, let g := math1_gen (P := P) zero op in described zero g (fun s => s) (g_process g) (g_param g)) /\
  (forall S ins outs (proc : S -> list F -> S * list F) (param : S -> P -> S), (forall s x, length x = ins -> length (snd (proc s x)) = outs) ->
    described zero (plain_gen zero ins outs proc param) (fun s => s) proc param) /\
  (forall set, described zero (constant_gen (P := P) set) fst (fun v _ => (v, [v])) set) /\
  (forall E (next : E -> E * F) (set : E -> P -> E), described zero (osc_gen next set) fst (fun e _ => (fst (next e), [snd (next e)])) set) /\
  (forall V (op : V -> F -> F) set (g : gen F P) T (pi : g_state g -> T) proc param, described zero g pi proc param ->
    described zero (wr_op op set g) (fun s => (fst s, pi (snd s))) (fun s x => ((fst s, fst (proc (snd s) x)), map (op (fst s)) (snd (proc (snd s) x))))
      (fun s p => match set p with Some v => (v, snd s) | None => (fst s, param (snd s) p) end)).
Proof.
  intros F P zero. split; [intros; apply agrees_described, math_agrees |]. split; [intros; apply agrees_described, math1_agrees |].
  split; [intros; apply (agrees_described zero (plain_gen zero ins outs proc param)), plain_agrees; assumption |].
  split; [intros set; exact (slice_described zero (fun (v : F) (_ : N) => (v, v, None)) set (fun v => (v, v, false)) (fun _ _ => eq_refl)) |].
  split; [intros E next set; exact (slice_described zero (fun e (_ : N) => (fst (next e), snd (next e), None)) set (fun e => (fst (next e), snd (next e), false)) (fun _ _ => eq_refl)) |].
  intros. apply wr_op_described. assumption.
Qed.
Print Assumptions C70_units.
(** The envelopes: [next e] with the frame number left out *)
Definition asr_does {prec emax} {I : ieee prec emax} (e : env prec emax) : env prec emax * binary_float prec emax * bool :=
  (fst (asr_next e 0), match snd (asr_next e 0) with Some _ => true | None => false end).
Definition ar_does {prec emax} {I : ieee prec emax} (e : env prec emax) : env prec emax * binary_float prec emax * bool :=
  (fst (ar_next e 0), match snd (ar_next e 0) with Some _ => true | None => false end).
Lemma asr_marks : forall prec emax (I : ieee prec emax) e i, asr_next e i = (fst (asr_does e), if snd (asr_does e) then Some i else None).
Proof. intros. unfold asr_does, asr_next. destruct (e_state e); cbn [fst snd]; try reflexivity. destruct (fleb _ _); reflexivity. Qed.
Lemma ar_marks : forall prec emax (I : ieee prec emax) e i, ar_next e i = (fst (ar_does e), if snd (ar_does e) then Some i else None).
Proof. intros. unfold ar_does, ar_next. destruct (e_state e); cbn [fst snd]; try reflexivity; destruct (fleb _ _); reflexivity. Qed.
Theorem C70_envelopes : forall prec emax (I : ieee prec emax) P (set : env prec emax -> P -> env prec emax),
  described fzero (asr_gen set) fst (fun e _ => (fst (fst (asr_next e 0)), [snd (fst (asr_next e 0))])) set /\
  described fzero (ar_gen set) fst (fun e _ => (fst (fst (ar_next e 0)), [snd (fst (ar_next e 0))])) set.
Proof.
  intros prec emax I P set. split.
  - exact (slice_described fzero asr_next set asr_does (asr_marks prec emax I)).
  - exact (slice_described fzero ar_next set ar_does (ar_marks prec emax I)).
Qed.
Print Assumptions C70_envelopes.
(** The done flag of an envelope is not the same: in parts it is the place of the frame within its part *)
Theorem C70_flags : forall prec emax (I : ieee prec emax) P (set : env prec emax -> P -> env prec emax) lens e i o, shape 1 (list_sum lens) o ->
  snd (fst (in_parts (asr_gen set) (e, None) 0 (map (fun n => ([], n)) lens) i o)) = option_map (place lens) (snd (fst (g_block (asr_gen set) (e, None) (list_sum lens) i o))) /\
  snd (fst (in_parts (ar_gen set) (e, None) 0 (map (fun n => ([], n)) lens) i o)) = option_map (place lens) (snd (fst (g_block (ar_gen set) (e, None) (list_sum lens) i o))).
Proof.
  intros prec emax I P set lens e i o Ho.
  assert (G : forall (next : env prec emax -> N -> env prec emax * binary_float prec emax * option N) (step : env prec emax -> env prec emax * binary_float prec emax * bool), (forall e i, next e i = (fst (step e), if snd (step e) then Some i else None)) ->
    snd (fst (in_parts (slice_gen next set) (e, None) 0 (map (fun n => ([], n)) lens) i o)) = option_map (place lens) (snd (fst (g_block (slice_gen next set) (e, None) (list_sum lens) i o)))).
  { intros next step S. rewrite (parts_flag next set step S lens e None 0 i o _ eq_refl Ho). cbn [slice_gen g_block fst snd]. rewrite (shape_nth 1 (list_sum lens) o 0 Ho (Nat.lt_0_succ 0)).
    unfold flag. destruct (snd (fst _)); reflexivity. }
  split; [exact (G asr_next asr_does (asr_marks prec emax I)) | exact (G ar_next ar_does (ar_marks prec emax I))].
Qed.
Print Assumptions C70_flags.

(** The block code of the reader on a whole block of the size of the graph: the frames of [C67] *)
Theorem C70_reader : forall prec emax (I : ieee prec emax) b mem channels n s o vs, shape channels n o -> snd (fst (play_block b mem channels 0 n s)) = map (map Some) vs ->
  exists o', reader_part b mem channels n n 0 n s o = Some (fst (fst (play_block b mem channels 0 n s)), o', last_mark (snd (play_block b mem channels 0 n s))) /\
    shape channels n o' /\ frames fzero channels n o' = vs.
Proof. exact @part_whole. Qed.
Print Assumptions C70_reader.
(** Refuted: a reader can be processed in parts. It plays a whole block in the first part, and writes beyond the end of the block in the
    second, which panics on the audio thread, unless the buffer ends before that. A looping reader always panics. *)
Theorem C70_reader_refuted : forall prec emax (I : ieee prec emax) b (mem : list (binary_float prec emax)) channels n a s o, 0 < channels -> 0 < a < n ->
  pl_fin (fst (fst (play_block b mem channels 0 (n - a) (fst (fst (play_block b mem channels 0 n s)))))) = false ->
  reader_parts b mem channels n n 0 [a; n - a] s o = None.
Proof.
  intros prec emax I b mem channels n a s o C A H. pose proof (still_playing b mem channels _ _ _ H) as H1. pose proof (still_playing b mem channels _ _ _ H1) as H0.
  cbn [reader_parts]. destruct (reader_part b mem channels n n 0 a s o) as [[[s1 o1] d1] |] eqn:E; [| reflexivity]. cbn [bind fst snd]. unfold reader_part in E. rewrite H0 in E.
  destruct (reader_loop b mem channels n 0 n 0 s o) as [[[[s2 o2] d2] t] |] eqn:R; [| discriminate]. destruct (loop_goes_on b mem channels _ _ _ _ _ _ _ R H1) as [S T]. cbn [fst snd] in S, T. subst t s2.
  cbn [bind snd fst] in E. injection E as <- <- <-. change (0 + a) with a. unfold reader_part. rewrite H1.
  rewrite (loop_panics b mem channels n a n 0); [reflexivity | exact C | lia | lia | lia | rewrite Nat.sub_0_r; exact H].
Qed.
Print Assumptions C70_reader_refuted.
Theorem C70_looping_refuted : forall prec emax (I : ieee prec emax) b (mem : list (binary_float prec emax)) channels n a s o, 0 < channels -> 0 < a < n ->
  pl_loop s = true -> pl_fin s = false -> reader_parts b mem channels n n 0 [a; n - a] s o = None.
Proof.
  intros prec emax I b mem channels n a s o C A L U. apply C70_reader_refuted; [exact C | exact A |].
  assert (K : forall m i s, pl_loop s = true -> pl_fin s = false -> pl_loop (fst (fst (play_block b mem channels i m s))) = true).
  { induction m as [| m IH]; intros i s0 L0 U0; cbn [play_block]; [exact L0 |]. rewrite U0. cbn [fst snd]. apply IH; unfold play_frame, player_step; rewrite U0; cbn [fst snd pl_end pl_rp pl_loop]; destruct (fleb _ _); cbn [fst]; rewrite ?L0; try reflexivity; exact L0. }
  apply looping; [apply K; assumption | apply looping; assumption].
Qed.
Print Assumptions C70_looping_refuted.

(** Concrete cases. A stereo looping reader of 3 frames and a block of 4: fine in one go, a panic in two parts. *)
Definition blank (channels n : nat) : list (list f32) := repeat (repeat fone n) channels.
Definition tried {A} (r : option (A * list (list f32) * list (option N))) : option (list (list SpecFloat.spec_float) * list (option N)) :=
  option_map (fun q => (map (map (@B2SF 24 128)) (snd (fst q)), snd q)) r.
Definition as_block (l : list (list Z)) : list (list SpecFloat.spec_float) := map (map (fun z => B2SF (fze z (-4) : f32))) l.
Example C70_reader_case :
  option_map (fun b => tried (reader_parts b three 2 4 4 0 [4] (player_init b 48000 (player_new b fone true)) (blank 2 4))) three_buffer =
    Some (Some (as_block [[2; 4; 6; 2]; [-2; -4; -16; -2]]%Z, [None])) /\
  option_map (fun b => tried (reader_parts b three 2 4 4 0 [2; 2] (player_init b 48000 (player_new b fone true)) (blank 2 4))) three_buffer = Some None /\
  option_map (fun b => tried (reader_parts b three 2 4 4 0 [2; 2] (player_init b 48000 (player_new b fone false)) (blank 2 4))) three_buffer = Some None /\
  option_map (fun b => tried (reader_parts b three 2 4 4 0 [4] (player_init b 48000 (player_new b fone false)) (blank 2 4))) three_buffer =
    Some (Some (as_block [[2; 4; 6; 0]; [-2; -4; -16; 0]]%Z, [Some 3%N])).
Proof. vm_compute. repeat split. Qed.
(** An envelope that ends in the last frame of a block of 4. In one go it is done in frame 3. In two parts it is done in frame 1, so that
    a [FreeParent] action silences the graph two frames too early. *)
Definition ending : env 24 128 := fst (env_run (asr_step 1) short_env [ERestart; EBlock 6; ETrigRelease]).
Definition ended (r : g_state (asr_gen (P := unit) (fun e : env 24 128 => fun _ => e)) * list (list f32)) : list (list SpecFloat.spec_float) * option N :=
  (map (map (@B2SF 24 128)) (snd r), snd (fst r)).
Theorem C70_done_refuted :
  ended (g_block (asr_gen (fun e : env 24 128 => fun _ => e)) (ending, None) 4 [] (blank 1 4)) = (map (map (fun z => B2SF (fze z (-6) : f32))) [[64; 27; 8; 1]]%Z, Some 3%N) /\
  ended (in_parts (asr_gen (fun e : env 24 128 => fun _ => e)) (ending, None) 0 [([], 2); ([], 2)] [] (blank 1 4)) = (map (map (fun z => B2SF (fze z (-6) : f32))) [[64; 27; 8; 1]]%Z, Some 1%N).
Proof. vm_compute. split; reflexivity. Qed.
Print Assumptions C70_done_refuted.
(** Addition of two inputs with a value that is set before frame 1 and again before frame 3 *)
Definition scaled : gen Z Z := wr_op Z.mul Some (math_gen 0%Z Z.add 1).
Example C70_parts_case : let l := [([], 1); ([10%Z], 2); ([5%Z; 100%Z], 1)] in let i := [[1; 2; 3; 4]; [10; 20; 30; 40]]%Z in let o := [[7; 7; 7; 7]]%Z in
  total l = 4 /\ shape (g_ins scaled) 4 i /\ shape (g_outs scaled) 4 o /\ in_parts scaled (1%Z, tt) 0 l i o = ((100%Z, tt), [[11; 220; 330; 4400]]%Z).
Proof. cbn. repeat split; repeat constructor. Qed.
