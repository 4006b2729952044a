(** C28: linear parameter ramps. *)
From Coq Require Import Reals Lra.
From Flocq Require Import Core BinarySingleNaN.
From Verif Require Import Base FloatBase SmoothModel SmoothSpec SmoothProofs.
Local Open Scope N_scope.

(** With a ramp at block rate set for parameter [j], after a change to [v]: in every later block, whatever happens to other
    parameters and whatever the block sizes, the value of the parameter is the point of the line from the start value to
    [v] at the number of frames since the ramp began (or its end). *)
Theorem C28_value_at_partial : forall w j s v ops b,
  nth_error w j = Some s -> ramps_at_block_rate s -> leaves_alone j ops ->
  value_after j None (snd (smooth_run w (SApply j (PFloat v) :: ops ++ [SBlock b]))) =
  Some (lerp (ramp_start s) v (N.min (frames_in ops) (ramp_length s)) (ramp_length s)).
Proof. exact ramp_values. Qed.
Print Assumptions C28_value_at_partial.

(** In floating point arithmetic: the value starts at the start value, moves monotonically towards the target, and from the
    end of the ramp on it is the target if the difference of target and start is a floating point number. *)
Theorem C28_ramp_partial : forall w j s v ops b,
  nth_error w j = Some s -> ramps_at_block_rate s -> leaves_alone j ops -> 0 < ramp_length s < U64 ->
  fin (ramp_start s) -> fin v ->
  (Rabs (val (ramp_start s)) <= bpow radix2 1000)%R -> (Rabs (val v) <= bpow radix2 1000)%R ->
  exists x, value_after j None (snd (smooth_run w (SApply j (PFloat v) :: ops ++ [SBlock b]))) = Some x /\ fin x /\
  (* the first block *)
  (frames_in ops = 0 -> val x = val (ramp_start s)) /\
  (* from the end on *)
  (ramp_length s <= frames_in ops ->
     let d := (val v - val (ramp_start s))%R in
     (Rabs (val x - val v) <= / 2 * ulp radix2 (SpecFloat.fexp 53 1024) d +
       / 2 * ulp radix2 (SpecFloat.fexp 53 1024) (@rnd 53 1024 d + val (ramp_start s)))%R /\
     (@rnd 53 1024 d = d -> val x = val v)) /\
  (* monotone: a later value is on the same side *)
  (forall ops2 b2, leaves_alone j (ops ++ ops2) ->
     exists y, value_after j None (snd (smooth_run w (SApply j (PFloat v) :: (ops ++ ops2) ++ [SBlock b2]))) = Some y /\
       (val (ramp_start s) <= val v -> val x <= val y)%R /\ (val v <= val (ramp_start s) -> val y <= val x)%R).
Proof.
  intros w j s v ops b Hw Hr Hl [HL HU] Fs Fv Bs Bv.
  exists (lerp (ramp_start s) v (N.min (frames_in ops) (ramp_length s)) (ramp_length s)).
  split; [apply ramp_values; assumption |].
  split; [apply (lerp_ok (ramp_start s) v 1000 Fs Fv ltac:(lia) ltac:(lia) Bs Bv); lia |].
  split.
  { intros E. rewrite E. replace (N.min 0 (ramp_length s)) with 0 by lia.
    apply (lerp_start (ramp_start s) v 1000 Fs Fv ltac:(lia) ltac:(lia) Bs Bv); lia. }
  split.
  { intros E. replace (N.min (frames_in ops) (ramp_length s)) with (ramp_length s) by lia. cbv zeta. split.
    - rewrite (lerp_end_close (ramp_start s) v 1000 Fs Fv ltac:(lia) ltac:(lia) Bs Bv) by lia.
      set (S0 := val (ramp_start s)). set (V := val v).
      assert (A : (Rabs (@rnd 53 1024 (V - S0) - (V - S0)) <= / 2 * ulp radix2 (SpecFloat.fexp 53 1024) (V - S0))%R)
        by (apply error_le_half_ulp; exact (FLT_exp_valid _ _)).
      assert (B : (Rabs (@rnd 53 1024 (@rnd 53 1024 (V - S0) + S0) - (@rnd 53 1024 (V - S0) + S0)) <=
        / 2 * ulp radix2 (SpecFloat.fexp 53 1024) (@rnd 53 1024 (V - S0) + S0))%R)
        by (apply error_le_half_ulp; exact (FLT_exp_valid _ _)).
      replace (@rnd 53 1024 (@rnd 53 1024 (V - S0) + S0) - V)%R with
        ((@rnd 53 1024 (@rnd 53 1024 (V - S0) + S0) - (@rnd 53 1024 (V - S0) + S0)) + (@rnd 53 1024 (V - S0) - (V - S0)))%R by ring.
      eapply Rle_trans; [apply Rabs_triang |]. lra.
    - intros Q. apply (lerp_end (ramp_start s) v 1000 Fs Fv ltac:(lia) ltac:(lia) Bs Bv); [lia | lia | exact Q]. }
  intros ops2 b2 Hl2. eexists. split; [apply ramp_values; eassumption |].
  assert (Q : N.min (frames_in ops) (ramp_length s) <= N.min (frames_in (ops ++ ops2)) (ramp_length s)).
  { assert (frames_in ops <= frames_in (ops ++ ops2)); [| lia].
    clear. induction ops as [| [i x | b] ops IH]; cbn [app frames_in]; lia. }
  apply (lerp_mono (ramp_start s) v 1000 Fs Fv ltac:(lia) ltac:(lia) Bs Bv); lia.
Qed.
Print Assumptions C28_ramp_partial.

(** Parameter 1 of 2: a ramp of 200 frames, from 3 to 5, blocks of 64. *)
Definition fl (z : Z) : f64 := fz z.
Definition ramp200 : wsmooth := [SNone fzero; SLinear (fl 1) (fl 3) 200 200 BlockRate true].
Definition ramp_ops : list sop := [SBlock 64; SApply 0 (PFloat (fl 9)); SBlock 64; SBlock 64; SBlock 64].
Definition values (j : nat) (calls : list (nat * pvalue)) : list SpecFloat.spec_float :=
  List.concat (map (fun c => match c with (i, PFloat x) => if Nat.eqb i j then [B2SF x] else [] | _ => [] end) calls).
Example C28_example :
  nth_error ramp200 1 = Some (SLinear (fl 1) (fl 3) 200 200 BlockRate true) /\ leaves_alone 1 ramp_ops /\
  values 1 (snd (smooth_run ramp200 (SApply 1 (PFloat (fl 5)) :: ramp_ops ++ [SBlock 64]))) =
    [B2SF (fl 3); B2SF (fdiv (fl 364) (fl 100)); B2SF (fdiv (fl 428) (fl 100)); B2SF (fdiv (fl 492) (fl 100)); B2SF (fl 5)].
Proof.
  split; [reflexivity |]. split.
  - intros i v H. cbn in H. repeat (destruct H as [H | H]; [try discriminate H; injection H as <- <-; discriminate |]). destruct H.
  - vm_compute. reflexivity.
Qed.

(** Smoothing switched off during a ramp and on again: the next ramp starts where the first one was (at the value that the next
    block would have applied). *)
Theorem C28_off_on_partial : forall w j s v ops d2 v2 ops2 b, nth_error w j = Some s -> ramps_at_block_rate s -> leaves_alone j ops -> leaves_alone j ops2 ->
  value_after j None (snd (smooth_run w ((SApply j (PFloat v) :: ops) ++
    [SApply j (PSmoothing NoSmoothing BlockRate); SApply j (PSmoothing (Linear d2) BlockRate)] ++ SApply j (PFloat v2) :: ops2 ++ [SBlock b]))) =
  Some (lerp (lerp (ramp_start s) v (N.min (frames_in ops) (ramp_length s)) (ramp_length s)) v2 (N.min (frames_in ops2) d2) d2).
Proof. exact off_on. Qed.
Print Assumptions C28_off_on_partial.
(** From 3 towards 5 in 200 frames, off and on again after 100 frames, then back towards 2 in 2 blocks *)
Example C28_off_on_example : values 1 (snd (smooth_run ramp200 ((SApply 1 (PFloat (fl 5)) :: [SBlock 50; SBlock 50]) ++
    [SApply 1 (PSmoothing NoSmoothing BlockRate); SApply 1 (PSmoothing (Linear 100) BlockRate)] ++ SApply 1 (PFloat (fl 2)) :: [SBlock 50; SBlock 50] ++ [SBlock 50]))) =
  [B2SF (fl 3); B2SF (fdiv (fl 7) (fl 2)); B2SF (fl 4); B2SF (fl 3); B2SF (fl 2)].
Proof. vm_compute. reflexivity. Qed.

(** Refuted: at the end of the ramp the value is not exactly the target in floating point: from 2^70 to 1, it is 0. *)
Theorem C28_exact_end_refuted :
  value_after 0 None (snd (smooth_run [SLinear fzero (fze 1 70) 64 64 BlockRate true]
    [SApply 0 (PFloat (fl 1)); SBlock 64; SBlock 64; SBlock 64])) = Some (fzero : f64) /\
  B2SF (fzero : f64) <> B2SF (fl 1).
Proof.
  split; [| vm_compute; discriminate].
  assert (E : option_map (@B2SF 53 1024) (value_after 0 None (snd (smooth_run [SLinear fzero (fze 1 70) 64 64 BlockRate true]
    [SApply 0 (PFloat (fl 1)); SBlock 64; SBlock 64; SBlock 64]))) = Some (B2SF (fzero : f64))) by (vm_compute; reflexivity).
  destruct (value_after 0 None _) as [x |]; [| discriminate E]. cbn [option_map] in E. f_equal. apply B2SF_inj.
  injection E. auto.
Qed.
Print Assumptions C28_exact_end_refuted.

(** Refuted: the first ramp does not start from the current value: the parameter is set to 5, then smoothing is turned on
    and the parameter set to 6; the first value of the ramp is 0. *)
Theorem C28_starts_at_current_refuted :
  values 0 (snd (smooth_run (smooth_new 1)
    [SApply 0 (PFloat (fl 5)); SBlock 64; SApply 0 (PSmoothing (Linear 128) BlockRate); SApply 0 (PFloat (fl 6)); SBlock 64; SBlock 64; SBlock 64])) =
  [B2SF (fl 5); B2SF (fl 0); B2SF (fl 3); B2SF (fl 6)].
Proof. vm_compute. reflexivity. Qed.
Print Assumptions C28_starts_at_current_refuted.

(** Refuted: a change of the ramp length during a ramp stops it where it is; the target is not reached however many blocks
    follow. *)
Definition stuck (w : wsmooth) : bool := match w with [SLinear _ _ _ _ BlockRate true] => true | _ => false end.
Lemma stuck_shape : forall w, stuck w = true -> exists a b d e, w = [SLinear a b d e BlockRate true].
Proof.
  intros [| [c | a b d e [] []] [| s w]] H; try discriminate H. exists a, b, d, e. reflexivity.
Qed.
Theorem C28_length_change_refuted : forall n,
  values 0 (snd (smooth_run (smooth_new 1)
    ([SApply 0 (PSmoothing (Linear 128) BlockRate); SApply 0 (PFloat (fl 6)); SBlock 64; SBlock 64;
      SApply 0 (PSmoothing (Linear 256) BlockRate)] ++ repeat (SBlock 64) n))) =
  [B2SF (fl 0); B2SF (fl 3)].
Proof.
  intros n. rewrite smooth_run_app. cbn [snd].
  set (pre := smooth_run (smooth_new 1) _).
  assert (S0 : stuck (fst pre) = true) by (vm_compute; reflexivity).
  destruct (stuck_shape _ S0) as (a & b & d & e & S1). rewrite S1.
  assert (Q : snd (smooth_run [SLinear a b d e BlockRate true] (repeat (SBlock 64) n)) = []).
  { clear. induction n as [| n IH]; [reflexivity |]. cbn [repeat smooth_run smooth_step smooth_block next_value fst snd].
    cbn [N.eqb negb andb fst snd app]. exact IH. }
  rewrite Q, app_nil_r. vm_compute. reflexivity.
Qed.
Print Assumptions C28_length_change_refuted.

(** Refuted: a ramp of length 0 sets the parameter to NaN, and leaves it there. *)
Theorem C28_zero_length_refuted :
  values 0 (snd (smooth_run (smooth_new 1)
    [SApply 0 (PSmoothing (Linear 0) BlockRate); SApply 0 (PFloat (fl 6)); SBlock 64; SBlock 64; SBlock 64])) =
  [SpecFloat.S754_nan].
Proof. vm_compute. reflexivity. Qed.
Print Assumptions C28_zero_length_refuted.

(** Refuted: a ramp at audio rate advances one frame per block: after 4 blocks of 64 frames, a ramp of 64 frames has done 3. *)
Theorem C28_audio_rate_refuted :
  values 0 (snd (smooth_run (smooth_new 1)
    [SApply 0 (PSmoothing (Linear 64) AudioRate); SApply 0 (PFloat (fl 64)); SBlock 64; SBlock 64; SBlock 64; SBlock 64])) =
  [B2SF (fl 0); B2SF (fl 1); B2SF (fl 2); B2SF (fl 3)].
Proof. vm_compute. reflexivity. Qed.
Print Assumptions C28_audio_rate_refuted.
(** Refuted: when a wrapper outside runs parts of a block (here a block of 64 frames in 4 parts), each part advances the
    ramp by a whole block: a ramp of 128 frames has reached its end within the first 48 frames. *)
Theorem C28_partial_blocks_refuted :
  values 0 (snd (smooth_run (smooth_new 1)
    ([SApply 0 (PSmoothing (Linear 128) BlockRate); SApply 0 (PFloat (fl 64))] ++ repeat (SBlock 64) 4))) =
  [B2SF (fl 0); B2SF (fl 32); B2SF (fl 64)].
Proof. vm_compute. reflexivity. Qed.
Print Assumptions C28_partial_blocks_refuted.
