(** C45: buffer playback only reads inside the buffer. *)
From Coq Require Import Reals Lra.
From Flocq Require Import Core BinarySingleNaN.
From Verif Require Import Base FloatBase BufferModel BufferSpec BufferProofs.
Open Scope N_scope.

(** A buffer made from interleaved samples, with at least one frame, a sample rate that divides the tesimals per second (44100,
    48000, 96000, 192000, ...) and less than 2^24 seconds long, played with its default range and no more channels than it has:
    no rate (negative, infinite or NaN included), looping, restart or block size makes it read outside. *)
Theorem C45_default_partial : forall len ch sr b server rate looping channels ops,
  from_vec_interleaved len ch (fz (Z.of_N sr)) = Some b -> ch <= len -> 1 <= sr <= 2 ^ 24 -> len / ch < 2 ^ 24 * sr -> (Z.of_N sr | 282240000)%Z -> N.of_nat channels <= ch ->
  Forall keeps_range ops -> inside b (player_run b channels (player_init b server (player_new b rate looping)) ops).
Proof.
  intros len ch sr b server rate looping channels ops Hb Hl Hs Hlen Hd Hc Ho. unfold from_vec_interleaved in Hb. destruct (N.eqb_spec ch 0) as [| N0]; [discriminate Hb |].
  assert (F1 : 1 <= len / ch) by (apply N.div_le_lower_bound; lia). assert (M : len / ch * ch <= len) by (rewrite N.mul_comm; apply N.mul_div_le; exact N0).
  assert (Ef : b_frames b = fz (Z.of_N (len / ch))) by (injection Hb as <-; reflexivity). assert (Es : b_sr b = fz (Z.of_N sr)) by (injection Hb as <-; reflexivity).
  assert (Ec : b_ch b = ch) by (injection Hb as <-; reflexivity). assert (El : b_len b = len) by (injection Hb as <-; reflexivity). clear Hb.
  destruct (init_ok b (Z.of_N (len / ch)) (Z.of_N sr) server rate looping Ef Es) as [A B]; try lia; [exact Hd |].
  assert (F53 : (1 <= Z.of_N (len / ch) <= 2 ^ 53)%Z) by nia.
  assert (Q : (Z.to_N (Z.of_N (len / ch)) * b_ch b <= b_len b)) by (rewrite N2Z.id, Ec, El; exact M).
  apply run_inside with (F := Z.of_N (len / ch)); try assumption; try congruence.
  apply range_kept with (F := Z.of_N (len / ch)); try assumption; congruence.
Qed.
Print Assumptions C45_default_partial.
(** The same for every sample rate, length up to 2^53 frames, range and change of the range, provided start and end stay inside the
    buffer. Partial: nothing in the code makes sure of that. *)
Theorem C45_range_partial : forall len ch sr b channels s ops,
  from_vec_interleaved len ch sr = Some b -> ch <= len -> len / ch <= 2 ^ 53 -> N.of_nat channels <= ch ->
  fleb (b_frames b) (pl_rp s) = false -> always_ok b channels s ops -> inside b (player_run b channels s ops).
Proof.
  intros len ch sr b channels s ops Hb Hl Hlen Hc Hp Ha. unfold from_vec_interleaved in Hb. destruct (N.eqb_spec ch 0) as [| N0]; [discriminate Hb |].
  assert (F1 : 1 <= len / ch) by (apply N.div_le_lower_bound; lia). assert (M : len / ch * ch <= len) by (rewrite N.mul_comm; apply N.mul_div_le; exact N0).
  assert (Ef : b_frames b = fz (Z.of_N (len / ch))) by (injection Hb as <-; reflexivity).
  assert (Ec : b_ch b = ch) by (injection Hb as <-; reflexivity). assert (El : b_len b = len) by (injection Hb as <-; reflexivity). clear Hb.
  apply run_inside with (F := Z.of_N (len / ch)); try assumption; try congruence; try lia. right. exact Hp.
Qed.
Print Assumptions C45_range_partial.
(** Rendering a block reads what rendering its frames one by one reads. *)
Theorem C45_block : forall b channels n s, player_run b channels s [PBlock n] = player_run b channels s (repeat PSample n).
Proof.
  intros b channels n. induction n as [| n IH]; intros s; cbn [player_run pop_step player_block repeat fst snd app]; [reflexivity |].
  destruct (pl_fin s) eqn:E.
  - cbn [fst snd app]. unfold player_step. rewrite E. cbn [fst snd app]. clear IH.
    symmetry. induction n as [| n IHn]; [reflexivity |]. cbn [repeat player_run pop_step]. unfold player_step. rewrite E. exact IHn.
  - cbn [fst snd]. specialize (IH (fst (player_step b channels s))). cbn [player_run pop_step] in IH. rewrite app_nil_r in *. rewrite IH. reflexivity.
Qed.
Print Assumptions C45_block.

(** A stereo buffer of 3 frames at 48000 Hz, looping at rate 1.5, then backwards *)
Definition stereo : option buffer := from_vec_interleaved 6 2 (fz (Z.of_N 48000)).
Example stereo_case : (48000 | 282240000)%Z /\ option_map (fun b => player_run b 2 (player_init b 48000 (player_new b (fze 3 (-1)) true)) [PBlock 3; PRate (fz (-1)); PSample; PSample]) stereo =
  Some [0; 2; 1; 3; 2; 4; 3; 5; 0; 2; 1; 3; 2; 4; 3; 5; 0; 2; 1; 3].
Proof. split; [exists 5880%Z; reflexivity |]. vm_compute. reflexivity. Qed.

Definition four : buffer := from_vec 4 (fz 4).
Definition play (b : buffer) (channels : nat) (ops : list pop) : list N := player_run b channels (player_init b 4 (player_new b fone false)) ops.
(** One second of sound, then moved to start at half a second: it plays on for a second, half of it outside the buffer. *)
Theorem C45_start_refuted : play four 1 [PStart (fze 1 (-1)); PRestart; PBlock 8] = [2; 3; 3; 0; 4; 1; 5; 2] /\ ~ inside four (play four 1 [PStart (fze 1 (-1)); PRestart; PBlock 8]).
Proof. assert (E : play four 1 [PStart (fze 1 (-1)); PRestart; PBlock 8] = [2; 3; 3; 0; 4; 1; 5; 2]) by (vm_compute; reflexivity). split; [exact E |]. rewrite E. intros H. inversion_clear H. inversion_clear H1. inversion_clear H2. inversion_clear H3. inversion_clear H4. vm_compute in H3. discriminate H3. Qed.
Print Assumptions C45_start_refuted.
(** A longer duration or a later end than the buffer is not limited either, *)
Theorem C45_end_refuted : play four 1 [PDur (fz 2); PBlock 6] = [0; 1; 1; 2; 2; 3; 3; 0; 4; 1; 5; 2] /\ play four 1 [PEnd (fz 2); PBlock 6] = [0; 1; 1; 2; 2; 3; 3; 0; 4; 1; 5; 2].
Proof. split; vm_compute; reflexivity. Qed.
Print Assumptions C45_end_refuted.
(** nor a start after the end of the buffer. *)
Theorem C45_start_at_refuted : player_run four 1 (player_init four 4 (start_at (2, 0) (player_new four fone false))) [PSample] = [8; 1].
Proof. vm_compute. reflexivity. Qed.
Print Assumptions C45_start_at_refuted.
(** [Buffer::new] with several channels counts samples as frames. *)
Theorem C45_new_refuted : b_len (buffer_new 4 2 (fz 4)) = 4 /\ play (buffer_new 4 2 (fz 4)) 1 [PBlock 4] = [0; 2; 2; 0; 4; 2; 6; 0].
Proof. split; vm_compute; reflexivity. Qed.
Print Assumptions C45_new_refuted.
(** A player with more channels than the buffer reads past its end in the last frame. *)
Theorem C45_channels_refuted : play four 2 [PBlock 4] = [0; 1; 1; 2; 1; 2; 2; 3; 2; 3; 3; 0; 3; 0; 4; 1].
Proof. vm_compute. reflexivity. Qed.
Print Assumptions C45_channels_refuted.
(** An empty buffer is read at its first sample. *)
Theorem C45_empty_refuted : forall channels, (0 < channels)%nat -> exists i, In i (play (from_vec 0 (fz 4)) channels [PSample]) /\ ~ i < 0.
Proof.
  intros [| n] H; [lia |]. exists 0. split; [| lia]. unfold play. cbn [player_run pop_step]. apply in_or_app. left. unfold player_step.
  replace (pl_fin _) with false by (vm_compute; reflexivity). cbv iota zeta. set (e := fleb _ _).
  replace (snd (if e then _ else _)) with (concat (map (fun c => reads_at (from_vec 0 (fz 4)) (pl_rp (player_init (from_vec 0 (fz 4)) 4 (player_new (from_vec 0 (fz 4)) fone false))) (N.of_nat c)) (seq 0 (S n)))) by (destruct e; reflexivity).
  cbn [seq map concat reads_at]. left. vm_compute. reflexivity.
Qed.
Print Assumptions C45_empty_refuted.
(** The documentation says that a negative duration stands for the length of the buffer: it plays a single frame. *)
Theorem C45_negative_refuted : play four 1 [PDur (fz (-1)); PBlock 4] = [0; 1].
Proof. vm_compute. reflexivity. Qed.
Print Assumptions C45_negative_refuted.
