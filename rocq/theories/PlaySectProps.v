(** C67: what is heard when a section of a buffer is played. *)
From Coq Require Import Reals Lra.
From Flocq Require Import Core BinarySingleNaN.
From Verif Require Import Base FloatBase BufferModel PlayModel PlaySpec PlayProofs PlaySectProofs PlayProps.
Local Open Scope R_scope.

(** Whatever a reader has played and been set to before: at rate 1 on a server with the sample rate of the buffer, after setting the
    start to [A] seconds and the duration to [D] seconds (or the end to [A + D] seconds) within the buffer and a restart, it plays
    frames [A * sr] up to but not including [(A + D) * sr], value for value, whatever the block sizes. Without looping, silence
    follows and the end of the last frame is reported as done, and no other. When looping, the section is repeated without a gap and
    done is never reported. *)
Theorem C67_section : forall prec emax (I : ieee prec emax) b (mem : list (binary_float prec emax)) n ch channels sr,
  from_vec_interleaved (N.of_nat (n * ch)) (N.of_nat ch) (fz (Z.of_N sr)) = Some b -> length mem = (n * ch)%nat ->
  (1 <= sr <= 2 ^ 24)%N -> (N.of_nat n < 2 ^ 24 * sr)%N -> (channels <= ch)%nat ->
  forall rate l0 ops looping (A D : N) last, all_fin mem -> (1 <= D)%N -> ((A + D) * sr <= N.of_nat n)%N ->
  last = PDur (fz (Z.of_N D)) \/ last = PEnd (fz (Z.of_N (A + D))) -> forall sizes,
  let s := fold_left (fun s o => fst (pop_step b channels s o)) (ops ++ [PRate fone; PLoop looping; PStart (fz (Z.of_N A)); last; PRestart])
             (player_init b sr (player_new b rate l0)) in
  let r := play_blocks b mem channels sizes s in
  let a := N.to_nat (A * sr) in let d := N.to_nat (D * sr) in
  (forall i c, (i < length (ends_of sizes))%nat -> (c < channels)%nat -> shows (out_at (snd (fst r)) i c)
    (if looping then val (stored mem ch c (a + i mod d)) else if Nat.ltb i d then val (stored mem ch c (a + i)) else 0)) /\
  snd r = if looping then map (fun _ => None) (ends_of sizes) else reports (d - 1) (ends_of sizes).
Proof. intros prec emax I. exact sect_plays. Qed.
Print Assumptions C67_section.

(** A buffer of 6 frames at 2 Hz, the second from 1 s, after it has been played to its end *)
Definition six_buffer : option buffer := from_vec_interleaved 6 1 (fz (Z.of_N 2)).
Definition section_of (looping : bool) (last : pop) :=
  option_map (fun b => heard (play_blocks b three 1 [3; 2]%nat
    (fold_left (fun s o => fst (pop_step b 1 s o)) [PBlock 9; PRate fone; PLoop looping; PStart (fz (Z.of_N 1)); last; PRestart] (player_init b 2 (player_new b fone false))))) six_buffer.
Example C67_section_case : length three = (6 * 1)%nat /\ all_fin three /\
  section_of false (PDur (fz (Z.of_N 1))) = Some (shown [[4]; [-4]; [0]; [0]; [0]]%Z, [None; Some 2%N; None; None; None]) /\
  section_of false (PEnd (fz (Z.of_N (1 + 1)))) = section_of false (PDur (fz (Z.of_N 1))) /\
  section_of true (PDur (fz (Z.of_N 1))) = Some (shown [[4]; [-4]; [4]; [-4]; [4]]%Z, [None; None; None; None; None]).
Proof. split; [reflexivity |]. split; [repeat constructor |]. repeat split; vm_compute; reflexivity. Qed.
