(** C66: what the noise generators compute; C55: how far the single precision pink noise can drift. *)
From Coq Require Import Reals Lra Lia.
From Flocq Require Import Core BinarySingleNaN.
From Verif Require Import Base FloatBase FloatMore NoiseModel NoiseSpec NoiseProofs EnvJumpSpec NoiseShapeSpec NoiseShapeProofs.
Local Open Scope R_scope.
Notation f64 := (binary_float 53 1024).

(** ** C55 *)
(** Single precision, any random numbers: up to 2^20 samples (22 s at 48 kHz) each sample [n] is within [n] * 2^-22 (and a last
    rounding) of the exact average, so it exceeds 1 by no more than that. *)
Theorem C55_bound_partial : forall ws : list (f32 * f32), Forall (fun w => white (fst w) /\ white (snd w)) ws ->
  exists s l, pink_run pink_new ws = Some (s, l) /\
    forall n, (n < length ws)%nat -> INR (S n) <= 1048576 -> exists o, nth_error l n = Some o /\ fin o /\
      Rabs (val o - pink_average (firstn (S n) ws)) <= INR (S n) * bpow radix2 (-22) + bpow radix2 (-24) /\
      Rabs (val o) <= 1 + INR (S n) * bpow radix2 (-22) + bpow radix2 (-24).
Proof.
  intros ws H. destruct (pink_drift ws H) as (s & l & E & Q). exists s, l. split; [exact E |]. intros n Hn Hb.
  destruct (Q n Hn Hb) as (o & O & F & D & A). exists o. split; [exact O |]. split; [exact F |]. split; [exact D |].
  replace (val o) with ((val o - pink_average (firstn (S n) ws)) + pink_average (firstn (S n) ws)) by ring.
  eapply Rle_trans; [apply Rabs_triang |]. lra.
Qed.
Print Assumptions C55_bound_partial.

Section Props.
Context {prec emax : Z} {I : ieee prec emax}.
Notation fl := (binary_float prec emax).
Notation eps := (@eps prec).

(** ** C66 *)
(** Any format and any random numbers: after any number of samples octave [i] holds the number it was given at the last sample that was
    its turn (every 2^(i+1) samples, the last octave every 256), and the tenth generator the newest number. *)
Theorem C66_octaves : forall (ws : list (fl * fl)) s l, pink_run pink_new ws = Some (s, l) ->
  p_ws s = map (fun i => latest (due i) fzero (map fst ws)) (seq 0 9) /\ p_on s = last (map snd ws) fzero.
Proof. intros ws s l E. destruct (run_state ws s l E) as (_ & _ & A & B). split; assumption. Qed.
(** With enough precision (f64) every output is the average of the ten, correctly rounded up to an ulp. *)
Theorem C66_average : forall ws : list (fl * fl), (28 <= prec)%Z -> Forall (fun w => white (fst w) /\ white (snd w)) ws ->
  exists s l, pink_run pink_new ws = Some (s, l) /\ length l = length ws /\
    forall n, (n < length ws)%nat -> exists o, nth_error l n = Some o /\ Rabs (val o - pink_average (firstn (S n) ws)) <= 2 * eps.
Proof. exact pink_exact. Qed.
(** Brown noise: each sample is the last one plus a tenth of the white sample, limited to -1..1. *)
Theorem C66_brown : forall ws : list fl, Forall white ws -> walks (4 * eps) 0 ws (brown_run fzero ws).
Proof.
  intros ws H. apply (brown_walks ws fzero); [| exact H]. split; [reflexivity |]. change (val (fzero : fl)) with 0. lra.
Qed.
(** Interpolated random numbers, in every reachable state: the output is on the line from the current value to the target; the line ends
    when the phase reaches 1, and then the next one starts exactly at its end and leads exactly to the new random number. *)
Theorem C66_random_line : forall (freq sr r0 r1 : fl) ops r, fin freq -> 0 <= val freq -> fin sr -> 1 <= val sr -> rand01 r0 -> rand01 r1 ->
  Forall rl_op_ok ops -> rand01 r ->
  let s := fold_left (fun s o => fst (rl_step s o)) ops (rl_init freq sr r0 r1) in
  let s' := fst (rl_step s (RFrame r)) in
  exists o, snd (rl_step s (RFrame r)) = [o] /\ Rabs (val o - (val (r_cur s) + val (r_phase s) * val (r_width s))) <= 2 * eps /\
    (fleb fone (fadd (r_phase s) (r_step s)) = false /\ r_cur s' = r_cur s /\ r_width s' = r_width s /\ r_phase s' = fadd (r_phase s) (r_step s) \/
     fleb fone (fadd (r_phase s) (r_step s)) = true /\ val (r_cur s') = val (r_cur s) + val (r_width s) /\ val (r_cur s') + val (r_width s') = val r /\ val (r_phase s') = 0).
Proof.
  intros freq sr r0 r1 ops r Ff Vf Fs Vs R0 R1 Ho Hr s s'.
  assert (Ok : rl_ok s).
  { unfold s. clear s s'. revert Ho. generalize (rl_init_ok freq sr r0 r1 Ff Vf Fs Vs R0 R1). generalize (rl_init freq sr r0 r1).
    induction ops as [| o ops IH]; intros s0 H0 Ho; [exact H0 |]. inversion Ho; subst. cbn [fold_left]. apply IH; [| assumption]. apply rl_step_ok; assumption. }
  exists (rl_out s). split; [reflexivity |]. split; [apply (rl_line s Ok) |]. unfold s'. cbn [rl_step fst r_phase].
  destruct (fleb fone (fadd (r_phase s) (r_step s))); [right | left]; (split; [reflexivity |]).
  - exact (rl_turn s r Ok Hr).
  - repeat split.
Qed.
(** At frequencies up to [F] neighbouring samples are no further apart than [F] divided by the sample rate, whatever the changes of
    the frequency. *)
Theorem C66_random_smooth : forall F (freq sr r0 r1 : fl) ops, fin sr -> 1 <= val sr <= bpow radix2 32 -> fin freq -> 0 <= val freq <= F -> rand01 r0 -> rand01 r1 ->
  Forall (freq_ok F) ops -> smooth (F / val sr + 9 * eps) (rl_run (rl_init freq sr r0 r1) ops).
Proof. exact rl_smooth. Qed.
End Props.
Print Assumptions C66_octaves.
Print Assumptions C66_average.
Print Assumptions C66_brown.
Print Assumptions C66_random_line.
Print Assumptions C66_random_smooth.

(** Cases *)
Example due_case : map (fun m => filter (fun i => due i m) (seq 0 9)) (seq 1 8) = [[0]; [1]; [0]; [2]; [0]; [1]; [0]; [3]]%nat /\ filter (fun i => due i 256) (seq 0 9) = [8]%nat /\ filter (fun i => due i 128) (seq 0 9) = [7]%nat.
Proof. vm_compute. repeat split. Qed.
Example latest_case : latest (due 1) 0%nat [10; 20; 30; 40; 50; 60; 70]%nat = 60%nat /\ latest (due 3) 0%nat [10; 20; 30]%nat = 0%nat.
Proof. vm_compute. split; reflexivity. Qed.
Lemma half_white : white (fze (-1) (-1) : f64).
Proof.
  exists (- 2 ^ 22)%Z. split; [| lia]. destruct (fze_ok (prec := 53) (emax := 1024) (-1) (-1)) as [A B].
  - rewrite rnd_grid by lia. apply below_top with (1 + -1)%Z; [lia |]. apply grid_size; lia.
  - split; [exact B |]. rewrite A, rnd_grid by lia. change (-1 * bpow radix2 (-1)) with (-1 * / 2). change (IZR (- 2 ^ 22)) with (-4194304). 
    change (-23)%Z with (-22 + -1)%Z. rewrite bpow_plus. change (bpow radix2 (-1)) with (/ 2).
    assert (Q : 4194304 * bpow radix2 (-22) = 1) by (change 4194304 with (bpow radix2 22); rewrite <- bpow_plus; reflexivity). lra.
Qed.
Example average_hyps : Forall (fun w : f64 * f64 => white (fst w) /\ white (snd w)) (repeat (fze (-1) (-1), fze (-1) (-1)) 300).
Proof. apply Forall_forall. intros w H. apply repeat_spec in H. subst w. split; apply half_white. Qed.
Example brown_case : map (fun o : f64 => B2SF o) (brown_run fzero (repeat (fze (-1) (-1)) 2)) = map (fun o : f64 => B2SF o) [fdiv (fneg fone) (fz 20); fdiv (fneg fone) (fz 10)].
Proof. vm_compute. reflexivity. Qed.
Example random_hyps : @rand01 24 128 (fzero : f32) /\ Forall (freq_ok 10) [RFrame (fzero : f32); RFreq fone; RFrame fzero].
Proof.
  assert (R : @rand01 24 128 (fzero : f32)) by (exists 0%Z; split; [apply grid_zero | lia]). split; [exact R |].
  constructor; [exact R |]. constructor; [split; [reflexivity | rewrite val_fone; lra] |]. constructor; [exact R | constructor].
Qed.
