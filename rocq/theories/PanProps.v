(** C73: panning *)
From Coq Require Import Reals Lra Lia.
From Flocq Require Import Core BinarySingleNaN.
From Verif Require Import Base FloatBase OscModel WaveModel PanModel PanSpec PanProofs.
Local Open Scope R_scope.
(** The gains follow the cosine law, and the power is that of the input, up to the error of the approximations and the rounding of
    the angle *)
Theorem C73_law : forall (cosf sinf : f32 -> f32) e, approximates e cos cosf -> approximates e sin sinf -> forall p : f32, fin p -> -1 <= val p <= 1 ->
  let a := pan_angle (pan_set p) in let l := val (cosf a) in let r := val (sinf a) in
  Rabs (l - cos (pan_theta (val p))) <= e + bpow radix2 (-22) /\ Rabs (r - sin (pan_theta (val p))) <= e + bpow radix2 (-22) /\ Rabs (l * l + r * r - 1) <= 3 * e + 2 * (e * e).
Proof. intros cosf sinf e Hc Hs p Fp Hp. apply (gains cosf sinf e Hc Hs p Fp Hp). Qed.
Print Assumptions C73_law.
(** At the far left the other channel gets nothing but the error *)
Theorem C73_left : forall (cosf sinf : f32 -> f32) e, approximates e cos cosf -> approximates e sin sinf ->
  let a := pan_angle (pan_set (fneg fone)) in Rabs (val (cosf a) - 1) <= e /\ Rabs (val (sinf a)) <= e.
Proof. exact left_only. Qed.
Print Assumptions C73_left.
(** The angle grows with the position, rounding included *)
Theorem C73_monotone : forall p q : f32, fin p -> fin q -> -1 <= val p -> val p <= val q -> val q <= 1 -> val (pan_angle (pan_set p)) <= val (pan_angle (pan_set q)).
Proof. exact angle_monotone. Qed.
Print Assumptions C73_monotone.
(** The two outputs *)
Theorem C73_frame_f32 : forall (cosf sinf : f32 -> f32) e, approximates e cos cosf -> approximates e sin sinf -> e <= 1 / 2 ->
  forall (p : f32) (x : f32), fin p -> -1 <= val p <= 1 -> fin x -> Rabs (val x) <= 1 ->
  let o := pan_process cosf sinf (pan_set p) x in fin (fst o) /\ fin (snd o) /\
  Rabs (val (fst o) - val x * cos (pan_theta (val p))) <= e + bpow radix2 (-21) /\ Rabs (val (snd o) - val x * sin (pan_theta (val p))) <= e + bpow radix2 (-21).
Proof. intros cosf sinf e Hc Hs He p x. exact (frame_ok cosf sinf e Hc Hs He p x). Qed.
Print Assumptions C73_frame_f32.
Theorem C73_frame_f64 : forall (cosf sinf : f32 -> f32) e, approximates e cos cosf -> approximates e sin sinf -> e <= 1 / 2 ->
  forall (p : f32) (x : f64), fin p -> -1 <= val p <= 1 -> fin x -> Rabs (val x) <= 1 ->
  let o := pan_process cosf sinf (pan_set p) x in fin (fst o) /\ fin (snd o) /\
  Rabs (val (fst o) - val x * cos (pan_theta (val p))) <= e + bpow radix2 (-21) /\ Rabs (val (snd o) - val x * sin (pan_theta (val p))) <= e + bpow radix2 (-21).
Proof. intros cosf sinf e Hc Hs He p x. exact (frame_ok cosf sinf e Hc Hs He p x). Qed.
Print Assumptions C73_frame_f64.
(** A frame depends on the last position set, and on nothing else that happened before *)
Theorem C73_history : forall (cosf sinf : f32 -> f32) l p (x : f64), pan_run cosf sinf (pan_set p) (l ++ [PanFrame x]) =
  pan_run cosf sinf (pan_set p) l ++ [pan_process cosf sinf (pan_set (last_set set_of p l)) x].
Proof. exact run_last. Qed.
Print Assumptions C73_history.
(** There are such approximations; with them the centre is 3 dB down on both sides *)
Example C73_near : approximates (bpow radix2 (-25)) cos (near cos) /\ approximates (bpow radix2 (-25)) sin (near sin).
Proof. split; apply near_ok; [exact COS_bound | exact SIN_bound]. Qed.
Example C73_centre : let a := pan_angle (pan_set fzero) in Rabs (val (near cos a) - 1 / sqrt 2) <= bpow radix2 (-21) /\ Rabs (val (near sin a) - 1 / sqrt 2) <= bpow radix2 (-21).
Proof.
  destruct (C73_law (near cos) (near sin) _ (proj1 C73_near) (proj2 C73_near) fzero fin_fzero ltac:(cbn; lra)) as (A & B & _). intros a. fold a in A, B.
  replace (pan_theta (val (fzero : f32))) with (PI / 4) in A, B by (unfold pan_theta; cbn; lra). rewrite cos_PI4 in A. rewrite sin_PI4 in B.
  change (bpow radix2 (-21)) with (/ 2097152). change (bpow radix2 (-22)) with (/ 4194304) in A, B. change (bpow radix2 (-25)) with (/ 33554432) in A, B. split; lra.
Qed.
(** The documented range is not enforced: at 3 the left channel is inverted *)
Theorem C73_outside : forall cosf : f32 -> f32, (forall a : f32, fin a -> 0 <= val a <= 4 -> fin (cosf a) /\ Rabs (val (cosf a) - cos (val a)) <= 1 / 4) ->
  val (cosf (pan_angle (pan_set (fz 3)))) < 0.
Proof.
  intros cosf H. assert (B : B2SF (pan_angle (pan_set (fz 3))) = SpecFloat.S754_finite false 13176795 (-22)) by (vm_compute; reflexivity). set (a := pan_angle (pan_set (fz 3))) in *.
  assert (V : val a = 13176795 / 4194304) by (unfold val; rewrite <- SF2R_B2SF, B; reflexivity). assert (Fa : fin a) by (unfold fin; rewrite <- is_finite_SF_B2SF, B; reflexivity).
  destruct (H a Fa ltac:(lra)) as [_ E]. destruct (sin_cos_slow (val a) PI) as [_ S]. rewrite cos_PI in S. pose proof pi_bounds as P. assert (D : Rabs (val a - PI) <= 1 / 4) by (apply Rabs_le; lra).
  apply Rabs_le_inv in E. assert (T : Rabs (cos (val a) - -1) <= 1 / 4) by lra. apply Rabs_le_inv in T. lra.
Qed.
Print Assumptions C73_outside.
