(** C89: the range of the band-limited waveforms in rounded arithmetic. *)
From Coq Require Import Reals Lra.
From Flocq Require Import Core BinarySingleNaN.
From Verif Require Import Base FloatBase PolyModel PolySpec PolyProofs PolyFloatSpec PolyFloatProofs.
Local Open Scope R_scope.

(** After every history of sample rate, frequency, pulse width, waveform and phase changes in range the sine, cosine, sawtooth,
    ramp and triangle are numbers from -1 to 1, in [f32] and [f64]: rounding never takes them out of the range. *)
Theorem C89_range : forall prec emax (I : ieee prec emax) fpi ftau fsin fcos w freq sr l,
  sane fsin -> sane fcos -> sane_tau ftau ->
  fin freq -> 0 <= val freq <= bpow radix2 100 -> fin sr -> 1 <= val sr -> Forall op_ok l ->
  let s := poly_run (Fops fpi ftau fsin fcos) (poly_new (Fops fpi ftau fsin fcos) w freq) (PInit sr :: l) in
  In (p_wave s) plain -> in_unit (next_sample (Fops fpi ftau fsin fcos) s).
Proof.
  intros prec emax I fpi ftau fsin fcos w freq sr l Hs Hc Ht F1 F2 S1 S2 H s W. apply plain_in; try assumption.
  unfold s. cbn [poly_run]. apply (run_ok fpi ftau fsin fcos l _ (init_ok fpi ftau fsin fcos w freq sr F1 F2 S1 S2) H).
Qed.
Print Assumptions C89_range.
(** So is the square, except in one case: where the phase is below one half but the phase plus one half is rounded to one, the
    two corrections are taken at the wrong sides and the sample is exactly 2. *)
Theorem C89_square_partial : forall prec emax (I : ieee prec emax) fpi ftau fsin fcos w freq sr l,
  sane fsin -> sane fcos -> sane_tau ftau ->
  fin freq -> 0 <= val freq <= bpow radix2 100 -> fin sr -> 1 <= val sr -> Forall op_ok l ->
  let s := poly_run (Fops fpi ftau fsin fcos) (poly_new (Fops fpi ftau fsin fcos) w freq) (PInit sr :: l) in
  p_wave s = Square ->
  let y := next_sample (Fops fpi ftau fsin fcos) s in
  in_unit y \/ (val (p_t s) < 1 / 2 /\ @rnd prec emax (val (p_t s) + 1 / 2) = 1 /\ fin y /\ val y = 2).
Proof.
  intros prec emax I fpi ftau fsin fcos w freq sr l Hs Hc Ht F1 F2 S1 S2 H s W. apply square_out; try assumption.
  unfold s. cbn [poly_run]. apply (run_ok fpi ftau fsin fcos l _ (init_ok fpi ftau fsin fcos w freq sr F1 F2 S1 S2) H).
Qed.
Print Assumptions C89_square_partial.

(** [f32], with stand-ins for the sine and cosine *)
Definition f32w : poly_ops (binary_float 24 128) :=
  Fops (fze 13176795 (-22)) (fze 13176795 (-21)) (fun _ => fzero) (fun _ => fzero).
(** The same in [f64] *)
Definition f64w : poly_ops (binary_float 53 1024) := Fops (fz 3) (fz 6) (fun _ => fzero) (fun _ => fzero).
(** That case happens: the square at 7200 Hz and 48 kHz in [f32], from the start, gives 2 as its eleventh sample, and at 4000 Hz
    as its nineteenth; in [f64] at 800 Hz as its 31st.  So does the rectangle of width one half. *)
Theorem C89_square_refuted :
  let out w hz n := next_sample f32w (poly_run f32w (poly_new f32w w (fz hz)) (PInit (fz 48000) :: repeat PSample n)) in
  feqb (out Square 7200%Z 10%nat) (fz 2) = true /\ feqb (out Square 4000%Z 18%nat) (fz 2) = true /\
  feqb (out Rectangle 7200%Z 10%nat) (fz 2) = true /\
  feqb (next_sample f64w (poly_run f64w (poly_new f64w Square (fz 800)) (PInit (fz 48000) :: repeat PSample 30))) (fz 2) = true.
Proof. vm_compute. repeat split; reflexivity. Qed.
Print Assumptions C89_square_refuted.
(** The waveforms with a pulse width fail in the same way: at 48 kHz in [f32], from the start, the modified square of width 0.2 gives 1.44 as
    its third sample at 7200 Hz and 1.5 as its fourth at 4800 Hz, where exact arithmetic stays within 1 (C60), and the rectangle of width
    0.001 at 16 Hz gives 2.998 as its fourth sample, where exact arithmetic stays within 2. *)
Theorem C89_width_refuted :
  let out w pw hz n := next_sample f32w (poly_run f32w (poly_new f32w w (fz hz)) (PInit (fz 48000) :: PPw pw :: repeat PSample n)) in
  fltb (fze 23 (-4)) (out ModifiedSquare (fdiv (fz 2) (fz 10)) 7200%Z 2%nat) = true /\
  feqb (out ModifiedSquare (fdiv (fz 2) (fz 10)) 4800%Z 3%nat) (fze 3 (-1)) = true /\
  fltb (fze 23 (-3)) (out Rectangle (fdiv (fz 1) (fz 1000)) 16%Z 3%nat) = true.
Proof. vm_compute. repeat split; reflexivity. Qed.
Print Assumptions C89_width_refuted.
(** The samples around it. *)
Example C89_around :
  map (fun n => B2SF (next_sample f32w (poly_run f32w (poly_new f32w Square (fz 8192)) (PInit (fz 65536) :: repeat PSample n)))) [0; 1; 2; 3; 4; 5]%nat =
  map (fun x : binary_float 24 128 => B2SF x) [fz 0; fz 1; fz 1; fz 1; fz 0; fz (-1)].
Proof. vm_compute. reflexivity. Qed.
(** The hypotheses can be met: the stand-ins above are sane. *)
Example C89_sane : sane (prec := 24) (emax := 128) (fun _ => fzero) /\ sane_tau (prec := 24) (emax := 128) (fze 13176795 (-21)).
Proof.
  split.
  - intros x _. split; [reflexivity |]. rewrite val_fzero, Rabs_R0. lra.
  - assert (E : B2SF (fze 13176795 (-21) : binary_float 24 128) = SpecFloat.S754_finite false 13176795 (-21)) by (vm_compute; reflexivity).
    split; [unfold fin; rewrite <- is_finite_SF_B2SF, E; reflexivity |].
    unfold val. rewrite <- SF2R_B2SF, E. unfold SF2R, F2R. cbn. lra.
Qed.
