(** C63: the response of the state variable filter at every frequency. *)
From Coq Require Import Reals Lra.
From Coquelicot Require Import Complex.
From Verif Require Import Base SvfModel SvfSpec SvfProofs SvfRespSpec SvfRespProofs.
Local Open Scope R_scope.

(** A sinusoid of any frequency below half the sample rate, whatever the filter was doing before, comes out with the complex
    gain of the analog filter of its type.  Missing: the bell. *)
Theorem C63_response_partial : forall sr s f, ready sr s -> 0 < f < sr / 2 -> v_ty s <> Bell ->
  responds sr s f (wanted (v_ty s) sr (v_cutoff s) (v_q s) (v_gain s) f).
Proof. exact responds_wanted. Qed.
Print Assumptions C63_response_partial.
(** At the cutoff the low, high and band pass multiply the amplitude by the resonance, the notch removes the sinusoid and the
    all pass inverts it. *)
Theorem C63_cutoff : forall sr s h, ready sr s -> at_cutoff (v_ty s) (v_q s) = Some h -> responds sr s (v_cutoff s) h.
Proof. exact responds_cutoff. Qed.
Print Assumptions C63_cutoff.
(** The bell is the analog bell at another frequency: the one whose relative frequency is [1 / sqrt A]. *)
Theorem C63_bell_partial : forall sr s f, ready sr s -> 0 < f < sr / 2 -> v_ty s = Bell ->
  let A := sqrt (linear_gain (v_gain s)) in
  responds sr s f (prototype Bell (v_q s) A (Ci * RtoC (sqrt A * relative sr (v_cutoff s) f)))%C.
Proof.
  intros sr s f H Hf E A. pose proof (responds_built sr s f H Hf) as R. unfold built in R. rewrite E in R. exact R.
Qed.
Print Assumptions C63_bell_partial.
(** A bell set to multiply by 16 around its cutoff multiplies a sinusoid at the cutoff by less than 3. *)
Theorem C63_bell_refuted : ready 48000 bell16 /\ v_ty bell16 = Bell /\ linear_gain (v_gain bell16) = 16 /\ v_cutoff bell16 = 12000 /\
  exists N, forall n, (N <= n)%nat -> Rabs (output bell16 (sinusoid 48000 12000 1 0) n) < 3.
Proof. exact (conj bell16_ready (conj eq_refl (conj bell16_gain (conj eq_refl bell16_quiet)))). Qed.
Print Assumptions C63_bell_refuted.

(** The prototypes are what their names say. *)
Example prototype_all : forall q A w, 0 < q -> Cmod (prototype All q A (Ci * RtoC w)%C) = 1.
Proof. exact all_flat. Qed.
Example prototype_bell : prototype Bell 1 4 (Ci * RtoC 1)%C = RtoC 16.
Proof.
  unfold prototype. cbv zeta. unfold Cdiv, Cinv, Cmult, Cplus, Ci, RtoC; cbn [fst snd]. apply Ceq; cbn [fst snd]; field.
Qed.
(** One octave (on the bent axis) above the cutoff a low pass with [q = 1/2] has a fifth of the amplitude. *)
Example prototype_low : Cmod (prototype Low (1 / 2) 1 (Ci * RtoC 2)%C) = 1 / 5.
Proof.
  unfold prototype. cbv zeta.
  replace (RtoC 1 / _)%C with (((- (3 / 25))%R, (- (4 / 25))%R) : C).
  - unfold Cmod; cbn [fst snd]. replace ((- (3 / 25)) ^ 2 + (- (4 / 25)) ^ 2) with (1 / 5 * (1 / 5)) by field.
    apply sqrt_square. lra.
  - rewrite Cdiv_RtoC by lra. unfold Cdiv, Cinv, Cmult, Cplus, Ci, RtoC; cbn [fst snd]. apply Ceq; cbn [fst snd]; field.
Qed.
(** Filters meeting the hypotheses *)
Example responds_example : let s := set_coeffs Rops (svf_new Rops LowShelf 1000 (1 / 2) 6) 48000 in
  ready 48000 s /\ v_ty s <> Bell /\ 0 < 440 < 48000 / 2.
Proof.
  split; [split; [unfold in_range; cbn; lra | eexists; reflexivity]|]. split; [discriminate | lra].
Qed.
Example cutoff_example : at_cutoff Low 3 = Some (0, - (3)) /\ at_cutoff Notch 3 = Some (0, 0).
Proof. split; reflexivity. Qed.
