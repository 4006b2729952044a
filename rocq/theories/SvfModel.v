(** Model of knaster_core_dsp/src/ugens/svf.rs [SvfFilter].
    Generic in the number type and its operations.  Conversions of parameter values and of the sample rate to the
    sample type ([F::new]) are the identity; the integer parameter of the filter type is already decoded (C52);
    the [no_denormals] feature is off (svf.rs:268-278). *)
From Verif Require Import Base.
Local Open Scope nat_scope.

(** The operations of [knaster_core::Float] used by the filter *)
Record float_ops (F : Type) := mk_ops {
  o_zero : F; o_one : F; o_two : F; o_ten : F; o_forty : F; o_pi : F;
  o_add : F -> F -> F; o_sub : F -> F -> F; o_mul : F -> F -> F; o_div : F -> F -> F; o_opp : F -> F;
  o_tan : F -> F; o_sqrt : F -> F; o_powf : F -> F -> F }.
Arguments o_zero {F}. Arguments o_one {F}. Arguments o_two {F}. Arguments o_ten {F}. Arguments o_forty {F}.
Arguments o_pi {F}. Arguments o_add {F}. Arguments o_sub {F}. Arguments o_mul {F}. Arguments o_div {F}.
Arguments o_opp {F}. Arguments o_tan {F}. Arguments o_sqrt {F}. Arguments o_powf {F}.

(** svf.rs:19-38 *)
Inductive svf_type := Low | High | Band | Notch | Peak | All | Bell | LowShelf | HighShelf.

Section Svf.
Context {F : Type} (O : float_ops F).
Notation "x + y" := (o_add O x y). Notation "x - y" := (o_sub O x y).
Notation "x * y" := (o_mul O x y). Notation "x / y" := (o_div O x y).
Notation "- x" := (o_opp O x).
Notation one := (o_one O). Notation zero := (o_zero O). Notation two := (o_two O).

(** svf.rs:43-58 *)
Record svf := mk_svf {
  v_ty : svf_type; v_cutoff : F; v_q : F; v_gain : F;
  v_ic1 : F; v_ic2 : F;
  v_a1 : F; v_a2 : F; v_a3 : F; v_m0 : F; v_m1 : F; v_m2 : F }.
(** svf.rs:63-78 [new] *)
Definition svf_new (ty : svf_type) (cutoff q gain : F) : svf :=
  mk_svf ty cutoff q gain zero zero zero zero zero zero zero zero.

(** svf.rs:145-256: [g], [k] and the output mix [m0], [m1], [m2] of each type *)
Definition amp_of (gain : F) : F := o_powf O (o_ten O) (gain / o_forty O).
(** svf.rs:145-256: [g] of each type *)
Definition g_of (ty : svf_type) (cutoff q gain sr : F) : F :=
  let t := o_tan O ((o_pi O * cutoff) / sr) in
  match ty with
  | Bell | LowShelf => t / o_sqrt O (amp_of gain)
  | HighShelf => t * o_sqrt O (amp_of gain)
  | _ => t
  end.
(** svf.rs:145-256: [k] of each type *)
Definition k_of (ty : svf_type) (q gain : F) : F :=
  match ty with Bell => one / (q * amp_of gain) | _ => one / q end.
(** svf.rs:145-256: [m0], [m1] and [m2] of each type *)
Definition m_of (ty : svf_type) (k amp : F) : F * F * F :=
  match ty with
  | Low => (zero, zero, one)
  | Band => (zero, one, zero)
  | High => (one, - k, - one)
  | Notch => (one, - k, zero)
  | Peak => (one, - k, - two)
  | All => (one, (- two) * k, zero)
  | Bell => (one, k * (amp * amp - one), zero)
  | LowShelf => (one, k * (amp - one), amp * amp - one)
  | HighShelf => (amp * amp, (k * (one - amp)) * amp, one - amp * amp)
  end.
(** svf.rs:143-257 [set_coeffs], always called with the filter's own settings *)
Definition set_coeffs (s : svf) (sr : F) : svf :=
  let g := g_of (v_ty s) (v_cutoff s) (v_q s) (v_gain s) sr in
  let k := k_of (v_ty s) (v_q s) (v_gain s) in
  let a1 := one / (one + g * (g + k)) in
  let a2 := g * a1 in
  let a3 := g * a2 in
  let '(m0, m1, m2) := m_of (v_ty s) k (amp_of (v_gain s)) in
  mk_svf (v_ty s) (v_cutoff s) (v_q s) (v_gain s) (v_ic1 s) (v_ic2 s) a1 a2 a3 m0 m1 m2.

(** svf.rs:260-279 [process_sample] *)
Definition process_sample (s : svf) (v0 : F) : svf * F :=
  let v3 := v0 - v_ic2 s in
  let v1 := v_a1 s * v_ic1 s + v_a2 s * v3 in
  let v2 := v_ic2 s + v_a2 s * v_ic1 s + v_a3 s * v3 in
  (mk_svf (v_ty s) (v_cutoff s) (v_q s) (v_gain s) (two * v1 - v_ic1 s) (two * v2 - v_ic2 s)
     (v_a1 s) (v_a2 s) (v_a3 s) (v_m0 s) (v_m1 s) (v_m2 s),
   v_m0 s * v0 + v_m1 s * v1 + v_m2 s * v2).

(** svf.rs:79-137: [init], the parameters, and one sample *)
Inductive svf_op :=
| OInit (sr : F) | OCutoff (x : F) | OQ (x : F) | OGain (x : F) | OType (ty : svf_type) | OCalc | OSample (x : F).
(** svf.rs:79-137: one call *)
Definition svf_step (sr : F) (s : svf) (o : svf_op) : svf * option F :=
  let set ty c q gn := set_coeffs (mk_svf ty c q gn (v_ic1 s) (v_ic2 s)
                         (v_a1 s) (v_a2 s) (v_a3 s) (v_m0 s) (v_m1 s) (v_m2 s)) sr in
  match o with
  | OInit sr' => (set_coeffs s sr', None)
  | OCutoff x => (set (v_ty s) x (v_q s) (v_gain s), None)
  | OQ x => (set (v_ty s) (v_cutoff s) x (v_gain s), None)
  | OGain x => (set (v_ty s) (v_cutoff s) (v_q s) x, None)
  | OType ty => (set ty (v_cutoff s) (v_q s) (v_gain s), None)
  | OCalc => (set_coeffs s sr, None)
  | OSample x => let r := process_sample s x in (fst r, Some (snd r))
  end.
(** plumbing: any sequence of calls *)
Fixpoint svf_run (sr : F) (s : svf) (l : list svf_op) : svf * list F :=
  match l with
  | [] => (s, [])
  | o :: l' =>
      let r := svf_step sr s o in
      let rest := svf_run sr (fst r) l' in
      (fst rest, match snd r with Some y => y :: snd rest | None => snd rest end)
  end.
End Svf.
Arguments svf : clear implicits. Arguments svf_op : clear implicits.
