(** Model of knaster_core_dsp/src/ugens/polyblep.rs [PolyBlep].
    Generic in the number type and its operations.  Literals are exact fractions rounded by [q_frac] (for [f32] the code
    rounds twice, through [f64], for 0.9999 and 0.0001).  The integer parameter of the waveform is already decoded (C52). *)
From Coq Require Import Reals.
From Flocq Require Import Core BinarySingleNaN.
From Verif Require Import Base FloatBase.
Local Open Scope nat_scope.

(** The operations of [knaster_core::Float] used by the oscillator; [q_frac p q] is the literal p/q *)
Record poly_ops (F : Type) := mk_pops {
  q_frac : Z -> Z -> F; q_pi : F; q_tau : F;
  q_add : F -> F -> F; q_sub : F -> F -> F; q_mul : F -> F -> F; q_div : F -> F -> F; q_opp : F -> F;
  q_ltb : F -> F -> bool; q_leb : F -> F -> bool; q_eqb : F -> F -> bool;
  q_trunc : F -> F; q_sin : F -> F; q_cos : F -> F }.
Arguments q_frac {F}. Arguments q_pi {F}. Arguments q_tau {F}. Arguments q_add {F}. Arguments q_sub {F}.
Arguments q_mul {F}. Arguments q_div {F}. Arguments q_opp {F}. Arguments q_ltb {F}. Arguments q_leb {F}.
Arguments q_eqb {F}. Arguments q_trunc {F}. Arguments q_sin {F}. Arguments q_cos {F}.

(** polyblep.rs:90-119 *)
Inductive waveform := Sawtooth | Sine | Cosine | Triangle | Square | Rectangle | Ramp | ModifiedTriangle | ModifiedSquare
| HalfWaveRectifiedSine | FullWaveRectifiedSine | TriangularPulse | TrapezoidFixed | TrapezoidVariable.

Section Poly.
Context {F : Type} (O : poly_ops F).
Notation "x + y" := (q_add O x y). Notation "x - y" := (q_sub O x y).
Notation "x * y" := (q_mul O x y). Notation "x / y" := (q_div O x y).
Notation "- x" := (q_opp O x).
Notation "x <? y" := (q_ltb O x y). Notation "x <=? y" := (q_leb O x y).
Notation n z := (q_frac O z 1).
Notation lit := (q_frac O).
Notation zero := (n 0). Notation one := (n 1). Notation two := (n 2).

(** polyblep.rs:39-41, 47-55 [blep] *)
Definition square_number (x : F) : F := x * x.
(** polyblep.rs:47-55 [blep] *)
Definition blep (t dt : F) : F :=
  if t <? dt then - square_number (t / dt - one)
  else if (one - dt) <? t then square_number ((t - one) / dt + one)
  else zero.
(** polyblep.rs:58-68 [blamp] *)
Definition blamp (t dt : F) : F :=
  if t <? dt then let t := t / dt - one in (((- one) / n 3) * square_number t) * t
  else if (one - dt) <? t then let t := (t - one) / dt + one in ((one / n 3) * square_number t) * t
  else zero.
(** [t -= bitwise_or_zero(t)] (polyblep.rs:70-72), which occurs throughout *)
Definition wrap (t : F) : F := t - q_trunc O t.
(** [clamp], [min], [max] of [num_traits::Float]; [min] and [max] return the other operand for a NaN *)
Definition clampf (x lo hi : F) : F := if x <? lo then lo else if hi <? x then hi else x.
(** [Float::min] *)
Definition minf (x y : F) : F := if x <? y then x else if q_eqb O y y then y else x.
(** [Float::max] *)
Definition maxf (x y : F) : F := if y <? x then x else if q_eqb O y y then y else x.

(** polyblep.rs:243-249 [sin], [cos] *)
Definition w_sin (t : F) : F := q_sin O (t * q_tau O).
(** polyblep.rs:247-249 [cos] *)
Definition w_cos (t : F) : F := q_cos O (t * q_tau O).
(** polyblep.rs:251-266 [half] *)
Definition w_half (t dt : F) : F :=
  let t2 := wrap (t + lit 1 2) in
  let y := if t <? lit 1 2 then two * q_sin O (t * q_tau O) - two / q_pi O else (- two) / q_pi O in
  y + (q_tau O * dt) * (blamp t dt + blamp t2 dt).
(** polyblep.rs:268-276 [full] *)
Definition w_full (t dt : F) : F :=
  let t1 := wrap (t + lit 1 4) in
  let y := two * q_sin O (t1 * q_pi O) - n 4 / q_pi O in
  y + (q_tau O * dt) * blamp t1 dt.
(** The naive triangle of [tri], [trap] and [trap2] (polyblep.rs:285-291, 358-363, 397-402) *)
Definition fold_tri (y : F) : F :=
  if n 3 <=? y then y - n 4 else if one <? y then two - y else y.
(** polyblep.rs:278-299 [tri] *)
Definition w_tri (t dt : F) : F :=
  let t1 := wrap (t + lit 1 4) in
  let t2 := wrap (t + lit 3 4) in
  fold_tri (t * n 4) + (n 4 * dt) * (blamp t1 dt - blamp t2 dt).
(** polyblep.rs:301-325 [tri2] *)
Definition w_tri2 (t dt pw0 : F) : F :=
  let pw := maxf (minf pw0 (lit 9999 10000)) (lit 1 10000) in
  let t1 := wrap (t + lit 1 2 * pw) in
  let t2 := wrap ((t + one) - lit 1 2 * pw) in
  let y := t * two in
  let y := if (two - pw) <=? y then (y - two) / pw
           else if pw <=? y then one - (y - pw) / (one - pw)
           else y / pw in
  y + (dt / (pw - pw * pw)) * (blamp t1 dt - blamp t2 dt).
(** polyblep.rs:327-355 [trip] *)
Definition w_trip (t dt pw : F) : F :=
  let t1 := wrap ((t + lit 3 4) + lit 1 2 * pw) in
  let y := if pw <=? t1 then - pw
           else let y := n 4 * t1 in
                if (two * pw) <=? y then (n 4 - y / pw) - pw else y / pw - pw in
  if zero <? pw then
    let t2 := wrap ((t1 + one) - lit 1 2 * pw) in
    let t3 := wrap ((t1 + one) - pw) in
    y + ((two * dt) / pw) * ((blamp t1 dt - two * blamp t2 dt) + blamp t3 dt)
  else y.
(** polyblep.rs:357-391 [trap] *)
Definition w_trap (t dt : F) : F :=
  let y := clampf (two * fold_tri (n 4 * t)) (- one) one in
  let t1 := wrap (t + lit 1 8) in
  let t2 := wrap (t1 + lit 1 2) in
  let y := y + (n 4 * dt) * (blamp t1 dt - blamp t2 dt) in
  let t1 := wrap (t + lit 3 8) in
  let t2 := wrap (t1 + lit 1 2) in
  y + (n 4 * dt) * (blamp t1 dt - blamp t2 dt).
(** polyblep.rs:393-432 [trap2] *)
Definition w_trap2 (t dt pw0 : F) : F :=
  let pw := minf pw0 (lit 9999 10000) in
  let scale := one / (one - pw) in
  let y := clampf (scale * fold_tri (n 4 * t)) (- one) one in
  let t1 := wrap ((t + lit 1 4) - lit 1 4 * pw) in
  let t2 := wrap (t1 + lit 1 2) in
  let y := y + ((scale * two) * dt) * (blamp t1 dt - blamp t2 dt) in
  let t1 := wrap ((t + lit 1 4) + lit 1 4 * pw) in
  let t2 := wrap (t1 + lit 1 2) in
  y + ((scale * two) * dt) * (blamp t1 dt - blamp t2 dt).
(** polyblep.rs:434-447 [sqr] *)
Definition w_sqr (t dt : F) : F :=
  let t2 := wrap (t + lit 1 2) in
  let y := if t <? lit 1 2 then one else - one in
  y + (blep t dt - blep t2 dt).
(** polyblep.rs:449-473 [sqr2] *)
Definition w_sqr2 (t dt pw : F) : F :=
  let t1 := wrap ((t + lit 7 8) + lit 1 4 * (pw - lit 1 2)) in
  let t2 := wrap ((t + lit 3 8) + lit 1 4 * (pw - lit 1 2)) in
  let y := if t1 <? lit 1 2 then one else - one in
  let y := y + (blep t1 dt - blep t2 dt) in
  let t1 := wrap (t1 + lit 1 2 * (one - pw)) in
  let t2 := wrap (t2 + lit 1 2 * (one - pw)) in
  let y := y + (if t1 <? lit 1 2 then one else - one) in
  let y := y + (blep t1 dt - blep t2 dt) in
  lit 1 2 * y.
(** polyblep.rs:475-508 [rect], [saw], [ramp] *)
Definition w_rect (t dt pw : F) : F :=
  let t2 := wrap ((t + one) - pw) in
  let y := (- two) * pw in
  let y := if t <? pw then y + two else y in
  y + (blep t dt - blep t2 dt).
(** polyblep.rs:475-508 [saw] *)
Definition w_saw (t dt : F) : F :=
  let t1 := wrap (t + lit 1 2) in
  (two * t1 - one) - blep t1 dt.
(** polyblep.rs:475-508 [ramp] *)
Definition w_ramp (t dt : F) : F :=
  let t1 := wrap t in
  (one - two * t1) + blep t1 dt.

(** polyblep.rs:128-135 *)
Record poly := mk_poly { p_wave : waveform; p_sr : F; p_hz : F; p_dt : F; p_pw : F; p_t : F }.
(** polyblep.rs:139-148 [new] *)
Definition poly_new (w : waveform) (freq : F) : poly := mk_poly w zero freq zero (lit 1 2) zero.
(** polyblep.rs:177-196 [set_dt], [set_freq], [get_freq_in_hz], [set_sample_rate] *)
Definition set_dt (s : poly) (x : F) : poly := mk_poly (p_wave s) (p_sr s) (p_hz s) x (p_pw s) (p_t s).
(** polyblep.rs:177-196 [set_freq] *)
Definition set_freq (s : poly) (hz : F) : poly :=
  set_dt (mk_poly (p_wave s) (p_sr s) hz (p_dt s) (p_pw s) (p_t s)) (hz / p_sr s).
(** polyblep.rs:177-196 [get_freq_in_hz] *)
Definition get_freq_in_hz (s : poly) : F := p_dt s * p_sr s.
(** assignment to [sample_rate] *)
Definition with_sr (s : poly) (sr : F) : poly := mk_poly (p_wave s) sr (p_hz s) (p_dt s) (p_pw s) (p_t s).
(** assignment to [t] *)
Definition with_t (s : poly) (t : F) : poly := mk_poly (p_wave s) (p_sr s) (p_hz s) (p_dt s) (p_pw s) t.
(** polyblep.rs:177-196 [set_sample_rate] *)
Definition set_sample_rate (s : poly) (sr : F) : poly := set_freq (with_sr s sr) (get_freq_in_hz s).
(** polyblep.rs:150-155 [init]: the step is only computed if it is still zero *)
Definition poly_init (s : poly) (sr : F) : poly :=
  let s := with_sr s sr in
  if q_eqb O (p_dt s) zero && negb (q_eqb O (p_hz s) zero) then set_freq s (p_hz s) else s.
(** polyblep.rs:199-206 [sync] *)
Definition sync (s : poly) (phase : F) : poly :=
  with_t s (if zero <=? phase then phase - q_trunc O phase else phase + (one - q_trunc O phase)).
(** polyblep.rs:209-230 [next_sample] *)
Definition next_sample (s : poly) : F :=
  let t := p_t s in let dt := p_dt s in let pw := p_pw s in
  if (p_sr s / n 4) <=? get_freq_in_hz s then w_sin t
  else match p_wave s with
  | Sine => w_sin t | Cosine => w_cos t | Triangle => w_tri t dt | Square => w_sqr t dt
  | Rectangle => w_rect t dt pw | Sawtooth => w_saw t dt | Ramp => w_ramp t dt
  | ModifiedTriangle => w_tri2 t dt pw | ModifiedSquare => w_sqr2 t dt pw
  | HalfWaveRectifiedSine => w_half t dt | FullWaveRectifiedSine => w_full t dt
  | TriangularPulse => w_trip t dt pw | TrapezoidFixed => w_trap t dt | TrapezoidVariable => w_trap2 t dt pw
  end.
(** polyblep.rs:232-241 [inc], [get_and_inc] *)
Definition inc (s : poly) : poly := with_t s (wrap (p_t s + p_dt s)).

(** Everything that can be done to the oscillator *)
Inductive poly_op :=
| PInit (sr : F) | PFreq (hz : F) | PPw (x : F) | PWave (w : waveform) | PSetDt (x : F) | PSetSr (sr : F) | PSync (phase : F)
| PSample.
(** one call *)
Definition poly_step (s : poly) (o : poly_op) : poly * option F :=
  match o with
  | PInit sr => (poly_init s sr, None)
  | PFreq hz => (set_freq s hz, None)
  | PPw x => (mk_poly (p_wave s) (p_sr s) (p_hz s) (p_dt s) x (p_t s), None)
  | PWave w => (mk_poly w (p_sr s) (p_hz s) (p_dt s) (p_pw s) (p_t s), None)
  | PSetDt x => (set_dt s x, None)
  | PSetSr sr => (set_sample_rate s sr, None)
  | PSync x => (sync s x, None)
  | PSample => (inc s, Some (next_sample s))
  end.
(** plumbing: any sequence of calls *)
Fixpoint poly_run (s : poly) (l : list poly_op) : poly :=
  match l with [] => s | o :: l' => poly_run (fst (poly_step s o)) l' end.
End Poly.
Arguments poly : clear implicits. Arguments poly_op : clear implicits.

(** [f32] and [f64]; [sin] and [cos] are left open *)
Section Float.
Context {prec emax : Z} {I : ieee prec emax}.
Notation fl := (binary_float prec emax).
(** [trunc]: the integral part, with the sign of the argument *)
Definition ftrunc (x : fl) : fl :=
  match x with
  | B754_finite s _ _ _ => binary_normalize prec emax _ _ mode_NE (Btrunc x) 0 s
  | _ => x
  end.
(** the operations in floating point; pi, tau, [sin] and [cos] are left open *)
Definition Fops (fpi ftau : fl) (fsin fcos : fl -> fl) : poly_ops fl :=
  mk_pops fl (fun p q => fdiv (fz p) (fz q)) fpi ftau fadd fsub fmul fdiv fneg fltb fleb feqb ftrunc fsin fcos.
End Float.

(** Exact arithmetic *)
Definition Rltb (x y : R) : bool := if Rlt_dec x y then true else false.
(** [<=] on real numbers *)
Definition Rleb (x y : R) : bool := if Rle_dec x y then true else false.
(** [==] on real numbers *)
Definition Reqb (x y : R) : bool := if Req_EM_T x y then true else false.
(** the operations on real numbers *)
Definition RPops : poly_ops R :=
  mk_pops R (fun p q => (IZR p / IZR q)%R) PI (2 * PI)%R Rplus Rminus Rmult Rdiv Ropp Rltb Rleb Reqb
    (fun x => IZR (Ztrunc x)) sin cos.
