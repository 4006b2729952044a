(** Model of the floating point conversions of [Seconds] and [Beats] (knaster_primitives/src/time.rs). A time is the pair of its
    whole part and its tesimals, both u32; [T] is the number of tesimals per second or beat. *)
From Flocq Require Import Core BinarySingleNaN.
From Verif Require Import Base FloatBase.
Open Scope N_scope.

(** time.rs:11 and time.rs:13 *)
Definition second_tesimals : Z := 282240000.
(** time.rs:13 [SUBBEAT_TESIMALS_PER_BEAT] *)
Definition beat_tesimals : Z := 1476034560.
(** whole units and tesimals (time.rs:25-28, 245-248) *)
Definition stamp := (N * N)%type.

Section Clock.
Context {prec emax : Z} {I : ieee prec emax}.
Notation fl := (binary_float prec emax).
(** [as u32]: towards zero, saturating, 0 for NaN *)
Definition to_u32 (x : fl) : N :=
  match x with
  | B754_infinity false => U32 - 1
  | B754_infinity true | B754_nan => 0
  | _ => Z.to_N (Z.min (Btrunc x) (Z.of_N U32 - 1))
  end.
(** [fract]: [x - x.trunc()] *)
Definition part (x : fl) : fl := if is_finite x then fsub x (fz (Btrunc x)) else B754_nan.
Variable T : Z.
(** time.rs:59-64 [Seconds::from_secs_f64] ([floor() as u32] is the same as [as u32]: both give 0 below 0), time.rs:278-284
    [Beats::from_beats_f32] and time.rs:286-292 [Beats::from_beats_f64] *)
Definition from_float (x : fl) : stamp := (to_u32 x, to_u32 (fmul (part x) (fz T))).
(** time.rs:71-74 [Seconds::to_secs_f64], time.rs:294-296 [Beats::as_beats_f32] and time.rs:298-300 [Beats::as_beats_f64] *)
Definition to_float (t : stamp) : fl := fadd (fz (Z.of_N (fst t))) (fdiv (fz (Z.of_N (snd t))) (fz T)).
(** time.rs:66-69 [Seconds::from_secs_f64_return_precision_loss] *)
Definition with_loss (x : fl) : stamp * fl := let t := from_float x in (t, fsub x (to_float t)).
(** time.rs:191-198 [Mul<f64> for Seconds] (and the operators defined by it, 199-210), time.rs:392-399 [Mul<f32> for Beats],
    time.rs:400-407 [Mul<f64> for Beats] *)
Definition scale (t : stamp) (r : fl) : stamp := from_float (fmul (to_float t) r).
(** time.rs:372-390 [Mul<Beats> for Beats] *)
Definition times (s t : stamp) : stamp := scale s (to_float t).
(** time.rs:408-439 [Beats * u64], [u32], [u16] and [u8] *)
Definition times_int (t : stamp) (n : N) : stamp := scale t (fz (Z.of_N n)).
End Clock.

(** f32 to f64 *)
Definition widen (x : binary_float 24 128) : binary_float 53 1024 :=
  match x with
  | B754_zero s => B754_zero s
  | B754_infinity s => B754_infinity s
  | B754_nan => B754_nan
  | B754_finite s m e _ => binary_normalize 53 1024 _ _ mode_NE (cond_Zopp s (Zpos m)) e s
  end.
(** time.rs:216-223 [Mul<f32> for Seconds] (and 224-235): the factor is converted to f64 *)
Definition scale_f32 (t : stamp) (r : binary_float 24 128) : stamp := scale second_tesimals t (widen r).
(** time.rs:135-143 [From<Duration> for Seconds]; a duration is a number of seconds (u64) and of nanoseconds. [as_secs() as u32]
    drops the upper bits. *)
Definition of_duration (secs nanos : N) : stamp :=
  (secs mod U32, to_u32 (fmul (fz (Z.of_N nanos)) (fdiv (fz second_tesimals) (fz 1000000000)) : binary_float 53 1024)).
