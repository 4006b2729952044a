(** Model of building wavetables: knaster_core_dsp/src/dsp/wavetable.rs:70-320 [NonAaWavetable] and l.385-610 [Wavetable].
    The additive constructions are in exact arithmetic: samples are real numbers, [sin] is the sine. The number of harmonics of a
    table is computed in f32 as in the code. Normalising, noise and the assertions on differences are in floating point.
    [None] is a panic. Not modelled: rounding in the additive constructions. *)
From Coq Require Import Reals.
From Flocq Require Import Core BinarySingleNaN.
From Verif Require Import Base FloatBase RngModel NoiseModel OscModel.
Local Open Scope nat_scope.

(** ** One table, in real numbers *)
Local Open Scope R_scope.
(** l.10: the length *)
Definition points : nat := N.to_nat table_size.
(** wavetable.rs:8-15: [TABLE_SIZE] as a number of the sample type *)
Definition len : R := IZR (Z.of_N table_size).
(** l.77-80: the samples of a table; the differences are not kept *)
Definition table := list R.
(** l.82-96 *)
Definition new_table : table := repeat 0 points.
(** plumbing: the loop with [enumerate] *)
Definition each {A B} (f : nat -> A -> B) (l : list A) : list B := map (fun p => f (fst p) (snd p)) (combine (seq 0 (length l)) l).
(** l.208-214 *)
Definition fill (v : R) (t : table) : table := map (fun _ => v) t.
(** l.215-226: the phase is accumulated *)
Fixpoint sine_loop (step amplitude phase : R) (t : table) : table :=
  match t with [] => [] | x :: t => (x + sin phase * amplitude) :: sine_loop step amplitude (phase + step) t end.
(** l.215-226 [add_sine] *)
Definition add_sine (freq amplitude phase : R) (t : table) : table := sine_loop (freq * PI * 2 / len) amplitude phase t.
(** l.227-245 *)
Definition fill_amp (num n : nat) : R := match n with 0%nat => 1 | _ => INR (num - n) / INR num * (1 / 2) end.
(** l.227-245 [fill_sine] *)
Definition fill_sine (num : nat) (freq : R) (t : table) : table :=
  fold_left (fun t n => each (fun i x => x + sin (INR i / len * PI * 2 * (freq * INR (n + 1)) + 0) * fill_amp num n) t) (seq 0 num) t.
(** l.246-261: both ends are included *)
Definition add_saw (first last : nat) (amp : R) (t : table) : table :=
  fold_left (fun t i => each (fun k x => x + sin (INR k / len * PI * 2 * INR (i + 1) + 0) * (1 / (INR (i + 1) * PI)) * amp) t) (seq first (last + 1 - first)) t.
(** l.262-283 *)
Definition odd_phase (i : nat) : R := match i with 0%nat => 0 | _ => (-1) ^ (i + 2) end.
(** l.262-283: the amplitude of a harmonic *)
Definition odd_amp (falloff : R) (i : nat) : R := 1 / Rpower (INR (i * 2 + 1)) falloff.
(** l.262-283 [add_odd_harmonics] *)
Definition add_odd (num : nat) (falloff : R) (t : table) : table :=
  fold_left (fun t i => each (fun k x => x + sin (INR k / len * PI * 2 * (INR (i * 2) + 1) + odd_phase i) * odd_amp falloff i) t) (seq 0 num) t.
(** l.301-307 *)
Definition multiply (m : R) (t : table) : table := map (fun x => x * m) t.
(** l.179-207 *)
Definition hann_window : table := add_sine 1 (1 / 2) (- (1 / 2) * PI) (fill (1 / 2) new_table).
(** l.179-207: the Hamming window *)
Definition hamming_window : table := add_sine 1 (46164 / 100000) (- (1 / 2) * PI) (fill (53836 / 100000) new_table).
(** l.179-207: the sine window *)
Definition sine_window : table := add_sine (1 / 2) 1 0 new_table.

(** ** A set of tables *)
(** l.378-386 in f32: [powi] as repeated multiplication, [as usize] towards zero *)
Fixpoint pow32 (x : f32) (n : nat) : f32 := match n with 0%nat => fone | S n => fmul (pow32 x n) x end.
(** l.378-386: the highest frequency of a table *)
Definition max_freq32 (i : nat) : f32 := fmul (fz 32) (pow32 (fze 3 (-1)) i).
(** l.378-386: the highest harmonic of a table *)
Definition max_harmonic (i : nat) : nat := Z.to_nat (Btrunc (fdiv (fz 20000) (max_freq32 i))).
(** l.396-399: the tables of a [Wavetable] *)
Definition tables := list table.
(** l.400-407; nothing changes the number of tables or their lengths *)
Definition full (ts : tables) : Prop := length ts = num_tables /\ Forall (fun t => length t = points) ts.
(** l.400-407 [Wavetable::default] *)
Definition new_tables : tables := repeat new_table num_tables.
(** l.518-528, for a frequency of at least 0 in reals: [freq.ceil() as usize], a negative one becomes 0 *)
Definition tables_sine (freq amplitude phase : R) (ts : tables) : tables :=
  each (fun i t => if (Z.to_nat (Zceil freq) <=? max_harmonic i)%nat then add_sine freq amplitude phase t else t) ts.
(** l.529-537 *)
Definition tables_fill (num : nat) (freq : R) (ts : tables) : tables :=
  each (fun i t => fill_sine (Nat.min num (Z.to_nat (Ztrunc (INR (max_harmonic i) * freq)))) freq t) ts.
(** l.538-543 [add_aliasing_saw] *)
Definition tables_aliasing_saw (num : nat) (amp : R) (ts : tables) : tables :=
  each (fun i t => add_saw 0 (Nat.min num (max_harmonic i)) amp t) ts.
(** l.544-552 [add_saw] *)
Definition tables_saw (first last : nat) (amp : R) (ts : tables) : tables :=
  each (fun i t => let last := Nat.min last (max_harmonic i) in if (first <? last)%nat then add_saw first last amp t else t) ts.
(** l.553-563 *)
Definition tables_odd (num : nat) (falloff : R) (ts : tables) : tables :=
  each (fun i t => add_odd (Nat.min num (max_harmonic i)) falloff t) ts.

(** ** In floating point *)
Section Float.
Context {prec emax : Z} {I : ieee prec emax}.
Notation fl := (binary_float prec emax).
(** l.77-80: the samples of a table, in floating point *)
Definition ftable := list fl.
(** l.97-117 [update_diff_buffer]: the differences; the two assertions compare floats, [None] when one fails. A table of less
    than 2 samples panics. *)
Definition diffs (t : ftable) : option ftable :=
  let d := each (fun i x => fsub (nth ((i + 1) mod length t) t fzero) x) t in
  a <- nth_error t 0 ;; b <- nth_error t 1 ;; z <- nth_error t (length t - 1) ;; d0 <- nth_error d 0 ;; dz <- nth_error d (length t - 1) ;;
  if feqb (fsub b a) d0 && feqb (fsub a z) dz then Some d else None.
(** l.301-307 [multiply]; the table and its differences *)
Definition fmultiply (m : fl) (t : ftable) : option (ftable * ftable) :=
  let t' := map (fun x => fmul x m) t in d <- diffs t' ;; Some (t', d).
(** l.578-595 [normalize] *)
Definition loudest (t : ftable) : fl := fold_left (fun m x => if fltb m (fabs x) then fabs x else m) t fzero.
(** plumbing: a loop that stops at the first panic *)
Fixpoint all_some {A} (l : list (option A)) : option (list A) :=
  match l with [] => Some [] | o :: l => x <- o ;; r <- all_some l ;; Some (x :: r) end.
(** l.578-595 [normalize] *)
Definition normalize (ts : list ftable) : option (list (ftable * ftable)) :=
  t0 <- nth_error ts 0 ;; let s := fdiv fone (loudest t0) in all_some (map (fmultiply s) ts).
(** [F::new] of an f32 *)
Definition wide (x : f32) : fl :=
  match x with
  | B754_zero s => B754_zero s | B754_infinity s => B754_infinity s | B754_nan => B754_nan
  | B754_finite s m e _ => fze (cond_Zopp s (Zpos m)) e
  end.
(** l.284-300 [add_noise], without the differences *)
Definition noise_sample (d x : fl) : fl :=
  let x := fadd x d in
  let x := if fltb fone x then fsub x fone else x in
  if fltb x (fneg fone) then fadd x fone else x.
(** l.284-300: the loop *)
Fixpoint noise_loop (probability : f64) (rng : N) (t : ftable) : ftable :=
  match t with
  | [] => []
  | x :: t =>
      let r := rng_next rng in
      if fltb probability (rng_unit r)
      then let q := rng_next r in noise_sample (wide (fsub (rng_unit q) (fze 1 (-1)))) x :: noise_loop probability q t
      else x :: noise_loop probability r t
  end.
(** l.284-300 [add_noise] *)
Definition add_noise (probability : f64) (seed : N) (t : ftable) : ftable := noise_loop probability (rng_new seed) t.
End Float.
