(** What the conversions between times and floating point numbers are compared with: real numbers. *)
From Coq Require Import Reals.
From Flocq Require Import Core BinarySingleNaN.
From Verif Require Import Base FloatBase ClockModel.
Local Open Scope R_scope.

(** The time a pair stands for, in seconds or beats, and in tesimals *)
Definition exact (T : Z) (t : stamp) : R := IZR (Z.of_N (fst t)) + IZR (Z.of_N (snd t)) / IZR T.
Definition ticks (T : Z) (t : stamp) : Z := (Z.of_N (fst t) * T + Z.of_N (snd t))%Z.
(** less than a whole second or beat of tesimals *)
Definition normal (T : Z) (t : stamp) : Prop := (fst t < U32)%N /\ (Z.of_N (snd t) < T)%Z.
(** one of the two clocks; K: the number of bits of T *)
Definition clock (T K : Z) : Prop := (T = second_tesimals /\ K = 29%Z) \/ (T = beat_tesimals /\ K = 31%Z).
(** The error allowed when a time below 2^W is read as a float of [prec] bits: half a unit in the last place of the sum, and two
    roundings of the fraction *)
Definition reading_error (prec W : Z) : R := bpow radix2 (W - prec - 1) + bpow radix2 (1 - prec).
(** A time below 2^W *)
Definition below (T W : Z) (t : stamp) : Prop := (Z.of_N (fst t) < 2 ^ W)%Z /\ (Z.of_N (snd t) < T)%Z.
