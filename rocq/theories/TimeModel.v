(** Model of [knaster_primitives/src/time.rs]: [Seconds] and [Beats].
    Floating point conversions ([from_secs_f64], [to_secs_f64], [Mul<f64>], [Beats * _], ...) are not
    modelled here. *)
From Verif Require Import Base.
Local Open Scope N_scope.

(** time.rs:11 [SUBSECOND_TESIMALS_PER_SECOND] *)
Definition TS : N := 282240000.
(** time.rs:13 [SUBBEAT_TESIMALS_PER_BEAT] *)
Definition TB : N := 1476034560.

(** time.rs:25-28 [struct Seconds]; both fields are u32 *)
Record seconds := mk_seconds { s_whole : N; s_sub : N }.
(** time.rs:31-34 [Seconds::ZERO] *)
Definition sec_zero := mk_seconds 0 0.
(** time.rs:36-39 [Seconds::MAX] *)
Definition sec_max := mk_seconds (U32 - 1) (U32 - 1).

(** time.rs:48-53 [Seconds::from_subsample_tesimals_u64]; [x] is a u64.  The final [as u32] truncates. *)
Definition sec_from_tesimals (x : N) : option seconds :=
  let secs := as_u32 (x / TS) in
  m <- mul_w U64 secs TS ;;
  d <- sub_w x m ;;
  Some (mk_seconds secs (as_u32 d)).

(** time.rs:55-57 [Seconds::to_subsample_tesimals_u64] *)
Definition sec_to_tesimals (s : seconds) : option N :=
  m <- mul_w U64 (s_whole s) TS ;; add_w U64 m (s_sub s).

(** time.rs:76-84 [Seconds::from_samples]; [samples], [sr] are u64 *)
Definition sec_from_samples (samples sr : N) : option seconds :=
  q <- div_w samples sr ;;
  r <- rem_w samples sr ;;
  m <- mul_w U64 r TS ;;
  d <- div_w m sr ;;
  Some (mk_seconds (as_u32 q) (as_u32 d)).

(** time.rs:86-90 [Seconds::to_samples] *)
Definition sec_to_samples (s : seconds) (sr : N) : option N :=
  a <- mul_w U64 (s_whole s) sr ;;
  m <- mul_w U64 (s_sub s) sr ;;
  d <- div_w m TS ;;
  add_w U64 a d.

(** time.rs:149-157 [impl Ord for Seconds] *)
Definition sec_cmp (a b : seconds) : comparison :=
  if s_whole a =? s_whole b then s_sub a ?= s_sub b else s_whole a ?= s_whole b.
(** derived [<] and [<=] of [Ord]/[PartialOrd] (time.rs:144-148) *)
Definition sec_ltb a b := match sec_cmp a b with Lt => true | _ => false end.
(** the derived [<=] of [Seconds] (time.rs:144-148) *)
Definition sec_leb a b := match sec_cmp a b with Gt => false | _ => true end.
(** time.rs:23 [derive(PartialEq)] *)
Definition sec_eqb a b := (s_whole a =? s_whole b) && (s_sub a =? s_sub b).

(** time.rs:99-116 [Seconds::checked_sub]; outer option is the panic *)
Definition sec_checked_sub (a b : seconds) : option (option seconds) :=
  if sec_ltb a b then Some None
  else if s_sub b <=? s_sub a then
    w <- sub_w (s_whole a) (s_whole b) ;;
    f <- sub_w (s_sub a) (s_sub b) ;;
    Some (Some (mk_seconds w f))
  else
    w0 <- sub_w (s_whole a) (s_whole b) ;;
    w <- sub_w w0 1 ;;
    d <- sub_w (s_sub b) (s_sub a) ;;
    f <- sub_w TS d ;;
    Some (Some (mk_seconds w f)).

(** time.rs:119-133 [Seconds::saturating_sub] *)
Definition sec_saturating_sub (a b : seconds) : option seconds :=
  if sec_leb a b then Some sec_zero
  else if s_sub b <=? s_sub a then
    w <- sub_w (s_whole a) (s_whole b) ;;
    f <- sub_w (s_sub a) (s_sub b) ;;
    Some (mk_seconds w f)
  else
    w0 <- sub_w (s_whole a) (s_whole b) ;;
    w <- sub_w w0 1 ;;
    d <- sub_w (s_sub b) (s_sub a) ;;
    f <- sub_w TS d ;;
    Some (mk_seconds w f).

(** The [while] loops of time.rs:163-166 and time.rs:358-361.  [sub] is below 2^32, so 16 rounds are
    enough; running out of fuel is reported as [None] and excluded by the theorems. *)
Fixpoint carry (fuel : nat) (T whole sub : N) : option (N * N) :=
  match fuel with
  | O => None
  | S fuel' =>
      if T <=? sub then
        w <- add_w U32 whole 1 ;;
        carry fuel' T w (sub - T)
      else Some (whole, sub)
  end.

(** time.rs:158-171 [impl Add for Seconds] (and [AddAssign], 172-177) *)
Definition sec_add (a b : seconds) : option seconds :=
  w <- add_w U32 (s_whole a) (s_whole b) ;;
  f <- add_w U32 (s_sub a) (s_sub b) ;;
  r <- carry 17 TS w f ;;
  Some (mk_seconds (fst r) (snd r)).

(** time.rs:178-190 [impl Mul<Seconds> for Seconds] *)
Definition sec_mul (a b : seconds) : option seconds :=
  w <- mul_w U32 (s_whole a) (s_whole b) ;;
  f <- mul_w U64 (s_sub a) (s_sub b) ;;
  if TS <? f then
    w' <- add_w U32 w (as_u32 (f / TS)) ;;
    Some (mk_seconds w' (as_u32 (f mod TS)))
  else Some (mk_seconds w (as_u32 f)).

(** time.rs:245-248 [struct Beats] *)
Record beats := mk_beats { b_whole : N; b_sub : N }.
(** time.rs:251-254 [Beats::ZERO] *)
Definition beats_zero := mk_beats 0 0.

(** time.rs:272-276 [Beats::from_fractional_beats::<FRACTION>]; the [assert!] and the division by a
    zero FRACTION are panics *)
Definition beats_from_fractional (fraction whole frac : N) : option beats :=
  if frac <? fraction then
    d <- div_w TB fraction ;;
    t <- mul_w U32 d frac ;;
    Some (mk_beats whole t)
  else None.

(** time.rs:343-351 [impl Ord for Beats] *)
Definition beats_cmp (a b : beats) : comparison :=
  if b_whole a =? b_whole b then b_sub a ?= b_sub b else b_whole a ?= b_whole b.
(** [<] of [Beats], from [cmp] (time.rs:343-351) *)
Definition beats_ltb a b := match beats_cmp a b with Lt => true | _ => false end.
(** [<=] of [Beats], from [cmp] (time.rs:343-351) *)
Definition beats_leb a b := match beats_cmp a b with Gt => false | _ => true end.
(** the derived [==] of [Beats] (time.rs:243) *)
Definition beats_eqb a b := (b_whole a =? b_whole b) && (b_sub a =? b_sub b).

(** time.rs:302-316 [Beats::checked_sub] *)
Definition beats_checked_sub (a b : beats) : option (option beats) :=
  if beats_ltb a b then Some None
  else if b_sub a <? b_sub b then
    w0 <- sub_w (b_whole a) (b_whole b) ;;
    w <- sub_w w0 1 ;;
    d <- sub_w (b_sub b) (b_sub a) ;;
    f <- sub_w TB d ;;
    Some (Some (mk_beats w f))
  else
    w <- sub_w (b_whole a) (b_whole b) ;;
    f <- sub_w (b_sub a) (b_sub b) ;;
    Some (Some (mk_beats w f)).

(** time.rs:319-321 [Beats::saturating_sub] *)
Definition beats_saturating_sub (a b : beats) : option beats :=
  r <- beats_checked_sub a b ;;
  Some (match r with Some x => x | None => beats_zero end).

(** time.rs:352-365 [impl Add for Beats] *)
Definition beats_add (a b : beats) : option beats :=
  w <- add_w U32 (b_whole a) (b_whole b) ;;
  f <- add_w U32 (b_sub a) (b_sub b) ;;
  r <- carry 17 TB w f ;;
  Some (mk_beats (fst r) (snd r)).

(** time.rs:333-337 [impl Sum for Beats] *)
Fixpoint beats_sum (acc : beats) (l : list beats) : option beats :=
  match l with
  | [] => Some acc
  | x :: t => a <- beats_add acc x ;; beats_sum a t
  end.
