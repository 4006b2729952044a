(** Model of the allpass delays (knaster_core_dsp/src/ugens/delay.rs:51-270), in IEEE arithmetic. *)
From Flocq Require Import BinarySingleNaN.
From Verif Require Import Base FloatBase.

Section Allpass.
Context {prec emax : Z} {I : ieee prec emax}.
Notation fl := (binary_float prec emax).

(** delay.rs:53-57 [AllpassInterpolator] and l.93-101 [AllpassDelay] in one record *)
Record ap := mk_ap { a_buf : list fl; a_w : nat; a_r : nat; a_nf : nat; a_clear : nat; a_coeff : fl; a_pin : fl; a_pout : fl }.
(** delay.rs:61-67, 108-124: [new] then [init] with a buffer of [len] samples (the conversion of the length from seconds is C01-C05) *)
Definition ap_init (len : nat) : ap := mk_ap (repeat fzero len) 0 0 1 0 fone fone fone.
(** delay.rs:77-82 *)
Definition interp_sample (coeff pin pout x : fl) : fl := fadd (fmul coeff (fsub x pout)) pin.
(** delay.rs:144-157; [None]: index or remainder panic *)
Definition ap_read (s : ap) : option (ap * fl) :=
  if (length (a_buf s) =? 0)%nat then None else
  let r' := ((a_r s + 1) mod length (a_buf s))%nat in
  if (0 <? a_clear s)%nat then Some (mk_ap (a_buf s) (a_w s) r' (a_nf s) (a_clear s - 1) (a_coeff s) (a_pin s) (a_pout s), fzero)
  else
    x <- nth_error (a_buf s) (a_r s);;
    let out := interp_sample (a_coeff s) (a_pin s) (a_pout s) x in
    Some (mk_ap (a_buf s) (a_w s) r' (a_nf s) 0 (a_coeff s) x out, out).
(** delay.rs:202-205 *)
Definition ap_write (x : fl) (s : ap) : option ap :=
  buf <- set_nth (a_buf s) (a_w s) x;;
  Some (mk_ap buf ((a_w s + 1) mod length buf) (a_r s) (a_nf s) (a_clear s) (a_coeff s) (a_pin s) (a_pout s)).
(** [floor] then [to_usize().unwrap()]; [None] for NaN, infinities and negative numbers. [Btrunc] is the integral part. *)
Definition floor_usize (x : fl) : option nat :=
  if is_finite x then if fleb fzero x then Some (Z.to_nat (Btrunc x)) else None else None.
(** delay.rs:73-75 *)
Definition coeff_of (delta : fl) : fl := fdiv (fsub fone delta) (fadd fone delta).
(** delay.rs:160-174 [set_delay_in_frames]; subtractions panic below zero *)
Definition ap_set (x : fl) (s : ap) : option ap :=
  n <- floor_usize x;;
  let delta := fsub x (fz (Z.of_nat n)) in
  nd <- (if fltb (fze 1 (-1)) x && fltb delta (fze 1 (-1)) then
           (if (n =? 0)%nat then None else Some ((n - 1)%nat, fadd delta fone))
         else Some (n, delta));;
  let nf := fst nd in
  r <- (if (nf <=? a_w s)%nat then Some (a_w s - nf)%nat
        else if (nf <=? length (a_buf s))%nat then Some (length (a_buf s) - nf + a_w s)%nat else None);;
  Some (mk_ap (a_buf s) (a_w s) r nf (a_clear s) (coeff_of (snd nd)) (a_pin s) (a_pout s)).
(** delay.rs:69-72, 177-187 *)
Definition ap_clear (s : ap) : ap := mk_ap (a_buf s) (a_w s) (a_r s) (a_nf s) (a_nf s) (a_coeff s) fone fone.
(** delay.rs:126-134 *)
Definition ap_process (x : fl) (s : ap) : option (ap * fl) := p <- ap_read s;; s' <- ap_write x (fst p);; Some (s', snd p).
(** delay.rs:262-268 [AllpassFeedbackDelay::process_sample] *)
Definition fb_process (fb x : fl) (s : ap) : option (ap * fl) :=
  p <- ap_read s;;
  let w := fadd (fmul (snd p) fb) x in
  s' <- ap_write w (fst p);;
  Some (s', fsub (snd p) (fmul fb w)).
(** delay.rs:136-141: [delay_time] after the multiplication with the sample rate: ignored if too long. [AllpassFeedbackDelay]
    (l.229-232) has no such check. *)
Definition ap_delay_time (frames : fl) (s : ap) : option ap :=
  match frames with
  | B754_infinity false => Some s   (* [as usize] saturates *)
  | _ => if (Btrunc frames <? Z.of_nat (length (a_buf s)))%Z then ap_set frames s else Some s
  end.

(** a change of the delay, [clear] or a frame *)
Inductive ap_op := ApSet (frames : fl) | ApClear | ApFrame (x : fl).
(** plumbing: any sequence of them *)
Fixpoint ap_run (proc : fl -> ap -> option (ap * fl)) (s : ap) (ops : list ap_op) : option (list fl) :=
  match ops with
  | [] => Some []
  | ApSet x :: r => s' <- ap_set x s;; ap_run proc s' r
  | ApClear :: r => ap_run proc (ap_clear s) r
  | ApFrame x :: r => p <- proc x s;; o <- ap_run proc (fst p) r;; Some (snd p :: o)
  end.
End Allpass.
Arguments ap : clear implicits. Arguments ap_op : clear implicits.
