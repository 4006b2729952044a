(** The allpass delays of AllpassModel.v once more, over any number type, so that they can be read in exact arithmetic
    (knaster_core_dsp/src/ugens/delay.rs:51-270).  [FracProofs.v] shows that with IEEE arithmetic they are the functions of
    AllpassModel.v. *)
From Verif Require Import Base.

(** The operations of [knaster_core::Float] used; [q_floor] is [floor] followed by [to_usize().unwrap()] *)
Record frac_ops (F : Type) := mk_frac_ops {
  q_zero : F; q_one : F; q_half : F; q_add : F -> F -> F; q_sub : F -> F -> F; q_mul : F -> F -> F; q_div : F -> F -> F;
  q_ltb : F -> F -> bool; q_nat : nat -> F; q_floor : F -> option nat }.
Arguments q_zero {F}. Arguments q_one {F}. Arguments q_half {F}. Arguments q_add {F}. Arguments q_sub {F}.
Arguments q_mul {F}. Arguments q_div {F}. Arguments q_ltb {F}. Arguments q_nat {F}. Arguments q_floor {F}.

Section Frac.
Context {F : Type} (O : frac_ops F).
(** delay.rs:53-57, 93-101 *)
Record line := mk_line { l_buf : list F; l_w : nat; l_r : nat; l_nf : nat; l_clear : nat; l_coeff : F; l_pin : F; l_pout : F }.
(** delay.rs:61-67, 108-124 *)
Definition line_init (len : nat) : line := mk_line (repeat (q_zero O) len) 0 0 1 0 (q_one O) (q_one O) (q_one O).
(** delay.rs:77-82 *)
Definition interp (coeff pin pout x : F) : F := q_add O (q_mul O coeff (q_sub O x pout)) pin.
(** delay.rs:144-157 *)
Definition line_read (s : line) : option (line * F) :=
  if (length (l_buf s) =? 0)%nat then None else
  let r' := ((l_r s + 1) mod length (l_buf s))%nat in
  if (0 <? l_clear s)%nat
  then Some (mk_line (l_buf s) (l_w s) r' (l_nf s) (l_clear s - 1) (l_coeff s) (l_pin s) (l_pout s), q_zero O)
  else
    x <- nth_error (l_buf s) (l_r s);;
    let out := interp (l_coeff s) (l_pin s) (l_pout s) x in
    Some (mk_line (l_buf s) (l_w s) r' (l_nf s) 0 (l_coeff s) x out, out).
(** delay.rs:202-205 *)
Definition line_write (x : F) (s : line) : option line :=
  buf <- set_nth (l_buf s) (l_w s) x;;
  Some (mk_line buf ((l_w s + 1) mod length buf) (l_r s) (l_nf s) (l_clear s) (l_coeff s) (l_pin s) (l_pout s)).
(** delay.rs:73-75 *)
Definition coefficient (delta : F) : F := q_div O (q_sub O (q_one O) delta) (q_add O (q_one O) delta).
(** delay.rs:160-174 *)
Definition line_set (x : F) (s : line) : option line :=
  n <- q_floor O x;;
  let delta := q_sub O x (q_nat O n) in
  nd <- (if q_ltb O (q_half O) x && q_ltb O delta (q_half O) then
           (if (n =? 0)%nat then None else Some ((n - 1)%nat, q_add O delta (q_one O)))
         else Some (n, delta));;
  let nf := fst nd in
  r <- (if (nf <=? l_w s)%nat then Some (l_w s - nf)%nat
        else if (nf <=? length (l_buf s))%nat then Some (length (l_buf s) - nf + l_w s)%nat else None);;
  Some (mk_line (l_buf s) (l_w s) r nf (l_clear s) (coefficient (snd nd)) (l_pin s) (l_pout s)).
(** delay.rs:69-72, 177-187 *)
Definition line_clear (s : line) : line := mk_line (l_buf s) (l_w s) (l_r s) (l_nf s) (l_nf s) (l_coeff s) (q_one O) (q_one O).
(** delay.rs:126-134 *)
Definition line_process (x : F) (s : line) : option (line * F) :=
  p <- line_read s;; s' <- line_write x (fst p);; Some (s', snd p).
(** delay.rs:262-268 [AllpassFeedbackDelay::process_sample] *)
Definition feedback_process (fb x : F) (s : line) : option (line * F) :=
  p <- line_read s;;
  let w := q_add O (q_mul O (snd p) fb) x in
  s' <- line_write w (fst p);;
  Some (s', q_sub O (snd p) (q_mul O fb w)).
End Frac.
Arguments line : clear implicits.
