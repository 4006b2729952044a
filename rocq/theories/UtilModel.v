(** Model of the log probe and done-on-trigger generators (knaster_core_dsp/src/ugens/util.rs) and of integer parameters for enums
    (knaster_macros/src/lib.rs:17-72, knaster_core/src/parameters.rs:180-226). *)
From Verif Require Import Base.
Open Scope nat_scope.

(** ** LogProbe: util.rs:69-75, 79-90 ([new] and [init]: the interval is the sample rate, one log per second) *)
Record probe := mk_probe { pr_interval : nat; pr_counter : nat }.
(** util.rs:79-90 [init] *)
Definition probe_init (sr : nat) : probe := mk_probe sr 0.
(** util.rs:93-101 [process]: whether this sample is logged *)
Definition probe_step (s : probe) : probe * bool :=
  if pr_counter s =? 0 then (mk_probe (pr_interval s) (pr_interval s), true) else (mk_probe (pr_interval s) (pr_counter s - 1), false).
(** plumbing: sample after sample *)
Fixpoint probe_run (s : probe) (n : nat) : list bool :=
  match n with O => [] | S n => let p := probe_step s in snd p :: probe_run (fst p) n end.

(** ** DoneOnTrig: util.rs:8-33. [true]: a trigger arrives, [false]: a sample is produced; the result is whether each sample marks
    the node as done *)
Fixpoint done_run (triggered : bool) (ops : list bool) : list bool :=
  match ops with
  | [] => []
  | true :: ops => done_run true ops
  | false :: ops => triggered :: done_run triggered ops
  end.

(** ** Enums as integer parameters: the discriminants of the variants in order of declaration, and the default variant *)
Record enum := mk_enum { e_disc : list nat; e_default : nat }.
(** plumbing: the variant with that discriminant *)
Fixpoint find_index (n : nat) (l : list nat) : option nat :=
  match l with [] => None | d :: l => if d =? n then Some 0 else option_map S (find_index n l) end.
(** lib.rs:50-54 [From<enum> for PInteger]: [value as usize] *)
Definition encode (e : enum) (v : nat) : option nat := nth_error (e_disc e) v.
(** lib.rs:45-49 [From<PInteger>]: num_traits' [from_usize] (derived: by discriminant) or the default *)
Definition decode (e : enum) (n : nat) : nat := match find_index n (e_disc e) with Some v => v | None => e_default e end.
(** lib.rs:56-61 [pinteger_range] *)
Definition range (e : enum) : nat * nat := (0, length (e_disc e)).
(** lib.rs:36-40, 62-67 [pinteger_descriptions]: by position; the result stands for the name of that variant *)
Definition describe (e : enum) (n : nat) : option nat := if n <? length (e_disc e) then Some n else None.
(** parameters.rs:211-225 [descriptions]; a value without a description is shown as its number ([inr]) *)
Definition descriptions (r : nat * nat) (f : nat -> option nat) : list (nat * (nat + nat)) :=
  map (fun n => (n, match f n with Some v => inl v | None => inr n end)) (seq (fst r) (snd r - fst r)).
