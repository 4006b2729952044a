From Verif Require Import Base WrapModel.
Open Scope nat_scope.
(** What the owner of parameter [i] has received: the generator for its own parameters; the wrapper that added the parameter else *)
Fixpoint received (s : stk) (i : nat) : list value :=
  match s with
  | SBase _ got => map snd (filter (fun e => fst e =? i) got)
  | SMul own s | SDone own s => if i =? length (types s) then own else received s i
  | SFwd s | SToInput s | SPrecise _ _ _ s | SAr _ s | SSmooth _ _ s => received s i
  end.
(** No layer on the way to the owner of [i] delays, overrides or smooths it *)
Fixpoint direct (s : stk) (i : nat) : Prop :=
  match s with
  | SBase _ _ => True
  | SMul _ s | SDone _ s => i = length (types s) \/ direct s i
  | SFwd s | SToInput s => direct s i
  | SPrecise _ ds _ s => nth_error ds i = Some 0%N /\ direct s i
  | SAr bufs s => nth_error bufs i = Some None /\ direct s i
  | SSmooth on _ s => nth_error on i = Some false /\ direct s i
  end.
(** The delay that the outermost sample accurate wrapper has for parameter [i], the values it holds for it, and the buffer of the
    outermost audio rate wrapper *)
Fixpoint delay_of (s : stk) (i : nat) : option N :=
  match s with
  | SBase _ _ => None
  | SPrecise _ ds _ _ => nth_error ds i
  | SMul _ s | SDone _ s | SFwd s | SToInput s | SAr _ s | SSmooth _ _ s => delay_of s i
  end.
Fixpoint buffer_of (s : stk) (i : nat) : option nat :=
  match s with
  | SBase _ _ => None
  | SAr bufs _ => match nth_error bufs i with Some b => b | None => None end
  | SMul _ s | SDone _ s | SFwd s | SToInput s | SPrecise _ _ _ s | SSmooth _ _ s => buffer_of s i
  end.
(** Stacks in which a delay (a link) for parameter [i] gets through: only forwarding wrappers around the one that uses it, and the
    parameter is one of those below *)
Fixpoint delay_path (s : stk) (i : nat) : Prop :=
  match s with
  | SFwd s | SMul _ s => delay_path s i
  | SPrecise _ _ _ s => i < length (types s)
  | _ => False
  end.
Fixpoint link_path (s : stk) (i : nat) : Prop :=
  match s with
  | SFwd s | SMul _ s | SPrecise _ _ _ s => link_path s i
  | SAr _ s => i < length (types s)
  | _ => False
  end.
(** No wrapper that adds a parameter around one that keeps a list per parameter *)
Fixpoint no_mul (s : stk) : Prop :=
  match s with
  | SBase _ _ => True
  | SMul _ s => False
  | SFwd s | SPrecise _ _ _ s => no_mul s
  | SDone _ s | SToInput s | SAr _ s | SSmooth _ _ s => True
  end.
(** A call with an existing parameter and a value of its type (or a smoothing setting, if smoothing is outermost) *)
Definition call_ok (t : list ty) (c : call) : Prop :=
  match c with
  | CApply i v => exists ty, nth_error t i = Some ty /\ accepts ty v = true
  | CDelay i _ | CLink i _ => i < length t
  end.
(** What the outermost sample accurate wrapper holds back, and how much it can hold *)
Fixpoint queue_of (s : stk) : list (N * nat * value) :=
  match s with
  | SBase _ _ => []
  | SPrecise _ _ q _ => q
  | SMul _ s | SDone _ s | SFwd s | SToInput s | SAr _ s | SSmooth _ _ s => queue_of s
  end.
Fixpoint slots_of (s : stk) : nat :=
  match s with
  | SBase _ _ => 0
  | SPrecise n _ _ _ => n
  | SMul _ s | SDone _ s | SFwd s | SToInput s | SAr _ s | SSmooth _ _ s => slots_of s
  end.
