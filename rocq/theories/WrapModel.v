(** Model of how parameter calls travel through stacks of wrappers: [param_apply], [set_delay_within_block_for_param] and
    [set_ar_param_buffer] of every wrapper (knaster_core_dsp/src/wrappers_core/*.rs, knaster_graph/src/wrappers_graph/done.rs) around a
    generator made with [impl_ugen] (knaster_macros/src/lib.rs:594-613, 752-767). Values are only tagged with their type; what owners
    do with them is not modelled, they record what they get. [None] is a panic. *)
From Verif Require Import Base.
Open Scope nat_scope.

(** knaster_core/src/parameters/types.rs *)
Inductive ty := TFloat | TInt | TBool | TTrig.
(** [VSmooth linear]: [ParameterValue::Smoothing] *)
Inductive value := VFloat (x : Z) | VInt (x : Z) | VBool (b : bool) | VTrig | VSmooth (linear : bool).
(** lib.rs:599-607: [float().expect(..)] and so on; nothing is asked of the value of a trigger *)
Definition accepts (t : ty) (v : value) : bool :=
  match t, v with TFloat, VFloat _ | TInt, VInt _ | TBool, VBool _ | TTrig, _ => true | _, _ => false end.

(** A stack with its state, the outermost wrapper first *)
Inductive stk :=
  | SBase (types : list ty) (got : list (nat * value))
  (** WrAdd, WrSub, WrVSub, WrDiv, WrVDiv, WrPowf, WrPowi, WrClosure *)
  | SFwd (s : stk)
  (** wrappers_core/math.rs:15-113 [WrMul] and what its own parameter got *)
  | SMul (own : list value) (s : stk)
  (** done.rs [WrDone] *)
  | SDone (own : list value) (s : stk)
  (** audio_rate.rs:92-171 [WrArParamToInput] *)
  | SToInput (s : stk)
  (** precise_timing.rs [WrPreciseTiming]: capacity, [next_delay], [waiting_changes] *)
  | SPrecise (slots : nat) (delays : list N) (queue : list (N * nat * value)) (s : stk)
  (** audio_rate.rs:12-85 [WrArParams]: [buffers] *)
  | SAr (bufs : list (option nat)) (s : stk)
  (** smooth_params.rs [WrSmoothParams]: whether smoothing is on, and the targets it was given *)
  | SSmooth (on : list bool) (targets : list (nat * value)) (s : stk).

(** [param_hints] / [Parameters::USIZE] *)
Fixpoint types (s : stk) : list ty :=
  match s with
  | SBase t _ => t
  | SMul _ s => types s ++ [TFloat]
  | SDone _ s => types s ++ [TInt]
  | SFwd s | SToInput s | SPrecise _ _ _ s | SAr _ s | SSmooth _ _ s => types s
  end.
(** [Parameters::USIZE] *)
Definition params (s : stk) : nat := length (types s).

(** [param_apply]: lib.rs:752-767; math.rs:92-98 (and l.331-333 and so on); done.rs:114-124; audio_rate.rs:70-74, 168-170;
    precise_timing.rs:126-135; smooth_params.rs:200-246 *)
Fixpoint apply (s : stk) (i : nat) (v : value) : option stk :=
  match s with
  | SBase t got => match nth_error t i with Some ty => if accepts ty v then Some (SBase t (got ++ [(i, v)])) else None | None => Some s end
  | SFwd s => s' <- apply s i v;; Some (SFwd s')
  | SMul own s => if i =? params s then (if accepts TFloat v then Some (SMul (own ++ [v]) s) else None) else s' <- apply s i v;; Some (SMul own s')
  | SDone own s => if i =? params s then (if accepts TInt v then Some (SDone (own ++ [v]) s) else None) else s' <- apply s i v;; Some (SDone own s')
  | SToInput s => s' <- apply s i v;; Some (SToInput s')
  | SPrecise slots ds q s =>
      d <- nth_error ds i;;
      if (d =? 0)%N then s' <- apply s i v;; Some (SPrecise slots ds q s')
      else if length q <? slots then Some (SPrecise slots ds (q ++ [(d, i, v)]) s) else Some (SPrecise slots ds q s)
  | SAr bufs s => b <- nth_error bufs i;; match b with None => s' <- apply s i v;; Some (SAr bufs s') | Some _ => Some (SAr bufs s) end
  | SSmooth on tg s =>
      if params s <=? i then Some (SSmooth on tg s) else
      match v with
      | VSmooth l => on' <- set_nth on i l;; Some (SSmooth on' tg s)
      | VFloat _ => o <- nth_error on i;; if (o : bool) then Some (SSmooth on (tg ++ [(i, v)]) s) else s' <- apply s i v;; Some (SSmooth on tg s')
      | _ => s' <- apply s i v;; Some (SSmooth on tg s')
      end
  end.
(** [set_delay_within_block_for_param]; the boolean tells whether it reached a wrapper that uses it. math.rs:109-112 (and so on),
    closure.rs:80-83, precise_timing.rs:146-148; everything else has the default of ugen.rs:339-341, which only logs. *)
Fixpoint delay (s : stk) (i : nat) (d : N) : option (stk * bool) :=
  match s with
  | SFwd s => r <- delay s i d;; Some (SFwd (fst r), snd r)
  | SMul own s => r <- delay s i d;; Some (SMul own (fst r), snd r)
  | SPrecise slots ds q s => ds' <- set_nth ds i d;; Some (SPrecise slots ds' q s, true)
  | SBase _ _ | SDone _ _ | SToInput _ | SAr _ _ | SSmooth _ _ _ => Some (s, false)
  end.
(** [set_ar_param_buffer]: math.rs:99-108 (and so on), closure.rs:70-79, precise_timing.rs:137-144, audio_rate.rs:76-84; everything
    else has the default of ugen.rs:322-329, which only logs. *)
Fixpoint link (s : stk) (i : nat) (p : nat) : option (stk * bool) :=
  match s with
  | SFwd s => r <- link s i p;; Some (SFwd (fst r), snd r)
  | SMul own s => r <- link s i p;; Some (SMul own (fst r), snd r)
  | SPrecise slots ds q s => r <- link s i p;; Some (SPrecise slots ds q (fst r), snd r)
  | SAr bufs s => bufs' <- set_nth bufs i (Some p);; Some (SAr bufs' s, true)
  | SBase _ _ | SDone _ _ | SToInput _ | SSmooth _ _ _ => Some (s, false)
  end.
(** A freshly built stack: [new] of every wrapper *)
Inductive layer := LFwd | LMul | LDone | LToInput | LPrecise (slots : nat) | LAr | LSmooth.
(** [new] of one wrapper around what is there *)
Definition put (l : layer) (s : stk) : stk :=
  match l with
  | LFwd => SFwd s | LMul => SMul [] s | LDone => SDone [] s | LToInput => SToInput s
  | LPrecise n => SPrecise n (repeat 0%N (params s)) [] s
  | LAr => SAr (repeat None (params s)) s
  | LSmooth => SSmooth (repeat false (params s)) [] s
  end.
(** the wrappers from the inside out *)
Definition build (t : list ty) (ls : list layer) : stk := fold_right put (SBase t []) ls.
(** Calls *)
Inductive call := CApply (i : nat) (v : value) | CDelay (i : nat) (d : N) | CLink (i p : nat).
(** one call *)
Definition step (s : stk) (c : call) : option stk :=
  match c with CApply i v => apply s i v | CDelay i d => r <- delay s i d;; Some (fst r) | CLink i p => r <- link s i p;; Some (fst r) end.
(** plumbing: call after call *)
Fixpoint steps (s : stk) (cs : list call) : option stk := match cs with [] => Some s | c :: cs => s' <- step s c;; steps s' cs end.
