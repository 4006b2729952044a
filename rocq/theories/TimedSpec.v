(** What timed changes mean for a node: each takes effect at the frame that its time denotes. *)
From Verif Require Import Base TimeModel TimeSpec BlockModel PreciseModel PreciseSpec SchedModel SchedSpec TimedModel.
Local Open Scope N_scope.

Section Spec.
Context {F V St : Type}.
Notation change := (N * nat * V)%type.
(** The frame of a change that is sent before the block at [clock]: that of its time, or [clock] if that has passed *)
Definition frame_of (sr clock : N) (t : option time) : N := N.max clock (due_frame sr clock t).
(** The changes sent to node [k]: frame, parameter, value *)
Fixpoint wanted (sr bs : N) (k : nat) (clock : N) (ops : list (top F V)) : list change :=
  match ops with
  | [] => []
  | TSend key param (Some v) _ _ t :: ops =>
      if (key =? k)%nat then (frame_of sr clock t, param, v) :: wanted sr bs k clock ops else wanted sr bs k clock ops
  | TSend _ _ None _ _ _ :: ops => wanted sr bs k clock ops
  | TBlock _ _ _ :: ops => wanted sr bs k (clock + bs) ops
  end.
(** Those with a frame in the block at [clock], as offsets in that block *)
Definition within (bs clock : N) (l : list change) : list change :=
  map (fun x => (fst (fst x) - clock, snd (fst x), snd x)) (filter (fun x => (clock <=? fst (fst x)) && (fst (fst x) <? clock + bs)) l).
(** The inputs of the blocks, each with the changes to be heard in it *)
Fixpoint score (bs : N) (l : list change) (clock : N) (ops : list (top F V)) : list (list change * block F) :=
  match ops with
  | [] => []
  | TSend _ _ _ _ _ _ :: ops => score bs l clock ops
  | TBlock _ _ input :: ops => (within bs clock l, input) :: score bs l (clock + bs) ops
  end.
(** There is always room: in the channel when something is sent, in the queue after a block. *)
Definition roomy (c : config) (ops : list (top F V)) : Prop :=
  forall pre o post s s', ops = pre ++ o :: post -> srun c sched_new (map sop_of pre) = Some s -> sstep c s (sop_of o) = Some s' ->
  match o with
  | TSend _ _ _ _ _ _ => (length (q_ring s) < c_ring c)%nat
  | TBlock _ _ _ => (length (q_wait s') < c_cap c)%nat
  end.
(** What is sent to node [k] is a value, without smoothing or token, at most a second ahead; relative times only at sample rates that
    divide the tick rate. Other nodes can be sent anything. Node [k] runs in every block. *)
Fixpoint plain (c : config) (k : nat) (params : nat) (clock : N) (ops : list (top F V)) : Prop :=
  match ops with
  | [] => True
  | TSend key param v sm tok t :: ops =>
      (key = k -> v <> None /\ sm = None /\ tok = None /\ (param < params)%nat /\
         match t with
         | Some t => sec_normal (t_secs t) /\ (t_abs t = true \/ (c_sr c | TS)) /\ due_frame (c_sr c) clock (Some t) <= clock + c_sr c
         | None => True
         end) /\ plain c k params clock ops
  | TBlock keys _ _ :: ops => In k keys /\ plain c k params (clock + c_bs c) ops
  end.
End Spec.
