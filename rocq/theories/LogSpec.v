(** What logging should do, seen from outside: the messages sent and the calls of the handler *)
From Verif Require Import Base LogModel.
Local Open Scope nat_scope.

Section Log.
Variable T : Type.
(** All parts and end marks sent *)
Definition sent (ops : list (lop T)) : list (msg T) := flat_map (fun o => match o with LSend m => [m] | _ => [] end) ops.
(** Those that were not dropped *)
Definition kept (outs : list (lout T)) : list (msg T) := flat_map (fun o => match o with LKept m => [m] | _ => [] end) outs.
(** All calls of the handler *)
Definition calls (outs : list (lout T)) : list (list (msg T)) := flat_map (fun o => match o with LCalls cs => cs | _ => [] end) outs.
Definition nothing_dropped (outs : list (lout T)) : Prop := forall m, ~ In (LDropped m) outs.
(** The messages [logs], each complete *)
Definition stream (logs : list (list T)) : list (msg T) := flat_map rt_log logs.
(** The calls come in pairs, and each pair is one complete message *)
Fixpoint paired (cs : list (list (msg T))) (logs : list (list T)) : Prop :=
  match cs, logs with
  | [], [] => True
  | a :: b :: cs, l :: logs => a ++ b = rt_log l /\ paired cs logs
  | _, _ => False
  end.
(** What happens on one of several channels *)
Definition ops_of (i : nat) (ops : list (nat * lop T)) : list (lop T) := map snd (filter (fun o => fst o =? i) ops).
Definition outs_of (i : nat) (outs : list (nat * lout T)) : list (lout T) := map snd (filter (fun o => fst o =? i) outs).
End Log.
Arguments sent {T}. Arguments kept {T}. Arguments calls {T}. Arguments nothing_dropped {T}. Arguments stream {T}. Arguments paired {T}.
Arguments ops_of {T}. Arguments outs_of {T}.
