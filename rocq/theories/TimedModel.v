(** Model of a timed parameter change on its whole way: from the handle (knaster_graph/src/handle.rs:46-70) through the queue of the
    graph ([SchedModel]) to a node in the sample-accurate wrapper ([PreciseModel]) and to the samples that the node puts out. *)
From Verif Require Import Base TimeModel BlockModel PreciseModel SchedModel.
Local Open Scope nat_scope.

Section Timed.
Context {F V St : Type}.
Variable zero : F.
Variable u : ugen F V St.
Variable c : config.
(** The node that is listened to *)
Variable k : nat.
(** What is done: a change is sent, or a block is processed with this input for the node; [keys] and [act] as in [SchedModel.Block] *)
Inductive top :=
| TSend (key param : nat) (value smooth : option V) (token : option nat) (t : option time)
| TBlock (keys : list nat) (act : nat -> nat -> bool) (input : block F).
(** the same, as [SchedModel] sees it *)
Definition sop_of (o : top) : sop V :=
  match o with TSend a b v s t x => Send a b v s t x | TBlock keys act _ => Block keys act end.

(** graph_gen.rs:291-298: the calls on the UGen of the task *)
Definition take_call (p : precise V St) (a : call V) : option (precise V St) :=
  match a with SetDelay i d => precise_set_delay p i d | Apply i v => precise_apply u p i v end.
(** graph_gen.rs:291-298, for all calls of a block *)
Fixpoint take_calls (p : precise V St) (l : list (call V)) : option (precise V St) :=
  match l with [] => Some p | a :: l => p' <- take_call p a ;; take_calls p' l end.

(** graph_gen.rs:107-189: first the changes, then the tasks; [out] is what was in the output block. The deliveries of this block are
    those added to the (ghost) log. A node that is not in the task list does not run. *)
Definition tstep (out : block F) (sp : sched V * precise V St) (o : top) : option (sched V * precise V St * list (block F)) :=
  s' <- sstep c (fst sp) (sop_of o) ;;
  match o with
  | TSend _ _ _ _ _ _ => Some (s', snd sp, [])
  | TBlock keys _ input =>
      let new := filter (fun d => d_key d =? k) (skipn (length (q_log (fst sp))) (q_log s')) in
      p1 <- take_calls (snd sp) (flat_map d_calls new) ;;
      if existsb (Nat.eqb k) keys then
        r <- precise_block zero u (mk_meta 0 (N.to_nat (c_bs c))) p1 input [] out [] ;; Some (s', fst r, [snd r])
      else Some (s', p1, [])
  end.
(** plumbing: any sequence of them *)
Fixpoint trun (out : block F) (sp : sched V * precise V St) (ops : list top) : option (sched V * precise V St * list (block F)) :=
  match ops with
  | [] => Some (sp, [])
  | o :: ops => r <- tstep out sp o ;; q <- trun out (fst r) ops ;; Some (fst q, snd r ++ snd q)
  end.
End Timed.
Arguments top : clear implicits.
