(** Model of scheduled parameter changes: [Time] (scheduling.rs:73-139), the event channel (handle.rs:39-75) and the
    queue of the audio thread (graph_gen.rs:107-165, 269-305).
    Simplifications: values and smoothing settings are opaque ([V]); a UGen is represented by the calls it
    receives; the task list is represented by its keys ([node_task_order], one entry per task, task.rs:86-88);
    the log message for late events is left out.
    Every event gets a serial number when it is sent (ghost, used to tell events apart). *)
From Verif Require Import Base TimeModel.
Local Open Scope N_scope.

Section Model.
Variable V : Type.

(** scheduling.rs:73-76 *)
Record time := mk_time { t_secs : seconds; t_abs : bool }.

(** scheduling.rs:95-121 [Time::to_samples_until_due]: the result and the updated [self] *)
Definition until_due (bs sr clock : N) (t : time) : option (N * time) :=
  if t_abs t then
    n <- sec_to_samples (t_secs t) sr ;;
    Some (n - clock, t)
  else if sec_eqb (t_secs t) sec_zero then Some (0, t)
  else
    n <- sec_to_samples (t_secs t) sr ;;
    b <- sec_from_samples bs sr ;;
    s <- sec_saturating_sub (t_secs t) b ;;
    Some (n, mk_time s false).

(** scheduling.rs:28-36; [e_id] is the ghost serial number, a token is named by a number *)
Record event := mk_event {
  e_id : nat;
  e_key : nat;
  e_param : nat;
  e_value : option V;
  e_smooth : option V;
  e_token : option nat;
  e_time : option time }.

(** A call on the UGen of a task: graph_gen.rs:291-298 *)
Inductive call := SetDelay (p : nat) (d : N) | Apply (p : nat) (v : V).
(** ghost: what was applied, when and to which node *)
Record delivery := mk_delivery { d_id : nat; d_clock : N; d_key : nat; d_calls : list call }.

(** assignment to the time of a waiting change (graph_gen.rs:107-165) *)
Definition with_time (e : event) (t : option time) : event :=
  mk_event (e_id e) (e_key e) (e_param e) (e_value e) (e_smooth e) (e_token e) t.

(** plumbing *)
Definition opt_list {A} (o : option A) : list A := match o with Some a => [a] | None => [] end.

(** graph_gen.rs:269-305 [apply_parameter_change].  [act id tok] is what the read of the token's flag for this
    event returns in this block.  [inl]: applied; [inr]: handed back. *)
Definition apply_change (bs sr clock : N) (act : nat -> nat -> bool) (keys : list nat) (e : event) :
    option (delivery + event) :=
  let ready := match e_token e with Some tok => act (e_id e) tok | None => true end in
  r <- match e_time e with
       | Some t => x <- until_due bs sr clock t ;; Some (fst x, with_time e (Some (snd x)), ready && (fst x <? bs))
       | None => Some (0, e, ready)
       end ;;
  let '(delay, e', ready') := r in
  if ready' && existsb (Nat.eqb (e_key e')) keys then
    Some (inl (mk_delivery (e_id e') clock (e_key e')
      ((if 0 <? delay then [SetDelay (e_param e') (as_u16 delay)] else []) ++
       map (Apply (e_param e')) (opt_list (e_smooth e')) ++
       map (Apply (e_param e')) (opt_list (e_value e')))))
  else Some (inr e').

(** graph_gen.rs:109-137: [n] rounds of popping the front of the queue *)
Fixpoint wait_loop (bs sr keep clock : N) act keys (n : nat) (q : list (event * N)) : option (list delivery * list (event * N)) :=
  match n with
  | O => Some ([], q)
  | S n' =>
      match q with
      | [] => None
      | (e, w) :: q' =>
          if keep <? w then wait_loop bs sr keep clock act keys n' q'
          else
            r <- apply_change bs sr clock act keys e ;;
            match r with
            | inl d => x <- wait_loop bs sr keep clock act keys n' q' ;; Some (d :: fst x, snd x)
            | inr e' => w' <- add_w U32 w 1 ;; wait_loop bs sr keep clock act keys n' (q' ++ [(e', w')])
            end
      end
  end.

(** graph_gen.rs:140-164: the events read from the channel; [cap] is the capacity of the queue *)
Fixpoint new_loop (bs sr clock : N) (cap : nat) act keys (ring : list event) (q : list (event * N)) : option (list delivery * list (event * N)) :=
  match ring with
  | [] => Some ([], q)
  | e :: ring' =>
      r <- apply_change bs sr clock act keys e ;;
      match r with
      | inl d => x <- new_loop bs sr clock cap act keys ring' q ;; Some (d :: fst x, snd x)
      | inr e' => new_loop bs sr clock cap act keys ring' (if Nat.ltb (length q) cap then q ++ [(e', 0)] else q)
      end
  end.

(** One graph: block size, sample rate, ring buffer size and queue capacity.
    graph.rs:223, 312, 317: [blocks_to_keep_scheduled_changes = sample_rate / block_size] *)
Record config := mk_config { c_bs : N; c_sr : N; c_ring : nat; c_cap : nat }.
(** graph.rs:223: [blocks_to_keep_scheduled_changes] *)
Definition keep (c : config) : N := c_sr c / c_bs c.

Record sched := mk_sched {
  q_clock : N;                      (* processor.rs:61 [frame_clock] *)
  q_ring : list event;              (* the event channel *)
  q_wait : list (event * N);        (* graph_gen.rs:49 [waiting_parameter_changes] *)
  q_next : nat;                     (* ghost: next serial number *)
  q_log : list delivery }.          (* ghost: what the UGens have received *)
Definition sched_new : sched := mk_sched 0 [] [] 0 [].

(** [Send]: handle.rs:46-70 (an error when the ring buffer is full, then nothing is sent).
    [Block]: processor.rs:118-140 around graph_gen.rs:107-165, for a graph that is not freed; [keys] are those of the
    task list that is current in this block. *)
Inductive sop := Send (key param : nat) (value smooth : option V) (token : option nat) (t : option time)
  | Block (keys : list nat) (act : nat -> nat -> bool).

(** one of these two *)
Definition sstep (c : config) (s : sched) (o : sop) : option sched :=
  match o with
  | Send key param value smooth token t =>
      let e := mk_event (q_next s) key param value smooth token t in
      if Nat.ltb (length (q_ring s)) (c_ring c)
      then Some (mk_sched (q_clock s) (q_ring s ++ [e]) (q_wait s) (S (q_next s)) (q_log s))
      else Some s
  | Block keys act =>
      a <- wait_loop (c_bs c) (c_sr c) (keep c) (q_clock s) act keys (length (q_wait s)) (q_wait s) ;;
      b <- new_loop (c_bs c) (c_sr c) (q_clock s) (c_cap c) act keys (q_ring s) (snd a) ;;
      clock <- add_w U64 (q_clock s) (c_bs c) ;;
      Some (mk_sched clock [] (snd b) (q_next s) (q_log s ++ fst a ++ fst b))
  end.
(** plumbing: any sequence of them *)
Fixpoint srun (c : config) (s : sched) (ops : list sop) : option sched :=
  match ops with
  | [] => Some s
  | o :: rest => s' <- sstep c s o ;; srun c s' rest
  end.

(** processor.rs:118-140, scheduling.rs:55-66: frame clock and shared clock after a number of blocks *)
Fixpoint clock_run (bs sr : N) (n : nat) (st : N * seconds) : option (N * seconds) :=
  match n with
  | O => Some st
  | S n' =>
      clock <- add_w U64 (fst st) bs ;;
      t <- sec_from_samples clock sr ;;
      clock_run bs sr n' (clock, t)
  end.
End Model.
Arguments mk_event {V}. Arguments e_id {V}. Arguments e_key {V}. Arguments e_param {V}. Arguments e_value {V}.
Arguments e_smooth {V}. Arguments e_token {V}. Arguments e_time {V}. Arguments with_time {V}.
Arguments SetDelay {V}. Arguments Apply {V}. Arguments mk_delivery {V}. Arguments d_id {V}. Arguments d_clock {V}.
Arguments d_key {V}. Arguments d_calls {V}. Arguments apply_change {V}. Arguments wait_loop {V}. Arguments new_loop {V}.
Arguments q_clock {V}. Arguments q_ring {V}. Arguments q_wait {V}. Arguments q_next {V}. Arguments q_log {V}.
Arguments mk_sched {V}. Arguments sched_new {V}. Arguments Send {V}. Arguments Block {V}. Arguments sstep {V}. Arguments srun {V}.
