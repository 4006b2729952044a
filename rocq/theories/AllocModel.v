(** Model of knaster_graph/src/buffer_allocator.rs and of the parts of graph.rs that use it to place the
    output of every node in memory and to build the tasks.  Memory is one allocation, addresses are sample
    offsets from its start ([usize] values, without overflow).  [None] is a panic (integer overflow checks
    on, as in a debug build). *)
From Verif Require Import Base GraphModel OrderModel.
Local Open Scope nat_scope.

(** buffer_allocator.rs:41-48 *)
Record blk := mk_blk { b_start : nat; b_len : nat; b_borrows : N }.
(** buffer_allocator.rs:50-57. [a_ret] is [return_order] with its last element first; [a_size] is the length
    of the real allocation. *)
Record alloc := mk_alloc { a_next : nat; a_blocks : list blk; a_ret : list nat; a_virtual : nat; a_size : nat }.
(** buffer_allocator.rs:59-67 *)
Definition alloc_new (len : nat) : alloc := mk_alloc 0 [] [] 0 len.

(** buffer_allocator.rs:72-89 *)
Definition assign_new_block (a : alloc) (channels bs : nat) (borrows : N) : alloc * nat :=
  let len := channels * bs in
  (mk_alloc (a_next a + len) (a_blocks a ++ [mk_blk (a_next a) len borrows]) (a_ret a)
     (if a_virtual a <? a_next a + len then a_next a + len else a_virtual a) (a_size a),
   a_next a).

(** buffer_allocator.rs:91-101: the first block with that offset; the decrement panics at zero *)
Fixpoint find_start (off : nat) (l : list blk) : option nat :=
  match l with
  | [] => None
  | b :: l' => if b_start b =? off then Some 0 else option_map S (find_start off l')
  end.
(** buffer_allocator.rs:91-101 [return_block] *)
Definition return_block (a : alloc) (off : nat) : option alloc :=
  match find_start off (a_blocks a) with
  | None => Some a
  | Some i =>
      b <- nth_error (a_blocks a) i ;;
      if (b_borrows b =? 0)%N then None
      else
        let n := (b_borrows b - 1)%N in
        bl <- set_nth (a_blocks a) i (mk_blk (b_start b) (b_len b) n) ;;
        Some (mk_alloc (a_next a) bl (if (n =? 0)%N then i :: a_ret a else a_ret a) (a_virtual a) (a_size a))
  end.

(** buffer_allocator.rs:116-129: the most recently returned block that is large enough *)
Fixpoint pick (blocks : list blk) (len : nat) (ret : list nat) : option (option (nat * list nat)) :=
  match ret with
  | [] => Some None
  | i :: ret' =>
      b <- nth_error blocks i ;;
      if (b_borrows b =? 0)%N && (len <=? b_len b) then Some (Some (i, ret'))
      else r <- pick blocks len ret' ;; Some (option_map (fun p => (fst p, i :: snd p)) r)
  end.
(** buffer_allocator.rs:106-135 *)
Definition get_block (a : alloc) (channels bs : nat) (borrows : N) : option (alloc * nat) :=
  r <- pick (a_blocks a) (channels * bs) (a_ret a) ;;
  match r with
  | Some (i, ret) =>
      b <- nth_error (a_blocks a) i ;;
      bl <- set_nth (a_blocks a) i (mk_blk (b_start b) (b_len b) borrows) ;;
      Some (mk_alloc (a_next a) bl ret (a_virtual a) (a_size a), b_start b)
  | None => Some (assign_new_block a channels bs borrows)
  end.
(** [usize::MAX] on a 64-bit machine *)
Definition usize_max : N := 18446744073709551615.
(** buffer_allocator.rs:136-144 *)
Definition reset (a : alloc) (bs : nat) : option alloc :=
  r <- get_block (mk_alloc 0 [] [] 0 (a_size a)) 1 bs usize_max ;; Some (fst r).
(** buffer_allocator.rs:149-157 *)
Definition finish (a : alloc) : alloc :=
  mk_alloc (a_next a) (a_blocks a) (a_ret a) (a_virtual a)
    (if a_virtual a <=? a_size a then a_size a else a_virtual a).
(** buffer_allocator.rs:163, graph.rs:128 [OwnedRawBuffer::add] *)
Definition offset_to_ptr (a : alloc) (off : nat) : option nat := if off <? a_size a then Some off else None.

(** ** Placing the nodes: graph.rs:1588-1704 [allocate_node_buffers] *)
(** Sources of a node: audio inputs (feedback connections included), then parameter links. *)
Definition edge_sources (es : list (option edge)) : list key :=
  flat_map (fun o => match o with Some e => match e_src e with Some s => [s] | None => [] end | None => [] end) es.
(** graph.rs:1629-1660: the nodes whose buffers a node reads *)
Definition sources (g : graph) (k : key) : list key :=
  match edges_of g k with Some es => edge_sources es | None => [] end ++
  match pedges_of g k with Some ps => map p_src ps | None => [] end.
(** graph.rs:1591-1618 [num_output_dependents]: all input edges and parameter edges from [k] *)
Definition dependents (g : graph) (k : key) : nat :=
  count_occ Nat.eq_dec (flat_map (sources g) (map fst (g_nodes g))) k.
(** The index into [nodes] panics for a source that is not in the graph. *)
Definition sources_present (g : graph) : bool :=
  forallb (fun s => match lookup g s with Some _ => true | None => false end)
    (flat_map (sources g) (map fst (g_nodes g))).

(** node.rs:188-191 [NodeOutput]; a node that was not committed yet has [Offset(0)] (node.rs:106), one that
    was has a pointer *)
Inductive nout := Ptr | Off (o : nat).
(** plumbing: change of a map at one key *)
Definition upd (f : key -> nout) (k : key) (v : nout) : key -> nout := fun k' => if k' =? k then v else f k'.

(** graph.rs:1636-1680, the returns for one node *)
Fixpoint return_all (a : alloc) (outs : key -> nout) (srcs : list key) : option alloc :=
  match srcs with
  | [] => Some a
  | s :: srcs' =>
      a' <- match outs s with Off o => return_block a o | Ptr => Some a end ;;
      return_all a' outs srcs'
  end.
(** graph.rs:1626-1680 *)
Fixpoint alloc_loop (g : graph) (bs : nat) (a : alloc) (outs : key -> nout) (order : list key)
  : option (alloc * (key -> nout)) :=
  match order with
  | [] => Some (a, outs)
  | k :: order' =>
      n <- lookup g k ;;
      ao <- get_block a (n_outputs n) bs (N.of_nat (dependents g k)) ;;
      let outs := upd outs k (Off (snd ao)) in
      _ <- edges_of g k ;;
      _ <- pedges_of g k ;;
      a' <- return_all (fst ao) outs (sources g k) ;;
      alloc_loop g bs a' outs order'
  end.

(** ** Tasks: graph.rs:1486-1562, 1682-1704 *)
(** Where a task reads: an address in the allocation or a channel of the graph's own input. *)
Inductive isrc := IBuf (a : nat) | IGraph (c : nat).
(** task.rs:17-24 [Task], with addresses instead of pointers *)
Record task := mk_task { t_key : key; t_ins : list isrc; t_pars : list (N * nat); t_out : nat; t_outs : nat }.
(** task.rs:70-99 [TaskData], tasks and output task *)
Record task_data := mk_td { td_tasks : list task; td_out : list (option isrc) }.
(** Output pointer of a node of the order; a node that is not in the order has a stale pointer or none,
    which the model treats as a panic. *)
Definition addr_of (a : alloc) (outs : key -> nout) (order : list key) (k : key) : option nat :=
  if mem k order then match outs k with Off o => offset_to_ptr a o | Ptr => None end else None.
(** graph.rs:1496-1527: where an input of a task is read *)
Definition in_addr (a : alloc) outs order (bs : nat) (o : option edge) : option isrc :=
  match o with
  | None => p <- offset_to_ptr a 0 ;; Some (IBuf p)
  | Some e =>
      match e_src e with
      | None => Some (IGraph (e_chan e))
      | Some s => p <- addr_of a outs order s ;; Some (IBuf (p + e_chan e * bs))
      end
  end.
(** plumbing: a loop over a list that stops at the first panic *)
Fixpoint map_opt {A B} (f : A -> option B) (l : list A) : option (list B) :=
  match l with
  | [] => Some []
  | x :: l' => y <- f x ;; ys <- map_opt f l' ;; Some (y :: ys)
  end.
(** graph.rs:1532-1562 *)
Definition par_addr (g : graph) (a : alloc) outs order (bs : nat) (p : pedge) : option (N * nat) :=
  n <- lookup g (p_src p) ;;
  q <- addr_of a outs order (p_src p) ;;
  if p_chan p <? n_outputs n then Some (p_idx p, q + p_chan p * bs) else None.
(** graph.rs:1496-1527 *)
Definition out_addr (g : graph) (a : alloc) outs order (bs : nat) (o : option edge) : option (option isrc) :=
  match o with
  | None => Some None
  | Some e =>
      match e_src e with
      | None => Some (Some (IGraph (e_chan e)))
      | Some s =>
          n <- lookup g s ;;
          p <- addr_of a outs order s ;;
          if e_chan e <? n_outputs n then Some (Some (IBuf (p + bs * e_chan e))) else None
      end
  end.
(** graph.rs:1486-1527: the task of one node *)
Definition node_task (g : graph) (a : alloc) outs order (bs : nat) (k : key) : option task :=
  n <- lookup g k ;;
  es <- edges_of g k ;;
  ps <- pedges_of g k ;;
  ins <- map_opt (in_addr a outs order bs) es ;;
  pars <- map_opt (par_addr g a outs order bs) ps ;;
  p <- addr_of a outs order k ;;
  Some (mk_task k ins pars p (n_outputs n)).

(** graph.rs:1707-1726, the part of [commit_changes] that plans the next blocks.  [old k]: node [k] was part
    of an earlier commit. *)
Definition plan (g : graph) (bs : nat) (a : alloc) (old : key -> bool) : option (alloc * task_data) :=
  order <- node_order g ;;
  if sources_present g then
    a0 <- reset a bs ;;
    ao <- alloc_loop g bs a0 (fun k => if old k then Ptr else Off 0) order ;;
    let a1 := finish (fst ao) in
    ts <- map_opt (node_task g a1 (snd ao) order bs) order ;;
    os <- map_opt (out_addr g a1 (snd ao) order bs) (g_outs g) ;;
    Some (a1, mk_td ts os)
  else None.
