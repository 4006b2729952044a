(** Model of the handles of knaster_graph/src/graph_edit.rs: channels of nodes and of the graph inputs, stacking ([|]), chaining ([>>]),
    arithmetic, and parameter addressing. Static handles ([SH]) and dynamic handles ([DH]) hold the same channels; where they differ
    in behaviour both are modelled. Graph edits are those of [GraphModel]; what a pushed node computes is kept in a table beside the
    graph. A constant is taken after its conversion to the sample type ([ConstantNumber::into_f], see [C34_integer_refuted]). The
    [RwLock] around the graph is not modelled (one thread edits). [None] is a panic. *)
From Verif Require Import Base GraphModel.
Local Open Scope nat_scope.
Local Notation length := List.length.

(** [(NodeOrGraph, u16)] *)
Definition chan : Type := node_or_graph * nat.
(** The channels that [iter_inputs] and [iter_outputs] yield: graph_edit.rs:683-719 [DynamicHandle3], l.890-917 [Handle3], l.1480-1554
    [ChannelsHandle] (no inputs) and [DynamicChannelsHandle] *)
Record handle := mk_handle { h_in : list chan; h_out : list chan }.

(** l.1575-1620 [ChannelIterBuilder]: [push] ignores what does not fit, [into_channel_iter] is [None] (and then [expect]ed) unless full *)
Definition cb_push (cap : nat) (acc : list chan) (c : chan) : list chan := if length acc <? cap then acc ++ [c] else acc.
(** l.1600-1620 [into_channel_iter] *)
Definition cb_finish (cap : nat) (acc : list chan) : option (list chan) := if length acc =? cap then Some acc else None.
(** l.1575-1620: push all, then finish *)
Definition cb (cap : nat) (l : list chan) : option (list chan) := cb_finish cap (fold_left (cb_push cap) l []).

(** l.895-915: the channels of a node *)
Definition node_chans (id : node_id) (n : nat) : list chan := map (fun i => (NNode id, i)) (seq 0 n).
(** l.895-915: the channels of a node, in order *)
Definition node_handle (id : node_id) (inputs outputs : nat) : option handle :=
  i <- cb inputs (node_chans id inputs);; o <- cb outputs (node_chans id outputs);; Some (mk_handle i o).
(** l.282-294 [SH::out], l.442-459 [DH::out]: selected outputs; [nth(c).unwrap()] *)
Fixpoint select (l : list chan) (cs : list nat) : option (list chan) :=
  match cs with [] => Some [] | c :: cs => x <- nth_error l c;; r <- select l cs;; Some (x :: r) end.
(** l.282-294, 442-459 [out] *)
Definition out (h : handle) (cs : list nat) : option handle := o <- select (h_out h) cs;; Some (mk_handle [] o).
(** l.189-206 [GraphEdit::from_inputs]; [Err c] is [GraphInputOutOfBounds] *)
Fixpoint from_inputs (g : graph) (cs : list nat) : (handle + nat) :=
  match cs with
  | [] => inl (mk_handle [] [])
  | c :: cs => if g_inputs g <=? c then inr c else
      match from_inputs g cs with inl h => inl (mk_handle [] ((NGraph, c) :: h_out h)) | inr e => inr e end
  end.
(** l.432-440 and l.1428-1460 [Stack] (static: the builders have room for the sum of the counts); l.641-667 [DH::stack] *)
Definition stack_static (a b : handle) : option handle :=
  i <- cb (length (h_in a) + length (h_in b)) (h_in a ++ h_in b);;
  o <- cb (length (h_out a) + length (h_out b)) (h_out a ++ h_out b);;
  Some (mk_handle i o).
(** l.641-667 [DH::stack] *)
Definition stack_dynamic (a b : handle) : handle :=
  mk_handle (fold_left (fun acc c => acc ++ [c]) (h_in b) (fold_left (fun acc c => acc ++ [c]) (h_in a) []))
            (fold_left (fun acc c => acc ++ [c]) (h_out b) (fold_left (fun acc c => acc ++ [c]) (h_out a) [])).

(** l.297-330 [SH::to], [to_feedback]; l.461-505 [DH::to] and so on: errors are logged, the rest is connected. *)
Fixpoint wire (additive feedback : bool) (g : graph) (l : list (chan * chan)) : option (graph * list result) :=
  match l with
  | [] => Some (g, [])
  | ((s, so), (k, si)) :: l =>
      r <- connect2 g s so si k additive feedback;; q <- wire additive feedback (fst r) l;; Some (fst q, snd r :: snd q)
  end.
(** l.297-330, 461-505 [to], [to_replace], [to_feedback] and [to_feedback_replace] *)
Definition to (additive feedback : bool) (g : graph) (x y : handle) : option (graph * list result) :=
  wire additive feedback g (combine (h_out x) (h_in y)).
(** l.548-561 [DH::try_to]: stops at the first error *)
Fixpoint try_wire (g : graph) (l : list (chan * chan)) : option (graph * result) :=
  match l with
  | [] => Some (g, Ok)
  | ((s, so), (k, si)) :: l =>
      r <- connect2 g s so si k true false;; match snd r with Ok => try_wire (fst r) l | Err e => Some (fst r, Err e) end
  end.
(** l.548-561 [DH::try_to] *)
Definition try_to (g : graph) (x y : handle) : option (graph * result) := try_wire g (combine (h_out x) (h_in y)).

(** Operators: math.rs [Add], [Sub], [Mul], [Div], [Pow] *)
Inductive mop := OAdd | OSub | OMul | ODiv | OPow.
(** What a node computes: a generator or subgraph, [Constant] or a one channel [MathUGen] *)
Inductive kind (F : Type) := KOther | KConst (c : F) | KMath (o : mop).
Arguments KOther {F}. Arguments KConst {F} c. Arguments KMath {F} o.
(** the graph that is edited, and what its nodes compute *)
Record state (F : Type) := mk_state { s_g : graph; s_kinds : list (key * kind F) }.
Arguments mk_state {F} s_g s_kinds. Arguments s_g {F} s. Arguments s_kinds {F} s.

Section Edits.
Variable F : Type.
(** l.936-966 (and l.1075-1105, one turn of the loops): push the node, connect both operands (errors are logged) *)
Definition math_node (st : state F) (o : mop) (a b : chan) : option (state F * chan) :=
  let g := s_g st in
  let p := push_node g 2 1 [] None in
  let id := mk_id (snd p) (g_id g) in
  r0 <- connect2 (fst p) (fst a) (snd a) 0 (NNode id) true false;;
  r1 <- connect2 (fst r0) (fst b) (snd b) 1 (NNode id) true false;;
  Some (mk_state (fst r1) ((snd p, KMath o) :: s_kinds st), (NNode id, 0)).
(** l.936-966, 1075-1105: the loop over the channels *)
Fixpoint math_loop (st : state F) (o : mop) (l : list (chan * chan)) : option (state F * list chan) :=
  match l with
  | [] => Some (st, [])
  | (a, b) :: l => r <- math_node st o a b;; q <- math_loop (fst r) o l;; Some (fst q, snd r :: snd q)
  end.
(** Two handles: l.936-971 (static; the types make the counts equal), l.1075-1112 (dynamic: panics if the counts differ) *)
Definition math_bin (st : state F) (o : mop) (a b : handle) : option (state F * handle) :=
  if negb (length (h_out a) =? length (h_out b)) then None else
  r <- math_loop st o (combine (h_out a) (h_out b));;
  c <- cb (length (h_out b)) (snd r);;
  Some (fst r, mk_handle [] c).
(** A handle and a constant: l.1036-1066, 1115-1142: one [Constant] node for all channels, second operand of all *)
Definition math_const (st : state F) (o : mop) (a : handle) (c : F) : option (state F * handle) :=
  let g := s_g st in
  let p := push_node g 0 1 ["value"%string] None in
  let id := mk_id (snd p) (g_id g) in
  r <- math_loop (mk_state (fst p) ((snd p, KConst c) :: s_kinds st)) o (map (fun x => (x, (NNode id, 0))) (h_out a));;
  h <- cb (length (h_out a)) (snd r);;
  Some (fst r, mk_handle [] h).
(** l.1171-1182, 1380-1391 [handle op constant]; l.1183-1193, 1392-1402 [constant op handle]: the same function *)
Definition math_const_right st o a c := math_const st o a c.
(** l.1183-1193, 1392-1402 [constant op handle] *)
Definition math_const_left (st : state F) (o : mop) (c : F) (a : handle) := math_const st o a c.

(** Expressions over handles that exist; Rust evaluates operands from left to right *)
Inductive expr :=
  | EHandle (h : handle)
  | EBin (o : mop) (a b : expr)
  | EConstR (o : mop) (a : expr) (c : F)
  | EConstL (o : mop) (c : F) (a : expr).
(** evaluation of such an expression: one call of the operators per node of it *)
Fixpoint build (st : state F) (e : expr) : option (state F * handle) :=
  match e with
  | EHandle h => Some (st, h)
  | EBin o a b => ra <- build st a;; rb <- build (fst ra) b;; math_bin (fst rb) o (snd ra) (snd rb)
  | EConstR o a c => ra <- build st a;; math_const_right (fst ra) o (snd ra) c
  | EConstL o c a => ra <- build st a;; math_const_left (fst ra) o c (snd ra)
  end.
End Edits.

(** Parameter addressing. Every node has one description per parameter (node.rs:22-29, dynugen.rs:103-105). The resulting index is
    what is later used on the audio thread. *)
(** l.768-795 [SH::try_param]; ugen.rs:344-368 [UGen::param] has the same checks and does not truncate *)
Definition sh_param (descs : list string) (p : param) : option N :=
  match p with
  | PIndex i => if (i <? N.of_nat (length descs))%N then Some (as_u16 i) else None
  | PDesc d => option_map (fun i => as_u16 (N.of_nat i)) (position d descs)
  end.
(** ugen.rs:344-368 [UGen::param] *)
Definition ugen_param (descs : list string) (p : param) : option N :=
  match p with
  | PIndex i => if (i <? N.of_nat (length descs))%N then Some i else None
  | PDesc d => option_map N.of_nat (position d descs)
  end.
(** l.848-880 [DH::try_param]: [(i as u16) < parameters] *)
Definition dh_param (descs : list string) (p : param) : option N :=
  match p with
  | PIndex i => if (as_u16 i <? as_u16 (N.of_nat (length descs)))%N then Some (as_u16 i) else None
  | PDesc d => option_map (fun i => as_u16 (N.of_nat i)) (position d descs)
  end.
(** graph.rs:1348-1396 [Graph::set]: [param_i as u16 >= parameters], the index is then sent as it is *)
Definition set_param (descs : list string) (p : param) : option N :=
  match p with
  | PIndex i => if (as_u16 (N.of_nat (length descs)) <=? as_u16 i)%N then None else Some i
  | PDesc d => option_map N.of_nat (position d descs)
  end.
