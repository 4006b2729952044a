(** What handles mean: the signals on their channels, per frame. *)
From Verif Require Import Base GraphModel GraphSpec HandleModel.
Local Open Scope nat_scope.
Local Notation length := List.length.

(** The channel exists: a node of this graph with such an output, or a graph input *)
Definition source_ok (g : graph) (c : chan) : Prop :=
  match fst c with
  | NGraph => snd c < g_inputs g
  | NNode id => id_graph id = g_id g /\ exists n, lookup g (id_key id) = Some n /\ snd c < n_outputs n
  end.
(** An input of a node that is there and was not freed *)
Definition sink_ok (g : graph) (c : chan) : Prop :=
  match fst c with
  | NGraph => False
  | NNode id => id_graph id = g_id g /\ exists n, lookup g (id_key id) = Some n /\ n_edges n <> None /\ snd c < n_inputs n
  end.
(** The connection a channel makes *)
Definition as_edge (c : chan) : option edge := Some (mk_edge (src_of (fst c)) (snd c) false).

Section Signals.
Variable F : Type.
(** Silence, what the operators compute, and the signals of the graph inputs and of the nodes that are neither constants nor
    arithmetic, at one frame *)
Variable zero : F.
Variable den : mop -> F -> F -> F.
Variable env : option key * nat -> F.

Definition kind_of (st : state F) (k : key) : kind F :=
  if summing (s_g st) k then KMath OAdd
  else match find (fun e => fst e =? k) (s_kinds st) with Some e => snd e | None => KOther end.
(** The value arriving over a connection *)
Inductive arrives (st : state F) : option edge -> F -> Prop :=
  | ar_none : arrives st None zero
  | ar_input e : e_src e = None -> arrives st (Some e) (env (None, e_chan e))
  | ar_other e k : e_src e = Some k -> kind_of st k = KOther -> arrives st (Some e) (env (Some k, e_chan e))
  | ar_const e k c : e_src e = Some k -> kind_of st k = KConst c -> arrives st (Some e) c
  | ar_math e k o x y : e_src e = Some k -> kind_of st k = KMath o -> arrives st (in_edge (s_g st) k 0) x ->
      arrives st (in_edge (s_g st) k 1) y -> arrives st (Some e) (den o x y).

(** The values of an expression, per channel, with the operands in the written order *)
Fixpoint means (st : state F) (e : expr F) (vs : list F) : Prop :=
  match e with
  | EHandle _ h => Forall2 (fun c v => source_ok (s_g st) c /\ arrives st (as_edge c) v) (h_out h) vs
  | EBin _ o a b => exists xs ys, means st a xs /\ means st b ys /\ length xs = length ys /\ vs = map (fun p => den o (fst p) (snd p)) (combine xs ys)
  | EConstR _ o a c => exists xs, means st a xs /\ vs = map (fun x => den o x c) xs
  | EConstL _ o c a => exists xs, means st a xs /\ vs = map (fun x => den o c x) xs
  end.
(** Constants on the left only with operators for which the order does not matter *)
Fixpoint left_commutes (e : expr F) : Prop :=
  match e with
  | EHandle _ _ => True
  | EBin _ _ a b => left_commutes a /\ left_commutes b
  | EConstR _ _ a _ => left_commutes a
  | EConstL _ o _ a => (forall x y, den o x y = den o y x) /\ left_commutes a
  end.
End Signals.

(** The outputs connected to input [c] of node [k] by chaining, in order *)
Definition new_leaves (l : list (chan * chan)) (k : key) (c : nat) : list leaf :=
  map (fun p => (src_of (fst (fst p)), snd (fst p)))
      (filter (fun p => match fst (snd p) with NNode id => (id_key id =? k) && (snd (snd p) =? c) | NGraph => false end) l).
(** The pairs that were accepted *)
Fixpoint accepted (l : list (chan * chan)) (rs : list result) : list (chan * chan) :=
  match l, rs with p :: l, Ok :: rs => p :: accepted l rs | _ :: l, _ :: rs => accepted l rs | _, _ => [] end.
(** What is heard at an input: summed with what was there, or only the last one *)
Definition combined (additive : bool) (old new : list leaf) : list leaf :=
  if additive then old ++ new else match new with [] => old | _ => [last new (None, 0)] end.
(** The channels belong to nodes pushed before, not to inserted sums (handles are never made for those) *)
Definition known (g : graph) (l : list (chan * chan)) : Prop :=
  forall p id, In p l -> fst (fst p) = NNode id \/ fst (snd p) = NNode id -> id_key id < g_next g /\ summing g (id_key id) = false.
(** No sink of the list already feeds, directly or not, a source of the list *)
Definition no_way_back (g : graph) (l : list (chan * chan)) : Prop :=
  forall p q a b, In p l -> In q l -> src_of (fst (fst p)) = Some a -> src_of (fst (snd q)) = Some b -> ~ reaches g b a.

(** Chaining with feedback: two nodes are a pair *)
Definition partner (g : graph) (k k' : key) : Prop := exists n, lookup g k = Some n /\ n_strong n = Some k'.
(** The connection of an accepted pair: what the sink hears.  Graph inputs are connected directly. *)
Definition through (lo : nat) (g' : graph) (p : chan * chan) (x : leaf) : Prop :=
  match fst (fst p) with
  | NGraph => x = (None, snd (fst p))
  | NNode s => exists fb_sink fb_source, lo <= fb_sink /\ lo <= fb_source /\ x = (Some fb_source, snd (fst p)) /\
      partner g' fb_sink fb_source /\ partner g' fb_source fb_sink /\
      in_edge g' fb_sink 0 = Some (mk_edge (Some (id_key s)) (snd (fst p)) true)
  end.
Definition heard (ps : list (chan * chan)) (ls : list leaf) (k : key) (c : nat) : list leaf :=
  map snd (filter (fun q => match fst (snd (fst q)) with NNode id => (id_key id =? k) && (snd (snd (fst q)) =? c) | NGraph => false end) (combine ps ls)).
(** The new nodes are all different *)
Definition apart (lo : nat) (ls : list leaf) : Prop := NoDup (flat_map (fun x => match fst x with Some k => [k] | None => [] end) ls) /\
  forall k c, In (Some k, c) ls -> lo <= k.

(** The parameter that [p] addresses: an index in range, or the first parameter of that name *)
Definition addresses (descs : list string) (p : param) (i : N) : Prop :=
  match p with
  | PIndex j => i = j /\ (N.to_nat i < length descs)
  | PDesc d => nth_error descs (N.to_nat i) = Some d /\ forall j, j < N.to_nat i -> nth_error descs j <> Some d
  end.
