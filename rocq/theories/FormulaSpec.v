(** Arithmetic on handles, heard: what the samples of an output have to be. *)
From Verif Require Import Base GraphModel GraphSpec OrderSpec RenderSpec HandleModel HandleSpec.
Local Open Scope nat_scope.
Local Notation length := List.length.
Local Notation heard := OrderSpec.heard.

Section Formula.
Variable F : Type.
Variable zero : F.
Variable den : mop -> F -> F -> F.
Variable St : Type.
Variable proc : key -> St -> list (list F) -> list (N * list F) -> St * (nat -> nat -> F).
Variable bs : nat.

(** The nodes made for constants and operators (and the sums the graph inserts) do their work; the others do what they want. *)
Definition behaves (st : state F) : Prop :=
  (forall k c s ins pars f, kind_of F st k = KConst c -> f < bs -> snd (proc k s ins pars) 0 f = c) /\
  (forall k o s x y pars f, kind_of F st k = KMath o -> length x = bs -> length y = bs -> f < bs ->
     snd (proc k s [x; y] pars) 0 f = den o (nth f x zero) (nth f y zero)).
(** The samples of the graph inputs and of all nodes in frame [f] *)
Definition at_frame (gin : nat -> list F) (V : key -> nat -> nat -> F) (f : nat) (l : option key * nat) : F :=
  match fst l with None => nth f (gin (snd l)) zero | Some k => V k (snd l) f end.
(** Nodes recorded as constants and operators are such nodes *)
Definition kinds_ok (st : state F) : Prop :=
  forall k kd, In (k, kd) (s_kinds st) -> kd <> KOther -> exists n, lookup (s_g st) k = Some n /\ n_outputs n = 1 /\ (forall o, kd = KMath o -> n_inputs n = 2).
(** The channels of all operands exist *)
Fixpoint operands_ok (g : graph) (e : expr F) : Prop :=
  match e with
  | EHandle _ h => forall c, In c (h_out h) -> source_ok g c
  | EBin _ _ a b => operands_ok g a /\ operands_ok g b
  | EConstR _ _ a _ => operands_ok g a
  | EConstL _ _ _ a => operands_ok g a
  end.
(** The number of channels, if both sides of every operator agree on it *)
Fixpoint channels (e : expr F) : option nat :=
  match e with
  | EHandle _ h => Some (length (h_out h))
  | EBin _ _ a b => n <- channels a;; m <- channels b;; if n =? m then Some n else None
  | EConstR _ _ a _ => channels a
  | EConstL _ _ _ a => channels a
  end.
(** What an output carries after [v] was sent to it, when [o] was connected to it and carried [w] *)
Definition mixed (additive : bool) (o : option edge) (v w : F) : F :=
  match additive, o with true, Some _ => den OAdd w v | _, _ => v end.
(** Block after block the graph outputs [cs] carry, in every frame, the values of the expression [e] written in [st], added to what was
    connected to them before; what its operands are at in that frame is what the nodes of the graph [g] compute from the graph inputs and
    their states *)
Inductive follows (g : graph) (st : state F) (e : expr F) (additive : bool) (cs : list nat) : list (nat -> list F) -> (key -> St) -> list (list (list F)) -> Prop :=
| follows_nil s : follows g st e additive cs [] s []
| follows_cons gin gins s s1 V out outs :
    (forall k, heard g k -> solves F zero St proc bs g gin s V k) ->
    (forall k, heard g k -> exists r, computes F zero St proc bs g gin s V k r /\ s1 k = fst r) ->
    (forall f, f < bs -> exists vs ws, means F zero den (at_frame gin V f) st e vs /\ length vs = length cs /\
       Forall2 (fun c w => arrives F zero den (at_frame gin V f) st (out_edge (s_g st) c) w) cs ws /\
       forall i c v w, nth_error cs i = Some c -> nth_error vs i = Some v -> nth_error ws i = Some w ->
         nth_error (nth c out []) f = Some (mixed additive (out_edge (s_g st) c) v w)) ->
    follows g st e additive cs gins s1 outs -> follows g st e additive cs (gin :: gins) s (out :: outs).
End Formula.
