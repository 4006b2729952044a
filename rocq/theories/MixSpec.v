(** Several signals connected to the same place: what is heard there. *)
From Verif Require Import Base GraphModel GraphSpec OrderSpec RenderSpec.
Local Open Scope nat_scope.
Local Notation length := List.length.

(** What is connected to input [si] of a node, or to output [si] of the graph *)
Definition arriving (g : graph) (d : node_or_graph) (si : nat) : option edge :=
  match d with NNode k => in_edge g (id_key k) si | NGraph => out_edge g si end.
Definition same_place (d d' : node_or_graph) : Prop :=
  match d, d' with NNode k, NNode k' => id_key k = id_key k' | NGraph, NGraph => True | _, _ => False end.
(** Sums that the graph inserted are not addressed: handles are never made for them *)
Definition no_sum (g : graph) (d : node_or_graph) : Prop := match d with NNode k => summing g (id_key k) = false | NGraph => True end.
(** Nodes are pushed, and connections made to other places *)
Definition elsewhere (g : graph) (d : node_or_graph) (si : nat) (o : op) : Prop :=
  match o with
  | OpPush _ _ _ _ => True
  | OpConnect _ _ c d' _ false => no_sum g d' /\ ~ (same_place d d' /\ c = si)
  | _ => False
  end.
(** A history in which the outputs [l] are connected to the place, in this order, with anything happening elsewhere in between *)
Inductive mixes (d : node_or_graph) (si : nat) : graph -> list (node_or_graph * nat) -> graph -> Prop :=
| mixes_nil g : mixes d si g [] g
| mixes_here g s so g1 l g2 : step g (OpConnect s so si d true false) = Some (g1, Ok) -> mixes d si g1 l g2 -> mixes d si g ((s, so) :: l) g2
| mixes_else g o r g1 l g2 : elsewhere g d si o -> step g o = Some (g1, r) -> mixes d si g1 l g2 -> mixes d si g l g2.

Section Mix.
Variable F : Type.
Variable zero : F.
Variable add : F -> F -> F.
Variable St : Type.
Variable proc : key -> St -> list (list F) -> list (N * list F) -> St * (nat -> nat -> F).
Variable bs : nat.
(** ((x0 + x1) + x2) + ..., and silence if there is nothing *)
Definition in_order (xs : list F) : F := match xs with [] => zero | x :: xs => fold_left add xs x end.
(** The inserted sums add; nothing is said about the other nodes *)
Definition sums_add (g : graph) : Prop := forall k s x y pars f, summing g k = true -> length x = bs -> length y = bs -> f < bs ->
  snd (proc k s [x; y] pars) 0 f = add (nth f x zero) (nth f y zero).
(** A sample of an output of a node or of a graph input *)
Definition sample (gin : nat -> list F) (V : key -> nat -> nat -> F) (f : nat) (x : node_or_graph * nat) : F :=
  match fst x with NGraph => nth f (gin (snd x)) zero | NNode id => V (id_key id) (snd x) f end.
(** Block after block output [si] carries in every frame the sum, in the order of [l], of what the nodes of the graph compute *)
Inductive hears (g : graph) (si : nat) (l : list (node_or_graph * nat)) : list (nat -> list F) -> (key -> St) -> list (list (list F)) -> Prop :=
| hears_nil s : hears g si l [] s []
| hears_cons gin gins s s1 V out outs :
    (forall k, heard g k -> solves F zero St proc bs g gin s V k) ->
    (forall k, heard g k -> exists r, computes F zero St proc bs g gin s V k r /\ s1 k = fst r) ->
    (forall f, f < bs -> nth_error (nth si out []) f = Some (in_order (map (sample gin V f) l))) ->
    hears g si l gins s1 outs -> hears g si l (gin :: gins) s (out :: outs).
End Mix.
