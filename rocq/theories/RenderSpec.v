(** The meaning of a graph as a network of functions, and what an allocator must guarantee. *)
From Verif Require Import Base GraphModel GraphSpec.
Local Open Scope nat_scope.

Section Meaning.
Variable F : Type.
Variable zero : F.
Variable St : Type.
Variable proc : key -> St -> list (list F) -> list (N * list F) -> St * (nat -> nat -> F).
Variable bs : nat.
Variable g : graph.
(** The block on each graph input. *)
Variable gin : nat -> list F.
(** The state of every node at the start of the block. *)
Variable st : key -> St.
(** [V k c i]: the sample of node [k] on output [c] in frame [i]. *)
Variable V : key -> nat -> nat -> F.

Definition chan (k : key) (c : nat) : list F := map (V k c) (seq 0 bs).
(** The signal arriving over a connection. *)
Definition signal (o : option edge) : list F :=
  match o with
  | None => repeat zero bs
  | Some e => match e_src e with None => gin (e_chan e) | Some s => chan s (e_chan e) end
  end.
Definition par_signal (p : pedge) : N * list F := (p_idx p, chan (p_src p) (p_chan p)).
(** What node [k] computes from the signals arriving at its inputs and parameters. *)
Definition computes (k : key) (r : St * (nat -> nat -> F)) : Prop :=
  exists es ps, edges_of g k = Some es /\ pedges_of g k = Some ps /\
    r = proc k (st k) (map signal es) (map par_signal ps).
(** [V] agrees with what [k] computes. *)
Definition solves (k : key) : Prop :=
  exists n r, lookup g k = Some n /\ computes k r /\
    forall c i, c < n_outputs n -> i < bs -> V k c i = snd r c i.
End Meaning.

From Verif Require Import OrderSpec.
Section Plays.
Variable F : Type.
Variable zero : F.
Variable St : Type.
Variable proc : key -> St -> list (list F) -> list (N * list F) -> St * (nat -> nat -> F).
Variable bs : nat.
Variable g : graph.
(** [plays gins st outs]: what is heard over consecutive blocks with graph inputs [gins], starting from node
    states [st], block after block. *)
Inductive plays : list (nat -> list F) -> (key -> St) -> list (list (list F)) -> Prop :=
| plays_nil st : plays [] st []
| plays_cons gin gins st st1 V outs :
    (forall k, heard g k -> solves F zero St proc bs g gin st V k) ->
    (forall k, heard g k -> exists r, computes F zero St proc bs g gin st V k r /\ st1 k = fst r) ->
    plays gins st1 outs ->
    plays (gin :: gins) st (map (signal F zero bs gin V) (g_outs g) :: outs).
End Plays.
