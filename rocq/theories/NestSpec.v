(** What graphs inside graphs mean. No memory, no order of execution, no plans. *)
From Verif Require Import Base GraphModel GraphSpec OrderSpec RenderSpec AllocModel NestModel.
Local Open Scope nat_scope.

Section Meaning.
Variable F : Type.
Variable zero : F.
Variable St : Type.
Variable proc : list key -> St -> list (list F) -> list (N * list F) -> St * (nat -> nat -> F).
Variable bs : nat.
Notation signal := (signal F zero bs).
Notation chan := (chan F bs).
Notation nstate := (nstate F St).

(** [means n p gin st st1 outs]: one block of the graph [n] at path [p] with graph inputs [gin] from node states [st] gives outputs [outs]
    and node states [st1]. There is one signal for every output of every node that is heard; a generator's output is what it computes from the signals
    arriving at it; the output of an inner graph is what that graph plays with the signals arriving at it on its inputs. *)
Fixpoint means (n : net) (p : list key) (gin : nat -> list F) (st st1 : key -> nstate) (outs : list (list F)) : Prop :=
  match n with
  | Net g _ sub => exists V : key -> nat -> nat -> F,
      (forall k, heard g k -> exists nd es ps, lookup g k = Some nd /\ edges_of g k = Some es /\ pedges_of g k = Some ps /\
         match sub k with
         | None => exists s, st k = Leaf s /\
             let r := proc (k :: p) s (map (signal gin V) es) (map (par_signal F bs V) ps) in
             st1 k = Leaf (fst r) /\ forall c i, c < n_outputs nd -> i < bs -> V k c i = snd r c i
         | Some n' => exists m s m1 s1 o, st k = Inner m s /\ st1 k = Inner m1 s1 /\
             means n' (k :: p) (fun c => nth c (map (signal gin V) es) (repeat zero bs)) s s1 o /\
             forall c, c < n_outputs nd -> nth_error o c = Some (chan V k c)
         end) /\
      outs = map (signal gin V) (g_outs g)
  end.
Inductive nplays (n : net) : list (nat -> list F) -> (key -> nstate) -> list (list (list F)) -> Prop :=
| nplays_nil st : nplays n [] st []
| nplays_cons gin gins st st1 o outs : means n [] gin st st1 o -> nplays n gins st1 outs -> nplays n (gin :: gins) st (o :: outs).

(** The states of generators and inner graphs are where they belong, and the silent buffer of every graph is silent. *)
Fixpoint ready (n : net) (m : nat -> F) (st : key -> nstate) : Prop :=
  match n with
  | Net _ _ sub => (forall x, x < bs -> m x = zero) /\
      forall k, match sub k with
                | None => exists s, st k = Leaf s
                | Some n' => exists m' s', st k = Inner m' s' /\ ready n' m' s'
                end
  end.
(** [P] holds of every graph and its plan, and inner graphs have the channels of their nodes. *)
Fixpoint all_nets (P : graph -> task_data -> Prop) (n : net) : Prop :=
  match n with
  | Net g td sub => P g td /\
      forall k, match sub k with
                | None => True
                | Some n' => all_nets P n' /\
                    forall nd, lookup g k = Some nd -> n_inputs nd = g_inputs (net_graph n') /\ n_outputs nd = List.length (g_outs (net_graph n'))
                end
  end.
End Meaning.
