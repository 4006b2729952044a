(** When a plan renders its graph: a condition on the list of tasks. *)
From Verif Require Import Base GraphModel GraphSpec OrderSpec AllocModel.
Local Open Scope nat_scope.

(** Address [x] is one of those that task [t] writes. *)
Definition writes (bs : nat) (t : task) (x : nat) : Prop := t_out t <= x < t_out t + t_outs t * bs.
(** Every node that is heard runs after everything it reads, and no task that comes after the source of a graph output writes to the
    memory of the channel that is connected to the output. *)
Definition sound_plan (g : graph) (bs : nat) (td : task_data) : Prop :=
  (forall k, heard g k -> after_sources g (map t_key (td_tasks td)) k) /\
  (forall c e s, out_edge g c = Some e -> e_src e = Some s ->
     forall l1 t l2, td_tasks td = l1 ++ t :: l2 -> t_key t = s ->
     forall t' i, In t' l2 -> i < bs -> ~ writes bs t' (t_out t + e_chan e * bs + i)).
