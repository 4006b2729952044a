(** What an inspection must tell about the graph. *)
From Coq Require Export Sorting.Sorted.
From Verif Require Import Base GraphModel GraphSpec InspectModel.
Local Open Scope nat_scope.

(** [l] reports, in channel order, exactly the connections [at_ c]. [fb] says what is shown as the flag. *)
Definition reports (at_ : nat -> option edge) (fb : edge -> bool) (l : list edge_report) : Prop :=
  StronglySorted lt (map er_to l) /\
  forall er, In er l <-> exists e, at_ (er_to er) = Some e /\ er_src er = e_src e /\ er_from er = e_chan e /\ er_fb er = fb e.
(** The report lists exactly the nodes [P], each once, with their shape, parameters and connections. *)
Definition describes (g : graph) (P : key -> Prop) (r : graph_report) : Prop :=
  NoDup (map nr_key (gr_nodes r)) /\ (forall k, In k (map nr_key (gr_nodes r)) <-> P k) /\
  (forall n, In n (gr_nodes r) -> exists nd, lookup g (nr_key n) = Some nd /\ nr_inputs n = n_inputs nd /\
     nr_outputs n = n_outputs nd /\ nr_params n = n_pdesc nd /\
     reports (in_edge g (nr_key n)) (fun _ => false) (nr_edges n)) /\
  gr_inputs r = g_inputs g /\ gr_outputs r = g_outputs g /\ gr_id r = g_id g /\
  reports (out_edge g) e_fb (gr_outs r).

(** An arrow of the drawing stands for a stored connection. *)
Definition stands_for (g : graph) (r : graph_report) (a : arrow) : Prop := exists e,
  match ar_dst a with
  | Some j => exists n, nth_error (gr_nodes r) j = Some n /\ in_edge g (nr_key n) (ar_to a) = Some e
  | None => out_edge g (ar_to a) = Some e
  end /\
  ar_from a = e_chan e /\
  match e_src e, ar_src a with
  | None, None => True
  | Some s, Some i => exists m, nth_error (gr_nodes r) i = Some m /\ nr_key m = s
  | _, _ => False
  end.
(** Every connection comes from a node that was not freed. *)
Definition fed_by_live (g : graph) : Prop :=
  (forall k c e s, in_edge g k c = Some e -> e_src e = Some s -> live g s) /\
  (forall c e s, out_edge g c = Some e -> e_src e = Some s -> live g s).
