(** C35: the channels of the handles of nodes, of selected outputs and of graph inputs. *)
From Verif Require Import Base GraphModel GraphSpec GraphBase GraphPath GraphInv GraphShape GraphSums GraphStep HandleModel HandleSpec HandleProofs HandleProps.
Local Open Scope nat_scope.
Local Notation length := List.length.

Lemma node_chans_nth : forall id n i, i < n -> nth_error (node_chans id n) i = Some (NNode id, i).
Proof.
  intros id n i H. unfold node_chans. rewrite nth_error_map. rewrite (nth_error_nth' (seq 0 n) 0) by (rewrite seq_length; exact H). rewrite seq_nth by exact H. reflexivity.
Qed.
Lemma node_chans_length : forall id n, length (node_chans id n) = n.
Proof. intros. unfold node_chans. rewrite map_length. apply seq_length. Qed.
(** The handle of a node that was just pushed has its input channels and its output channels in order; all of them can be connected. *)
Theorem C35_node : forall g inputs outputs descs done, reachable g ->
  let p := push_node g inputs outputs descs done in let id := mk_id (snd p) (g_id g) in
  exists h, node_handle id inputs outputs = Some h /\ length (h_in h) = inputs /\ length (h_out h) = outputs /\
    (forall i, i < inputs -> nth_error (h_in h) i = Some (NNode id, i)) /\ (forall i, i < outputs -> nth_error (h_out h) i = Some (NNode id, i)) /\
    (forall c, In c (h_in h) -> sink_ok (fst p) c) /\ (forall c, In c (h_out h) -> source_ok (fst p) c).
Proof.
  intros g inputs outputs descs dn R p id. pose proof (proj1 (proj1 (reachable_wf _ R))) as B.
  exists (mk_handle (node_chans id inputs) (node_chans id outputs)). unfold node_handle.
  rewrite (cb_ok (node_chans id inputs) inputs) by (symmetry; apply node_chans_length). rewrite (cb_ok (node_chans id outputs) outputs) by (symmetry; apply node_chans_length).
  cbn [bind h_in h_out]. split; [reflexivity |]. split; [apply node_chans_length |]. split; [apply node_chans_length |].
  split; [intros i; apply node_chans_nth |]. split; [intros i; apply node_chans_nth |].
  assert (Lk : lookup (fst p) (id_key id) = Some (mk_node inputs outputs descs false false None dn (Some (repeat None inputs)) (Some []) true)).
  { unfold id, p. cbn [id_key]. rewrite push_key, push_lookup by exact B. rewrite Nat.eqb_refl. reflexivity. }
  assert (Gi : g_id (fst p) = g_id g) by (unfold p, push_node; destruct (g_slots g); reflexivity).
  split; intros c Hc; apply in_map_iff in Hc as (i & <- & Hi); apply in_seq in Hi; cbn [fst snd sink_ok source_ok]; unfold sink_ok, source_ok; cbn [fst snd]; (split; [symmetry; exact Gi |]); eexists; (split; [exact Lk |]); cbn [n_edges n_inputs n_outputs].
  - split; [discriminate | lia].
  - lia.
Qed.
Print Assumptions C35_node.

(** [out]: the selected outputs in the order given, no inputs; it panics exactly if one does not exist. *)
Theorem C35_out : forall h cs, match out h cs with
  | Some h' => h_in h' = [] /\ length (h_out h') = length cs /\ forall i c, nth_error cs i = Some c -> c < length (h_out h) /\ nth_error (h_out h') i = nth_error (h_out h) c
  | None => exists c, In c cs /\ length (h_out h) <= c end.
Proof.
  intros h cs. unfold out.
  assert (S : match select (h_out h) cs with
    | Some l => length l = length cs /\ forall i c, nth_error cs i = Some c -> c < length (h_out h) /\ nth_error l i = nth_error (h_out h) c
    | None => exists c, In c cs /\ length (h_out h) <= c end).
  { induction cs as [| c cs IH]; cbn [select]; [split; [reflexivity | intros [| i] c H; discriminate H] |].
    destruct (nth_error (h_out h) c) as [x |] eqn:N; cbn [bind]; [| exists c; split; [left; reflexivity | apply nth_error_None; exact N]].
    destruct (select (h_out h) cs) as [r |]; cbn [bind].
    - destruct IH as [L A]. split; [cbn [length]; rewrite L; reflexivity |]. intros [| i] d H; cbn [nth_error] in *; [injection H as <-; split; [apply nth_error_Some; rewrite N; discriminate | symmetry; exact N] | apply A; exact H].
    - destruct IH as (d & Hd & L). exists d. split; [right; exact Hd | exact L]. }
  destruct (select (h_out h) cs) as [l |]; cbn [bind]; [split; [reflexivity |]; exact S | exact S].
Qed.
Print Assumptions C35_out.

(** [from_inputs]: the graph inputs in the order given, all of which can be connected, or the first number that is not that of an input. *)
Theorem C35_inputs : forall g cs, match from_inputs g cs with
  | inl h => h_in h = [] /\ h_out h = map (fun c => (NGraph, c)) cs /\ forall c, In c (h_out h) -> source_ok g c
  | inr e => g_inputs g <= e /\ exists before after, cs = before ++ e :: after /\ forall c, In c before -> c < g_inputs g end.
Proof.
  intros g. induction cs as [| c cs IH]; cbn [from_inputs]; [split; [reflexivity |]; split; [reflexivity | intros c []] |].
  destruct (Nat.leb_spec (g_inputs g) c) as [L | L]; [split; [exact L |]; exists [], cs; split; [reflexivity | intros x []] |].
  destruct (from_inputs g cs) as [h | e].
  - destruct IH as (A & B & C). cbn [h_in h_out map]. split; [reflexivity |]. split; [rewrite B; reflexivity |]. intros x [<- | H]; [exact L | apply C; exact H].
  - destruct IH as (A & b & a & -> & B). split; [exact A |]. exists (c :: b), a. split; [reflexivity |]. intros x [<- | H]; [exact L | apply B; exact H].
Qed.
Print Assumptions C35_inputs.

(** The example graph has one input; a node with two inputs and one output is pushed *)
Example C35_channels_case : reachable ex_g /\
  node_handle (mk_id (snd (push_node ex_g 2 1 [] None)) (g_id ex_g)) 2 1 = Some (mk_handle [(nd 3, 0); (nd 3, 1)] [(nd 3, 0)]) /\
  out (mk_handle [] [(nd 0, 0); (nd 0, 1)]) [1; 0; 1] = Some (mk_handle [] [(nd 0, 1); (nd 0, 0); (nd 0, 1)]) /\ out (mk_handle [] [(nd 0, 0)]) [1] = None /\
  from_inputs ex_g [0; 0] = inl (mk_handle [] [(NGraph, 0); (NGraph, 0)]) /\ from_inputs ex_g [0; 2; 3] = inr 2.
Proof. split; [exact ex_reachable |]. vm_compute. repeat split. Qed.
