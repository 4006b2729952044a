(** Property C07: blocks. Specification: [BlockSpec]. *)
From Verif Require Import Base BlockModel BlockSpec BlockProofs.
Local Open Scope nat_scope.

(** A new block is silent. *)
Theorem C07_new_block_silent : forall (F : Type) (zero : F) vec channels size,
  block_wf (block_new zero vec channels size) /\
  shows (block_new zero vec channels size) [] (fun _ _ => zero).
Proof. split; [apply block_new_wf|apply block_new_shows]. Qed.
Print Assumptions C07_new_block_silent.

(** Any sequence of in-range writes, through any nest of windows, changes exactly the written samples
    of the underlying block. *)
Theorem C07_writes_isolated_partial : forall (F : Type) (ws : list (@wr F)) b v g,
  block_wf b -> view_ok b v -> shows b [] g ->
  in_range (b_channels b) (v_size b v) ws ->
  exists b', write_all b v ws = Some b' /\ block_wf b' /\ same_shape b b' /\
             shows b' [] (upd_all g (origin v) ws).
Proof. exact @writes_ok. Qed.
Print Assumptions C07_writes_isolated_partial.

(** A nest of windows shows exactly the frames it covers. *)
Theorem C07_window_shows_partial : forall (F : Type) (b : block F) v g,
  view_ok b v -> shows b [] g -> shows b v (fun c f => g c (origin v + f)).
Proof. exact @window_shows. Qed.
Print Assumptions C07_window_shows_partial.

(** Channel slices (shared and mutable) have the view's length and contents. *)
Theorem C07_slice_agrees : forall (F : Type) (b : block F) v g c,
  block_wf b -> view_ok b v -> shows b v g -> c < b_channels b ->
  v_slice b v c = Some (map (g c) (seq 0 (v_size b v))) /\
  v_slice_mut b v c = Some (map (g c) (seq 0 (v_size b v))).
Proof. exact @slice_shows. Qed.
Print Assumptions C07_slice_agrees.

(** Writing through the mutable slice is the per-sample write, and panics outside the window. *)
Theorem C07_slice_write_agrees : forall (F : Type) (b : block F) v c i x,
  block_wf b -> view_ok b v -> c < b_channels b ->
  v_slice_write b v c i x = if i <? v_size b v then v_write b v x c i else None.
Proof. exact @slice_write_agrees. Qed.
Print Assumptions C07_slice_write_agrees.

(** The channel iterator returns every channel once, in order, then stays at its end. *)
Theorem C07_iterator : forall (F : Type) (b : block F) v g k,
  block_wf b -> view_ok b v -> shows b v g ->
  iter_run b v (b_channels b + k) 0 =
    Some (map (fun c => Some (map (g c) (seq 0 (v_size b v)))) (seq 0 (b_channels b)) ++ repeat None k).
Proof. exact @iter_all. Qed.
Print Assumptions C07_iterator.

Definition ex_block : block nat := mk_block true (seq 100 12) 3 4.
Definition ex_view : view := [(1, 2); (1, 3)].
Example C07_case :
  block_wf ex_block /\ view_ok ex_block ex_view /\ v_size ex_block ex_view = 2 /\
  v_slice ex_block ex_view 1 = Some [106; 107] /\
  in_range 3 2 [(1, 0, 7); (2, 1, 9)] /\
  (b <- write_all ex_block ex_view [(1, 0, 7); (2, 1, 9)] ;; Some (b_buf b)) =
    Some [100;101;102;103;104;105;7;107;108;109;110;9] /\
  iter_run ex_block ex_view 4 0 = Some [Some [102;103]; Some [106;107]; Some [110;111]; None].
Proof. repeat split; cbn; try lia; repeat constructor; cbn; lia. Qed.

(** Full statement (no in-range hypothesis) is false: a frame at or beyond the end of a window or
    block is not rejected and changes a sample outside the window, or of the next channel. *)
Theorem C07_window_escape_refuted :
  exists (b : block nat) v c f x b', block_wf b /\ view_ok b v /\ c < b_channels b /\
    v_size b v <= f /\ v_write b v x c f = Some b' /\
    exists c' f', c' < b_channels b /\ f' < b_size b /\
      (f' < origin v \/ origin v + v_size b v <= f') /\ base_read b' c' f' <> base_read b c' f'.
Proof.
  exists ex_block, [(0, 2)], 0, 3, 55. eexists. repeat split; cbn; try lia.
  exists 0, 3. cbn. repeat split; try lia. discriminate.
Qed.
Print Assumptions C07_window_escape_refuted.
Theorem C07_frame_overrun_refuted :
  exists (b : block nat) c f x b', block_wf b /\ c < b_channels b /\ v_write b [] x c f = Some b' /\
    exists c' f', c' <> c /\ f' < b_size b /\ base_read b' c' f' = Some x /\ base_read b c' f' <> Some x.
Proof.
  exists ex_block, 0, 5, 55. eexists. repeat split; cbn; try lia.
  exists 1, 1. cbn. repeat split; try lia. discriminate.
Qed.
Print Assumptions C07_frame_overrun_refuted.
