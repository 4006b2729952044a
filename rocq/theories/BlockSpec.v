(** Independent meaning of blocks: a block is a matrix of samples, a window shows part of it. *)
From Verif Require Import Base BlockModel.
Local Open Scope nat_scope.

Section Spec.
Context {F : Type}.

(** A matrix: sample by channel and frame. *)
Definition matrix := nat -> nat -> F.
Definition upd (g : matrix) (c f : nat) (x : F) : matrix :=
  fun c' f' => if (c' =? c) && (f' =? f) then x else g c' f'.

(** The block holds as many samples as its shape says. *)
Definition block_wf (b : block F) : Prop := length (b_buf b) = b_channels b * b_size b.
Definition same_shape (b b' : block F) : Prop :=
  b_channels b' = b_channels b /\ b_size b' = b_size b /\ b_vec b' = b_vec b.

(** Every window lies inside the block it is a window on. *)
Fixpoint view_ok (b : block F) (v : view) : Prop :=
  match v with
  | [] => True
  | (start, len) :: v' => start + len <= v_size b v' /\ view_ok b v'
  end.
(** Frame of the underlying block where the outermost window starts. *)
Definition origin (v : view) : nat := fold_right (fun w acc => fst w + acc) 0 v.

(** Per-sample reads through view [v] show the matrix [g]. *)
Definition shows (b : block F) (v : view) (g : matrix) : Prop :=
  forall c f, c < b_channels b -> f < v_size b v -> v_read b v c f = Some (g c f).

(** One write: channel, frame, value; and a sequence of them, by view or on a matrix. *)
Definition wr := (nat * nat * F)%type.
Fixpoint write_all (b : block F) (v : view) (ws : list wr) : option (block F) :=
  match ws with
  | [] => Some b
  | (c, f, x) :: ws' => b' <- v_write b v x c f ;; write_all b' v ws'
  end.
Fixpoint upd_all (g : matrix) (off : nat) (ws : list wr) : matrix :=
  match ws with
  | [] => g
  | (c, f, x) :: ws' => upd_all (upd g c (off + f) x) off ws'
  end.
Definition in_range (channels size : nat) (ws : list wr) : Prop :=
  Forall (fun w => fst (fst w) < channels /\ snd (fst w) < size) ws.
End Spec.
