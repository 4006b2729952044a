(** What sample-accurate changes mean. *)
From Verif Require Import Base BlockModel PreciseModel.
Local Open Scope nat_scope.

Section Spec.
Context {F V St : Type}.
Variable zero : F.
Variable u : ugen F V St.
Notation change := (N * nat * V)%type.

Definition apply_all (l : list change) (st : St) : St := fold_left (fun s c => u_apply u (snd (fst c)) (snd c) s) l st.
Definition due (t : nat) (l : list change) : list change := filter (fun c => N.to_nat (fst (fst c)) =? t) l.
(** Frame by frame: before frame [t] the changes for frame [t] are applied, in order. *)
Fixpoint timed (n t : nat) (l : list change) (st : St) ib iv ob ov : option (St * block F) :=
  match n with
  | O => Some (st, ob)
  | S n' =>
      let st1 := apply_all (due t l) st in
      x <- read_frame zero ib iv t (u_ins u) ;;
      let r := u_process u st1 x in
      ob' <- write_frame ob ov t (u_outs u) (snd r) ;;
      timed n' (t + 1) l (fst r) ib iv ob' ov
  end.

(** A run in which every change takes effect at its frame. *)
Fixpoint ideal_run (bs : nat) (st : St) (l : list (list change * block F)) (ob : block F) : option (St * list (block F)) :=
  match l with
  | [] => Some (st, [])
  | (es, ib) :: l' =>
      r <- timed bs 0 es st ib [] ob [] ;;
      rest <- ideal_run bs (fst r) l' ob ;;
      Some (fst rest, snd r :: snd rest)
  end.
(** Changes in the order of their frames. *)
Fixpoint in_time_order (l : list change) : Prop :=
  match l with
  | [] => True
  | c :: l' => match l' with [] => True | c' :: _ => (fst (fst c) <= fst (fst c'))%N end /\ in_time_order l'
  end.
(** The changes with an offset of one block: at most [slots], in the order of their frames, inside the block. *)
Definition delayed (es : list change) : list change := filter (fun e => (0 <? fst (fst e))%N) es.
Definition block_ok (bs slots : nat) (es : list change) : Prop :=
  length (delayed es) <= slots /\ in_time_order (delayed es) /\
  forall d i v, In (d, i, v) es -> N.to_nat d < bs /\ i < u_params u.
(** Each parameter is either always changed with an offset (in [timed_params]) or never. *)
Definition offsets_stated (timed_params : nat -> bool) (es : list change) : Prop :=
  forall d i v, In (d, i, v) es -> (0 <? d)%N = timed_params i.
(** Partial calls: the block is processed in consecutive windows of the given lengths. *)
Fixpoint in_parts (parts : list nat) (start : nat) (st : St) ib iv ob ov : option (St * block F) :=
  match parts with
  | [] => Some (st, ob)
  | n :: rest =>
      r <- ugen_block zero u (make_partial (mk_meta 0 0) start n) st ib ((start, n) :: iv) ob ((start, n) :: ov) ;;
      in_parts rest (start + n) (fst r) ib iv (snd r) ov
  end.
End Spec.
