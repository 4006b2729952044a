(** Model of block and frame processing of the arithmetic generators (knaster_core_dsp/src/ugens/math.rs) and of the arithmetic and
    closure wrappers (wrappers_core/math.rs, closure.rs). The sample type and its operations are arbitrary. A frame is the list of its
    samples; a block is the list of its channels, of the [frames_to_process] samples seen through the (partial) block. *)
From Verif Require Import Base.
Open Scope nat_scope.

Section Model.
Context {F P : Type}.
Variable zero : F.
(** knaster_core/src/ugen.rs:230-353, the part used here. [g_block] gets the state, the number of frames, the input block and the
    output block with its previous contents. *)
Record gen := mk_gen {
  g_state : Type; g_ins : nat; g_outs : nat;
  g_process : g_state -> list F -> g_state * list F;
  g_block : g_state -> nat -> list (list F) -> list (list F) -> g_state * list (list F);
  g_param : g_state -> P -> g_state }.

(** [read(channel, frame)], [write(value, channel, frame)] *)
Definition bread (b : list (list F)) (c f : nat) : F := nth f (nth c b []) zero.
(** plumbing: change of one element of a list *)
Fixpoint upd {A} (l : list A) (i : nat) (g : A -> A) : list A :=
  match l, i with [], _ => [] | x :: l, O => g x :: l | x :: l, S i => x :: upd l i g end.
(** [write(value, channel, frame)] *)
Definition bwrite (b : list (list F)) (x : F) (c f : nat) : list (list F) := upd b c (fun ch => upd ch f (fun _ => x)).
(** ugen.rs:275-278 *)
Definition bframe (ins : nat) (b : list (list F)) (f : nat) : list F := map (fun c => bread b c f) (seq 0 ins).
(** ugen.rs:280-282: channels [c], [c+1], ... *)
Fixpoint write_chans (b : list (list F)) (y : list F) (c f : nat) : list (list F) :=
  match y with [] => b | x :: y => write_chans (bwrite b x c f) y (S c) f end.
(** ugen.rs:263-284: the default [process_block], [n] frames from [f] on *)
Fixpoint default_block {S} (proc : S -> list F -> S * list F) (ins : nat) (n f : nat) (s : S) (i o : list (list F)) : S * list (list F) :=
  match n with
  | O => (s, o)
  | Datatypes.S n => let r := proc s (bframe ins i f) in default_block proc ins n (Datatypes.S f) (fst r) i (write_chans o (snd r) 0 f)
  end.

(** ** MathUGen *)
(** math.rs:22-35 and the other operations: [zip] stops with the shortest *)
Fixpoint apply2 (op : F -> F -> F) (a b out : list F) : list F :=
  match a, b, out with x :: a, y :: b, _ :: out => op x y :: apply2 op a b out | _, _, _ => out end.
(** math.rs:114-133 [process]: one element slices *)
Definition math_process (op : F -> F -> F) (channels : nat) (x : list F) : list F :=
  map (fun c => hd zero (apply2 op [nth c x zero] [nth (c + channels) x zero] [zero])) (seq 0 channels).
(** math.rs:134-153 [process_block]: [k] channels from [c] on *)
Fixpoint math_channels (op : F -> F -> F) (channels k c : nat) (i o : list (list F)) : list (list F) :=
  match k with
  | O => o
  | S k => math_channels op channels k (S c) i (upd o c (apply2 op (nth c i []) (nth (c + channels) i [])))
  end.
(** math.rs:94-155: the whole UGen *)
Definition math_gen (op : F -> F -> F) (channels : nat) : gen :=
  mk_gen unit (2 * channels) channels (fun s x => (s, math_process op channels x))
    (fun s n i o => (s, math_channels op channels channels 0 i o)) (fun s _ => s).
(** ** Math1UGen: math.rs:165-240, 251-305 *)
Fixpoint apply1 (op : F -> F) (a out : list F) : list F :=
  match a, out with x :: a, _ :: out => op x :: apply1 op a out | _, _ => out end.
(** math.rs:251-305: the whole UGen *)
Definition math1_gen (op : F -> F) : gen :=
  mk_gen unit 1 1 (fun s x => (s, [hd zero (apply1 op [nth 0 x zero] [zero])])) (fun s n i o => (s, upd o 0 (apply1 op (nth 0 i [])))) (fun s _ => s).

(** ** Wrappers. wrappers_core/math.rs:15-68 and the other wrappers: the inner output, sample by sample through [op value];
    [set]: the parameter of [WrMul] (math.rs:92-98), if the parameter is meant for the wrapper *)
Definition wr_op {V} (op : V -> F -> F) (set : P -> option V) (g : gen) : gen :=
  mk_gen (V * g_state g) (g_ins g) (g_outs g)
    (fun s x => let r := g_process g (snd s) x in ((fst s, fst r), map (op (fst s)) (snd r)))
    (fun s n i o => let r := g_block g (snd s) n i o in ((fst s, fst r), map (map (op (fst s))) (snd r)))
    (fun s p => match set p with Some v => (v, snd s) | None => (fst s, g_param g (snd s) p) end).
(** A closure with its captured state, called once per element in order *)
Fixpoint map_state {C} (f : C -> F -> C * F) (c : C) (l : list F) : C * list F :=
  match l with [] => (c, []) | x :: l => let r := f c x in let q := map_state f (fst r) l in (fst q, snd r :: snd q) end.
(** the loops over channels and frames *)
Fixpoint map_channels {C} (f : C -> F -> C * F) (c : C) (b : list (list F)) : C * list (list F) :=
  match b with [] => (c, []) | ch :: b => let r := map_state f c ch in let q := map_channels f (fst r) b in (fst q, snd r :: snd q) end.
(** closure.rs:27-57 *)
Definition wr_closure {C} (f : C -> F -> C * F) (g : gen) : gen :=
  mk_gen (C * g_state g) (g_ins g) (g_outs g)
    (fun s x => let r := g_process g (snd s) x in let q := map_state f (fst s) (snd r) in ((fst q, fst r), snd q))
    (fun s n i o => let r := g_block g (snd s) n i o in let q := map_channels f (fst s) (snd r) in ((fst q, fst r), snd q))
    (fun s p => (fst s, g_param g (snd s) p)).
(** A generator without its own [process_block] *)
Definition plain_gen {S} (ins outs : nat) (proc : S -> list F -> S * list F) (param : S -> P -> S) : gen :=
  mk_gen S ins outs proc (fun s n i o => default_block proc ins n 0 s i o) param.
End Model.
Arguments gen : clear implicits.
