(** What is expected of a generator written by [impl_ugen], said about the impl block itself. *)
From Verif Require Import Base MacroModel.
Open Scope nat_scope.
Open Scope string_scope.
Open Scope list_scope.

(** The parameters: the functions marked with [#[param]], in the order of the impl block *)
Definition is_param (a : attr) : bool := match a with AParam _ => true | _ => false end.
Definition params_of (items : list item) : list fn :=
  flat_map (fun i => match i with IFn f => repeat f (List.length (filter is_param (f_attrs f))) | _ => [] end) items.
(** The last function of that name or mark *)
Definition last_marked (a : attr -> bool) (n : string) (items : list item) (f : fn) : Prop :=
  exists before after, items = before ++ IFn f :: after /\ marked a n f = true /\ forall g, In (IFn g) after -> marked a n g = false.
Definition none_marked (a : attr -> bool) (n : string) (items : list item) : Prop := forall g, In (IFn g) items -> marked a n g = false.
(** Neither [type Inputs] nor [type Outputs] is given *)
Definition no_override (items : list item) : Prop := forall c, ~ In (IType "Inputs" c) items /\ ~ In (IType "Outputs" c) items.

(** The arguments of a function but for [self] *)
Definition typed (f : fn) : list sty := flat_map (fun a => match a with Typed t => [t] | Recv _ => [] end) (f_args f).
(** The names of the types of values *)
Definition named (t : vty) : string := match t with VPFloat => "PFloat" | VF64 => "f64" | VF32 => "f32" | VInteger => "PInteger" | VBoolean => "bool" end.
(** The type of value a function takes: its only argument passed by value; a trigger has none *)
Definition value_args (f : fn) : list (list string) := flat_map (fun t => match t with TPath s => [s] | _ => [] end) (typed f).
Definition takes (f : fn) (t : option vty) : Prop :=
  match t with None => value_args f = [] | Some t => exists s, value_args f = [s] /\ In (named t) s end.
(** Values of a type; a trigger takes any *)
Definition fits (t : option vty) (v : value) : Prop :=
  match t with
  | None => True
  | Some VInteger => exists x, v = VInt x
  | Some VBoolean => exists b, v = VBool b
  | Some _ => exists x, v = VFloat x
  end.
(** What an argument has to get when the parameter is set to [v] *)
Definition suits (v : value) (t : sty) (a : aval Z) : Prop :=
  match t with
  | TRef _ (TPath s) => In "AudioCtx" s /\ a = ACtx
  | TPath s => exists t, In (named t) s /\
      match v with VInt x => t = VInteger /\ a = AInt x | VBool b => t = VBoolean /\ a = ABool b | VFloat x => is_float (Some t) = true /\ a = AFloat t x | _ => False end
  | _ => False
  end.
(** The kind of hint a type of value has *)
Definition hinted (t : option vty) (h : hint) : Prop :=
  match t, h with
  | None, HTrigger | Some VBoolean, HBool | Some VInteger, HInt _ | Some VPFloat, HFloat _ _ _ _ | Some VF32, HFloat _ _ _ _ | Some VF64, HFloat _ _ _ _ => True
  | _, _ => False
  end.
(** What an argument of [process] has to get: every array is the whole frame *)
Definition gets {F} (frame : list F) (t : sty) (a : aval F) : Prop :=
  match t with
  | TRef _ (TPath s) => In "AudioCtx" s /\ a = ACtx \/ In "UGenFlags" s /\ a = AFlags
  | TArray _ (Some n) => List.length frame = n /\ a = AFrame frame
  | TPath s => (In "Frame" s \/ In "NumericArray" s) /\ a = AFrame frame
  | _ => False
  end.
(** What an argument of [process_block] has to get: all channels, in order *)
Definition gets_block {F} (ins outs : nat) (t : sty) (a : aval F) : Prop :=
  match t with
  | TRef false (TPath s) => In "AudioCtx" s /\ a = ACtx \/ In "UGenFlags" s /\ a = AFlags \/ In "InBlock" s /\ a = AChans (seq 0 ins)
  | TRef true (TPath s) => In "AudioCtx" s /\ a = ACtx \/ In "UGenFlags" s /\ a = AFlags \/ In "OutBlock" s /\ a = AOuts (seq 0 outs)
  | TArray (TRef false _) (Some n) => n = ins /\ a = AChans (seq 0 ins)
  | TArray (TRef true _) (Some n) => n = outs /\ a = AOuts (seq 0 outs)
  | _ => False
  end.
