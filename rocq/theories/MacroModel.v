(** Model of the attribute macro [impl_ugen] (knaster_macros/src/lib.rs:74-1000): how it reads the functions of an impl block and which
    unit generator it writes. The syntax tree of syn is cut down to what the macro looks at; expressions are numbers or ranges of
    numbers, an associated type stands for its number of channels. The functions themselves are not modelled, only how they are
    called. *)
From Verif Require Import Base.
From Verif Require Export WrapModel.
From Coq Require Export String.
Open Scope nat_scope.
Open Scope string_scope.
Open Scope list_scope.
Notation "' x <- e ;; f" := (bind e (fun x => f)) (at level 61, x strict pattern, e at next level, right associativity).

(** Types as the macro sees them: references, paths (their segments), arrays (the length if it is a literal), slices *)
Inductive sty := TRef (mutable : bool) (t : sty) | TPath (segments : list string) | TArray (elem : sty) (len : option nat) | TSlice (elem : sty) | TOther.
(** an argument of a function: [self], or one with a type *)
Inductive farg := Recv (mutable : bool) | Typed (t : sty).
(** the expressions that are read as a range *)
Inductive expr := ENum (n : Z) | ERange (first last : option Z) (closed : bool).
(** l.773-780 [ParameterAttribute] *)
Record pattr := mk_pattr { a_default : option expr; a_range : option expr; a_kind : option (list string); a_log : option bool; a_from : option string }.
(** the attributes the macro knows *)
Inductive attr := AInit | AProcess | ABlock | AParam (list_ : option pattr) | AOther.
(** a function of the impl block: name, generics, arguments, result and attributes *)
Record fn := mk_fn { f_name : string; f_generics : nat; f_args : list farg; f_ret : option sty; f_attrs : list attr }.
(** an item of the impl block *)
Inductive item := IFn (f : fn) | IType (name : string) (channels : nat) | IOther.

(** [path.segments.iter().any(|s| s.ident == n)] *)
Definition has (n : string) (segments : list string) : bool := existsb (String.eqb n) segments.
(** a path that is taken for [Frame] *)
Definition is_frame (segments : list string) : bool := has "Frame" segments || has "NumericArray" segments.

(** l.102-142: what is found in the impl block; a later function replaces an earlier one *)
Record found := mk_found { g_init : option fn; g_process : option fn; g_block : option fn; g_params : list fn; g_in : option nat; g_out : option nat }.
(** l.102-142: functions found by their name *)
Definition by_name (f : fn) (g : found) : found :=
  if f_name f =? "init" then mk_found (Some f) (g_process g) (g_block g) (g_params g) (g_in g) (g_out g)
  else if f_name f =? "process" then mk_found (g_init g) (Some f) (g_block g) (g_params g) (g_in g) (g_out g)
  else if f_name f =? "process_block" then mk_found (g_init g) (g_process g) (Some f) (g_params g) (g_in g) (g_out g) else g.
(** l.102-142: functions found by their attributes *)
Definition by_attr (f : fn) (g : found) (a : attr) : found :=
  match a with
  | AInit => mk_found (Some f) (g_process g) (g_block g) (g_params g) (g_in g) (g_out g)
  | AProcess => mk_found (g_init g) (Some f) (g_block g) (g_params g) (g_in g) (g_out g)
  | ABlock => mk_found (g_init g) (g_process g) (Some f) (g_params g) (g_in g) (g_out g)
  | AParam _ => mk_found (g_init g) (g_process g) (g_block g) (g_params g ++ [f]) (g_in g) (g_out g)
  | AOther => g
  end.
(** l.102-142: one item *)
Definition look (g : found) (i : item) : found :=
  match i with
  | IFn f => fold_left (by_attr f) (f_attrs f) (by_name f g)
  | IType n c => if n =? "Inputs" then mk_found (g_init g) (g_process g) (g_block g) (g_params g) (Some c) (g_out g)
                 else if n =? "Outputs" then mk_found (g_init g) (g_process g) (g_block g) (g_params g) (g_in g) (Some c) else g
  | IOther => g
  end.
(** l.102-142: the loop over the items *)
Definition look_all (items : list item) : found := fold_left look items (mk_found None None None [] None None).

(** Arguments written into the calls *)
Inductive garg := GCtx | GFlags | GIn | GOut | GVal (t : vty)
with vty := VPFloat | VF64 | VF32 | VInteger | VBoolean.
(** A written function: [todo!()], the given function itself, or a call of it *)
Inductive gproc := PTodo | PPaste (f : fn) | PCall (f : fn) (args : list garg) (n_in n_out : nat).

(** l.161-199: the return type of the process function: whether it may be the trait's own, and the number of output channels.
    [None] is a compile error *)
Definition ret (r : option sty) : option (bool * option nat) :=
  match r with
  | None => Some (false, Some 0)
  | Some (TArray _ (Some n)) => Some (false, Some n)
  | Some (TPath segments) => if (List.last segments "" =? "Frame") || (List.last segments "" =? "NumericArray") then Some (true, None) else None
  | Some _ => None
  end.
(** l.201-246 and 361-424: whether the arguments are those of the trait, from argument [i] on *)
Fixpoint own_args (block : bool) (i : nat) (args : list farg) : option bool :=
  match args with
  | [] => Some true
  | a :: rest =>
      here <- match a with
        | Recv m => if (i =? 0)%nat then (if m then Some true else None) else Some false
        | Typed (TRef m (TPath s)) => Some (negb (
             (i =? 1)%nat && negb (has "AudioCtx" s) || (i =? 2)%nat && negb (has "UGenFlags" s)
             || block && ((i =? 3)%nat && (m || negb (has "InBlock" s)) || (i =? 4)%nat && (negb m || negb (has "OutBlock" s)) || (4 <? i)%nat)))
        | Typed (TPath s) => Some (negb ((i =? 3)%nat && negb (is_frame s)))
        | Typed _ => Some false
        end;;
      rest' <- own_args block (S i) rest;;
      Some (here && rest')
  end.
(** l.252-302: the arguments of the call; the length of the last array counts *)
Fixpoint process_args (args : list farg) (n : option nat) : option (list garg * option nat) :=
  match args with
  | [] => Some ([], n)
  | Recv _ :: rest => process_args rest n
  | Typed (TRef _ (TPath s)) :: rest =>
      if has "AudioCtx" s then '(l, n') <- process_args rest n;; Some (GCtx :: l, n')
      else if has "UGenFlags" s then '(l, n') <- process_args rest n;; Some (GFlags :: l, n') else None
  | Typed (TArray _ (Some k)) :: rest => '(l, n') <- process_args rest (Some k);; Some (GIn :: l, n')
  | Typed _ :: _ => None
  end.
(** l.156-351: the process function with its numbers of channels, where known *)
Definition gen_process (p : option fn) : option (gproc * option nat * option nat) :=
  match p with
  | None => Some (PTodo, None, None)
  | Some f =>
      '(own, n_out) <- ret (f_ret f);;
      own' <- own_args false 0 (f_args f);;
      if own && own' then Some (PPaste f, None, n_out)
      else '(l, n_in) <- process_args (f_args f) None;;
           Some (PCall f l (match n_in with Some n => n | None => 0 end) (match n_out with Some n => n | None => 0 end), n_in, n_out)
  end.
(** l.425-503: the arguments of the call in [process_block]; lengths are compared with those of [process] where these are known *)
Definition agrees (known : option nat) (n : nat) : bool := match known with Some k => (n =? k)%nat | None => true end.
(** l.425-503: the loop over the arguments *)
Fixpoint block_args (args : list farg) (n_in n_out : option nat) : option (list garg) :=
  match args with
  | [] => Some []
  | Recv _ :: rest => block_args rest n_in n_out
  | Typed (TRef _ (TPath s)) :: rest =>
      if has "AudioCtx" s then l <- block_args rest n_in n_out;; Some (GCtx :: l)
      else if has "UGenFlags" s then l <- block_args rest n_in n_out;; Some (GFlags :: l) else None
  | Typed (TArray (TRef true _) (Some k)) :: rest => if agrees n_out k then l <- block_args rest n_in n_out;; Some (GOut :: l) else None
  | Typed (TArray (TRef false _) (Some k)) :: rest => if agrees n_in k then l <- block_args rest n_in n_out;; Some (GIn :: l) else None
  | Typed _ :: _ => None
  end.
(** l.353-571 *)
Definition gen_block (p : option fn) (n_in n_out : option nat) : option (option gproc) :=
  match p with
  | None => Some None
  | Some f =>
      own <- own_args true 0 (f_args f);;
      if (f_generics f =? 2)%nat && own then Some (Some (PPaste f))
      else l <- block_args (f_args f) n_in n_out;;
           Some (Some (PCall f l (match n_in with Some n => n | None => 0 end) (match n_out with Some n => n | None => 0 end)))
  end.

(** l.773-780: the kinds of a parameter *)
Inductive kind := KFrequency | KAmplitude | KQ | KSeconds.
(** l.978-988 [ParameterData]; the type is [None] for a trigger *)
Record pdata := mk_pdata { d_name : string; d_ty : option vty; d_args : list garg; d_default : option expr; d_range : option (Z * Z);
  d_kind : option kind; d_from : option string; d_log : bool }.
(** l.834-913: the arguments of a parameter function *)
Definition value_type (s : list string) : option vty :=
  if has "PFloat" s then Some VPFloat else if has "f32" s then Some VF32 else if has "f64" s then Some VF64
  else if has "PInteger" s then Some VInteger else if has "bool" s then Some VBoolean else None.
(** l.834-913: the loop over the arguments *)
Fixpoint param_args (args : list farg) (t : option vty) : option (list garg * option vty) :=
  match args with
  | [] => Some ([], t)
  | Recv _ :: rest => param_args rest t
  | Typed (TRef _ (TPath s)) :: rest =>
      if has "AudioCtx" s then '(l, t') <- param_args rest t;; Some (GCtx :: l, t')
      else if has "UGenFlags" s then '(l, t') <- param_args rest t;; Some (GFlags :: l, t') else None
  | Typed (TPath s) :: rest =>
      match t, value_type s with
      | None, Some v => '(l, t') <- param_args rest (Some v);; Some (GVal v :: l, t')
      | _, _ => None
      end
  | Typed _ :: _ => None
  end.
(** a type for which there is a float hint (l.615-668) *)
Definition is_float (t : option vty) : bool := match t with Some VPFloat | Some VF64 | Some VF32 => true | _ => false end.
(** l.921-936 *)
Definition read_kind (k : list string) : option kind :=
  match k with
  | [n] => if n =? "Frequency" then Some KFrequency else if n =? "Amplitude" then Some KAmplitude else if n =? "Q" then Some KQ
           else if n =? "Seconds" then Some KSeconds else None
  | _ => None
  end.
(** l.800-830: the last attribute with a list counts *)
Definition last_list (l : list attr) : option pattr := fold_left (fun o a => match a with AParam (Some p) => Some p | _ => o end) l None.
(** l.782-968 [parse_parameter_functions], for one function *)
Definition read_param (f : fn) : option pdata :=
  '(l, t) <- param_args (f_args f) None;;
  match last_list (f_attrs f) with
  | None => Some (mk_pdata (f_name f) t l None None None None false)
  | Some a =>
      k <- match a_kind a with None => Some None | Some n => if is_float t then k <- read_kind n;; Some (Some k) else None end;;
      from <- match a_from a with None => Some None | Some n => match t with Some VInteger => Some (Some n) | _ => None end end;;
      r <- match a_range a with Some (ERange (Some x) (Some y) true) => Some (Some (x, y)) | Some (ERange _ _ _) => None | _ => Some None end;;
      Some (mk_pdata (f_name f) t l (a_default a) r k from (match a_log a with Some b => b | None => false end))
  end.
(** l.782-968: the loop over the functions *)
Fixpoint read_params (fs : list fn) : option (list pdata) :=
  match fs with [] => Some [] | f :: rest => p <- read_param f;; l <- read_params rest;; Some (p :: l) end.

(** l.615-668: the hints; an integer has the range of its enum ([inl]) or an explicit one, [None] if it is the whole of [PInteger] *)
Inductive hint :=
  | HFloat (range : option (Z * Z)) (k : option kind) (logarithmic : bool) (default : option expr)
  | HInt (range : string + option (Z * Z))
  | HTrigger | HBool.
(** l.615-668: the hint of one parameter *)
Definition hint_of (p : pdata) : hint :=
  match d_ty p with
  | None => HTrigger
  | Some VBoolean => HBool
  | Some VInteger => match d_from p with Some n => HInt (inl n) | None => HInt (inr (d_range p)) end
  | Some _ => HFloat (d_range p) (d_kind p) (d_log p) (d_default p)
  end.

(** l.670-709: what is left of the impl block: pasted functions are moved out, together with all others called or marked like them *)
Definition marked (a : attr -> bool) (n : string) (f : fn) : bool := (f_name f =? n) || existsb a (f_attrs f).
(** l.670-709: the attribute [process] *)
Definition is_process (a : attr) := match a with AProcess => true | _ => false end.
(** l.670-709: the attribute [process_block] *)
Definition is_block (a : attr) := match a with ABlock => true | _ => false end.
(** the function is moved to the trait as it is *)
Definition pasted (p : option gproc) : bool := match p with Some (PPaste _) => true | _ => false end.
(** l.670-709: the item stays in the impl block *)
Definition stays (process block : bool) (i : item) : bool :=
  match i with
  | IFn f => negb (process && marked is_process "process" f || block && marked is_block "process_block" f)
  | IType n _ => negb ((n =? "Sample") || (n =? "Inputs") || (n =? "Outputs"))
  | IOther => true
  end.

(** l.81-771 [parse_ugen_impl]: the written generator. Its numbers of channels are the overriding ones or those found *)
Record ugen := mk_ugen { u_inputs : nat; u_outputs : nat; u_init : option string; u_process : gproc; u_block : option gproc;
  u_params : list pdata; u_rest : list item }.
(** l.81-771 [parse_ugen_impl] *)
Definition expand (items : list item) : option ugen :=
  let g := look_all items in
  '(p, n_in, n_out) <- gen_process (g_process g);;
  b <- gen_block (g_block g) n_in n_out;;
  ps <- read_params (g_params g);;
  Some (mk_ugen (match g_in g with Some c => c | None => match n_in with Some n => n | None => 0 end end)
                (match g_out g with Some c => c | None => match n_out with Some n => n | None => 0 end end)
                (option_map f_name (g_init g)) p b ps (filter (stays (pasted (Some p)) (pasted b)) items)).

(** What the compiler demands of the written code, as far as it can fail (rustc; types of array elements and of expressions are taken
    to be right). A pasted function has to be the one of the trait *)
Definition trait_process (f : fn) : bool :=
  (f_name f =? "process") && (f_generics f =? 0)%nat &&
  match f_args f with
  | [Recv true; Typed (TRef true (TPath c)); Typed (TRef true (TPath l)); Typed (TPath i)] => has "AudioCtx" c && has "UGenFlags" l && is_frame i
  | _ => false
  end && match f_ret f with Some (TPath r) => is_frame r | _ => false end.
(** rustc: the signature of [process_block] in the trait *)
Definition trait_block (f : fn) : bool :=
  (f_name f =? "process_block") && (f_generics f =? 2)%nat &&
  match f_args f with
  | [Recv true; Typed (TRef true (TPath c)); Typed (TRef true (TPath l)); Typed (TRef false (TPath i)); Typed (TRef true (TPath o))] =>
      has "AudioCtx" c && has "UGenFlags" l && has "InBlock" i && has "OutBlock" o
  | _ => false
  end && match f_ret f with None => true | _ => false end.
(** arrays passed have the lengths of the arrays wanted, and an array of [&mut] is passed only once *)
Definition wants (n : nat) (a : farg) : bool := match a with Typed (TArray _ (Some k)) => (k =? n)%nat | _ => true end.
(** rustc: the lengths of the arrays agree *)
Definition wants_block (n_in n_out : nat) (a : farg) : bool :=
  match a with Typed (TArray (TRef true _) (Some k)) => (k =? n_out)%nat | Typed (TArray (TRef false _) (Some k)) => (k =? n_in)%nat | _ => true end.
(** the output block is passed *)
Definition is_out (g : garg) : bool := match g with GOut => true | _ => false end.
(** [&mut self] *)
Definition is_recv (a : farg) : bool := match a with Recv m => m | _ => false end.
(** rustc: called with a receiver, so it has one and only one *)
Definition method (f : fn) : bool := match f_args f with a :: rest => is_recv a && forallb (fun b => match b with Typed _ => true | _ => false end) rest | [] => false end.
(** rustc: the written [process] *)
Definition ok_process (out : nat) (p : gproc) : bool :=
  match p with
  | PTodo => true
  | PPaste f => trait_process f
  | PCall f _ n_in n_out => method f && forallb (wants n_in) (f_args f) && (n_out =? out)%nat && match f_ret f with Some (TArray _ _) => true | _ => false end
  end.
(** rustc: the written [process_block] *)
Definition ok_block (p : gproc) : bool :=
  match p with
  | PTodo => false
  | PPaste f => trait_block f
  | PCall f l n_in n_out => method f && forallb (wants_block n_in n_out) (f_args f) && (List.length (filter is_out l) <=? 1)%nat
  end.
(** [_flags] is not in scope in [param_apply] (l.752-757); [new_integer] takes a pair of [PInteger], not a range (parameters.rs:247) *)
Definition ok_param (p : pdata) : bool :=
  negb (existsb (fun a => match a with GFlags => true | _ => false end) (d_args p)) && match hint_of p with HInt (inr (Some _)) => false | _ => true end.
(** rustc: all of it *)
Definition compiles (items : list item) (u : ugen) : bool :=
  ok_process (u_outputs u) (u_process u) && match u_block u with Some b => ok_block b | None => true end &&
  forallb ok_param (u_params u) && forallb method (g_params (look_all items)).

(** What a written call passes on *)
Inductive aval (F : Type) := ACtx | AFlags | AFrame (x : list F) | AChans (c : list nat) | AOuts (c : list nat) | AFloat (t : vty) (x : Z) | AInt (x : Z) | ABool (b : bool).
Arguments ACtx {F}. Arguments AFlags {F}. Arguments AFrame {F}. Arguments AChans {F}. Arguments AOuts {F}. Arguments AFloat {F}. Arguments AInt {F}. Arguments ABool {F}.
(** plumbing: a loop that stops at the first panic *)
Fixpoint all_some {A} (l : list (option A)) : option (list A) :=
  match l with [] => Some [] | o :: rest => x <- o;; l' <- all_some rest;; Some (x :: l') end.
(** l.303-334: one frame: [_input_array] is filled by index (a panic beyond the end), the result is converted as it is *)
Definition call_process {F} (p : gproc) (frame : list F) : option (string * list (aval F)) :=
  match p with
  | PTodo => None
  | PPaste f => Some (f_name f, [ACtx; AFlags; AFrame frame])
  | PCall f l n_in _ =>
      x <- all_some (map (nth_error frame) (seq 0 n_in));;
      Some (f_name f, map (fun g => match g with GCtx => ACtx | GFlags => AFlags | _ => AFrame x end) l)
  end.
(** l.545-563: one block of [ins] input and [outs] output channels: [channel_as_slice] and [outputs.next().unwrap()] panic beyond the end;
    channels are passed by number *)
Definition call_block {F} (p : gproc) (ins outs : nat) : option (string * list (aval F)) :=
  match p with
  | PTodo => None
  | PPaste f => Some (f_name f, [ACtx; AFlags; AChans (seq 0 ins); AOuts (seq 0 outs)])
  | PCall f l n_in n_out =>
      if (n_in <=? ins)%nat && (n_out <=? outs)%nat
      then Some (f_name f, map (fun g => match g with GCtx => ACtx | GFlags => AFlags | GOut => AOuts (seq 0 n_out) | _ => AChans (seq 0 n_in) end) l)
      else None
  end.
(** l.594-613, 752-767: [param_apply]. [Logged]: only a message; [None] is a panic of [expect] *)
Inductive applied := Called (name : string) (args : list (aval Z)) | Logged.
(** l.594-613: the value that is passed *)
Definition arg_value (v : value) (g : garg) : option (aval Z) :=
  match g with
  | GCtx => Some ACtx
  | GVal VInteger => match v with VInt x => Some (AInt x) | _ => None end
  | GVal VBoolean => match v with VBool b => Some (ABool b) | _ => None end
  | GVal t => match v with VFloat x => Some (AFloat t x) | _ => None end
  | _ => Some AFlags
  end.
(** l.752-767 [param_apply] *)
Definition param_apply (u : ugen) (i : nat) (v : value) : option applied :=
  match nth_error (u_params u) i with
  | None => Some Logged
  | Some p => l <- all_some (map (arg_value v) (d_args p));; Some (Called (d_name p) l)
  end.
(** l.575, 738-750: [Parameters], [param_descriptions] and [param_hints] *)
Definition descriptions (u : ugen) : list string := map d_name (u_params u).
(** l.738-750 [param_hints] *)
Definition hints (u : ugen) : list hint := map hint_of (u_params u).
