(** Model of the noise generators (knaster_core_dsp/src/ugens/noise.rs) and the one-pole filter (ugens/onepole.rs). The random
    number generator (fastrand) is not modelled: its numbers are inputs. *)
From Flocq Require Import BinarySingleNaN.
From Verif Require Import Base FloatBase.

Section Noise.
Context {prec emax : Z} {I : ieee prec emax}.
Notation fl := (binary_float prec emax).

(** ** Pink noise *)
Fixpoint ptz (p : positive) : nat := match p with xO q => S (ptz q) | _ => O end.
(** noise.rs:50 *)
Definition octaves : nat := 9.
(** noise.rs:57-64 *)
Record pink := mk_pink { p_ws : list fl; p_on : fl; p_cnt : N; p_mask : N; p_sum : fl }.
(** noise.rs:68-79 *)
Definition pink_new : pink := mk_pink (repeat fzero octaves) fzero 1 (2 ^ 8) fzero.
(** noise.rs:80-85; [None]: assertion *)
Definition noise_index (s : pink) : option nat :=
  match p_cnt s with
  | N0 => None
  | Npos p => if (p_cnt s <=? p_mask s)%N then Some (ptz p) else None
  end.
(** noise.rs:87-93 *)
Definition increment (s : pink) : option N :=
  if (0 <? p_cnt s)%N && (p_cnt s <=? p_mask s)%N then Some (N.land (p_cnt s) (p_mask s - 1) + 1)%N else None.
(** noise.rs:97-113 [process]; [w1] and [w2] are the two new white samples *)
Definition pink_step (s : pink) (w1 w2 : fl) : option (pink * fl) :=
  i <- noise_index s;;
  if negb (i <? octaves)%nat then None else
  old <- nth_error (p_ws s) i;;
  let p := fsub (p_sum s) old in
  ws <- set_nth (p_ws s) i w1;;
  let p := fadd p w1 in
  let p := fsub p (p_on s) in
  let p := fadd p w2 in
  c <- increment s;;
  Some (mk_pink ws w2 c (p_mask s) p, fdiv p (fadd (fz (Z.of_nat octaves)) fone)).
(** plumbing: sample after sample *)
Fixpoint pink_run (s : pink) (ws : list (fl * fl)) : option (pink * list fl) :=
  match ws with
  | [] => Some (s, [])
  | w :: ws => p <- pink_step s (fst w) (snd w);; q <- pink_run (fst p) ws;; Some (fst q, snd p :: snd q)
  end.

(** The white samples: noise.rs:102, 106, 143: [rng.f32() * 2.0 - 1.0] (in f32; the conversion to [F] is exact) *)
Definition white_of (r : fl) : fl := fsub (fmul r (fz 2)) fone.

(** ** Brown noise *)
Definition clamp (x lo hi : fl) : fl := let x := if fltb x lo then lo else x in if fltb hi x then hi else x.
(** [F::new(0.1)]: the closest number to 1/10 *)
Definition tenth : fl := fdiv fone (fz 10).
(** noise.rs:142-149 *)
Definition brown_step (last w : fl) : fl := clamp (fadd last (fmul w tenth)) (fneg fone) fone.
(** plumbing: sample after sample *)
Fixpoint brown_run (last : fl) (ws : list fl) : list fl :=
  match ws with [] => [] | w :: ws => let o := brown_step last w in o :: brown_run o ws end.

(** ** Interpolated random numbers *)
(** noise.rs:159-167 *)
Record rlin := mk_rlin { r_cur : fl; r_width : fl; r_phase : fl; r_step : fl; r_inc : fl }.
(** noise.rs:184-190 [new_value]; [r] is the random number *)
Definition rl_new_value (s : rlin) (r : fl) : rlin :=
  let old := fadd (r_cur s) (r_width s) in mk_rlin old (fsub r old) fzero (r_step s) (r_inc s).
(** noise.rs:172-182 [new] and l.191-196 [init] *)
Definition rl_init (freq sr r0 r1 : fl) : rlin :=
  let inc := fdiv fone sr in rl_new_value (mk_rlin r0 fzero fzero (fmul freq inc) inc) r1.
(** a change of the frequency, or a frame with the number the generator would give *)
Inductive rl_op := RFreq (v : fl) | RFrame (r : fl).
(** noise.rs:197-205 [process]; [r] is the number the generator gives if it is asked. l.208-216 [freq] (after [init]). *)
Definition rl_step (s : rlin) (o : rl_op) : rlin * list fl :=
  match o with
  | RFreq v => (if feqb (r_inc s) fzero then mk_rlin (r_cur s) (r_width s) (r_phase s) v (r_inc s)
                else mk_rlin (r_cur s) (r_width s) (r_phase s) (fmul v (r_inc s)) (r_inc s), [])
  | RFrame r =>
      let out := fadd (r_cur s) (fmul (r_phase s) (r_width s)) in
      let s := mk_rlin (r_cur s) (r_width s) (fadd (r_phase s) (r_step s)) (r_step s) (r_inc s) in
      (if fleb fone (r_phase s) then rl_new_value s r else s, [out])
  end.
(** plumbing: any sequence of them *)
Fixpoint rl_run (s : rlin) (ops : list rl_op) : list fl :=
  match ops with [] => [] | o :: ops => let p := rl_step s o in snd p ++ rl_run (fst p) ops end.
End Noise.
Arguments rlin : clear implicits. Arguments rl_op : clear implicits. Arguments pink : clear implicits.

(** ** One-pole filter, for any arithmetic *)
Section OnePole.
Context {V : Type} (add sub mul : V -> V -> V) (zero one : V).
(** onepole.rs:13-17 *)
Record op := mk_op { o_last : V; o_a0 : V; o_b1 : V }.
(** onepole.rs:21-27 *)
Definition op_new : op := mk_op zero one zero.
(** onepole.rs:35-47 [set_freq_lowpass] once [b1] has been computed (the exponential is not modelled) *)
Definition op_coeff (b1 : V) (s : op) : op := mk_op (o_last s) (sub one b1) b1.
(** onepole.rs:66-79 [process_lp] (without the feature no_denormals) *)
Definition op_lp (x : V) (s : op) : op := mk_op (add (mul x (o_a0 s)) (mul (o_last s) (o_b1 s))) (o_a0 s) (o_b1 s).
(** a change of the coefficient, or a sample *)
Inductive lp_op := LCoeff (b1 : V) | LIn (x : V).
(** plumbing: any sequence of them *)
Fixpoint lp_run (s : op) (ops : list lp_op) : list V :=
  match ops with
  | [] => []
  | LCoeff b :: ops => lp_run (op_coeff b s) ops
  | LIn x :: ops => let s' := op_lp x s in o_last s' :: lp_run s' ops
  end.
End OnePole.
Arguments lp_op : clear implicits. Arguments op : clear implicits.
