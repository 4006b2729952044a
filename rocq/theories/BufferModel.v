(** Model of sample buffers (knaster_core_dsp/src/dsp/buffer.rs) and of buffer playback (ugens/buffer.rs). Only the positions that
    are read are modelled, not the sample values. Positions are f64, as in the code. *)
From Flocq Require Import Core BinarySingleNaN.
From Verif Require Import Base FloatBase OscModel.
Open Scope N_scope.
Notation f64 := (binary_float 53 1024).

(** knaster_primitives/src/time.rs:11 *)
Definition tes : Z := 282240000.
(** [as usize]: saturating, 0 for NaN *)
Definition as_usize (x : f64) : N :=
  match x with
  | B754_infinity false => 18446744073709551615
  | B754_infinity true | B754_nan => 0
  | _ => Z.to_N (Z.min (Btrunc x) 18446744073709551615)
  end.
(** [fract]: [x - x.trunc()] *)
Definition fract (x : f64) : f64 := if is_finite x then fsub x (fz (Btrunc x)) else B754_nan.
(** time.rs:59-64 [Seconds::from_secs_f64]; [floor() as u32] is [as u32], both give 0 below 0 *)
Definition from_secs (x : f64) : N * N := (as_u32 x, as_u32 (fmul (fract x) (fz tes))).
(** time.rs:71-74 [to_secs_f64] *)
Definition to_secs (t : N * N) : f64 := fadd (fz (Z.of_N (fst t))) (fdiv (fz (Z.of_N (snd t))) (fz tes)).
(** time.rs:92-96 [to_samples_f64] *)
Definition to_samples (sr : f64) (t : N * N) : f64 := fadd (fmul (fz (Z.of_N (fst t))) sr) (fdiv (fmul (fz (Z.of_N (snd t))) sr) (fz tes)).

(** ** Buffer: buffer.rs:37-45; the length of the memory instead of its contents *)
Record buffer := mk_buffer { b_len : N; b_ch : N; b_frames : f64; b_sr : f64 }.
(** buffer.rs:49-56 *)
Definition buffer_new (size ch : N) (sr : f64) : buffer := mk_buffer size ch (fz (Z.of_N size)) sr.
(** buffer.rs:58-66 *)
Definition from_vec (len : N) (sr : f64) : buffer := mk_buffer len 1 (fz (Z.of_N len)) sr.
(** buffer.rs:70-78; [None]: division by zero *)
Definition from_vec_interleaved (len ch : N) (sr : f64) : option buffer :=
  if ch =? 0 then None else Some (mk_buffer len ch (fz (Z.of_N (len / ch))) sr).
(** buffer.rs:81-83 *)
Definition buf_rate_scale (b : buffer) (server : N) : f64 := fdiv (b_sr b) (fz (Z.of_N server)).
(** buffer.rs:131-133 *)
Definition length_seconds (b : buffer) : f64 := fdiv (b_frames b) (b_sr b).
(** buffer.rs:100-110 [get_linear_interp_f64]: the two positions read without a check. Without the wrap around of the
    multiplication: a position that large is outside already. *)
Definition reads_at (b : buffer) (index : f64) (chan : N) : list N :=
  let i := as_usize index * b_ch b + chan in [i; (i + b_ch b) mod b_len b].

(** ** BufferReader: ugens/buffer.rs:22-35 *)
Record player := mk_player { pl_rp : f64; pl_rate : f64; pl_base : f64; pl_fin : bool; pl_loop : bool; pl_start : f64; pl_dur : f64; pl_end : f64 }.
Section Player.
Variable b : buffer.
(** the generic [Channels] *)
Variable channels : nat.
(** l.43-58 *)
Definition player_new (rate : f64) (looping : bool) : player :=
  mk_player fzero rate fzero false looping fzero (length_seconds b) (length_seconds b).
(** l.69-72 *)
Definition start_at (t : N * N) (s : player) : player :=
  mk_player (pl_rp s) (pl_rate s) (pl_base s) (pl_fin s) (pl_loop s) (to_secs t) (pl_dur s) (pl_end s).
(** l.60-67 [reset], [jump_to] *)
Definition reset (s : player) : player := mk_player (pl_start s) (pl_rate s) (pl_base s) false (pl_loop s) (pl_start s) (pl_dur s) (pl_end s).
(** l.111-119 *)
Definition player_init (server : N) (s : player) : player :=
  let st := to_samples (b_sr b) (from_secs (pl_start s)) in
  let d := to_samples (b_sr b) (from_secs (pl_dur s)) in
  reset (mk_player (pl_rp s) (pl_rate s) (buf_rate_scale b server) (pl_fin s) (pl_loop s) st d (fadd st d)).
(** l.123-149 [process]: the new state and the positions read *)
Definition player_step (s : player) : player * list N :=
  if pl_fin s then (s, []) else
  let rs := concat (map (fun c => reads_at b (pl_rp s) (N.of_nat c)) (seq 0 channels)) in
  let s1 := mk_player (fadd (pl_rp s) (fmul (pl_base s) (pl_rate s))) (pl_rate s) (pl_base s) false (pl_loop s) (pl_start s) (pl_dur s) (pl_end s) in
  if fleb (pl_end s1) (pl_rp s1) then
    ((if pl_loop s1 then reset s1 else mk_player (pl_rp s1) (pl_rate s1) (pl_base s1) true (pl_loop s1) (pl_start s1) (pl_dur s1) (pl_end s1)), rs)
  else (s1, rs).
(** l.151-195 [process_block]: the loop stops once finished *)
Fixpoint player_block (n : nat) (s : player) : player * list N :=
  match n with
  | O => (s, [])
  | S n => if pl_fin s then (s, []) else let p := player_step s in let q := player_block n (fst p) in (fst q, snd p ++ snd q)
  end.
(** l.74-109: the parameters *)
Inductive pop := PRate (v : f64) | PLoop (l : bool) | PStart (v : f64) | PDur (v : f64) | PEnd (v : f64) | PRestart | PSample | PBlock (n : nat).
(** one parameter change or frame (buffer.rs:74-137) *)
Definition pop_step (s : player) (o : pop) : player * list N :=
  match o with
  | PRate v => (mk_player (pl_rp s) v (pl_base s) (pl_fin s) (pl_loop s) (pl_start s) (pl_dur s) (pl_end s), [])
  | PLoop l => (mk_player (pl_rp s) (pl_rate s) (pl_base s) (pl_fin s) l (pl_start s) (pl_dur s) (pl_end s), [])
  | PStart v => let st := to_samples (b_sr b) (from_secs v) in (mk_player (pl_rp s) (pl_rate s) (pl_base s) (pl_fin s) (pl_loop s) st (pl_dur s) (fadd st (pl_dur s)), [])
  | PDur v => let d := to_samples (b_sr b) (from_secs v) in (mk_player (pl_rp s) (pl_rate s) (pl_base s) (pl_fin s) (pl_loop s) (pl_start s) d (fadd (pl_start s) d), [])
  | PEnd v => (mk_player (pl_rp s) (pl_rate s) (pl_base s) (pl_fin s) (pl_loop s) (pl_start s) (pl_dur s) (to_samples (b_sr b) (from_secs v)), [])
  | PRestart => (reset s, [])
  | PSample => player_step s
  | PBlock n => player_block n s
  end.
(** plumbing: any sequence of them *)
Fixpoint player_run (s : player) (ops : list pop) : list N :=
  match ops with [] => [] | o :: ops => let p := pop_step s o in snd p ++ player_run (fst p) ops end.
End Player.
