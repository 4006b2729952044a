(** Model of the ASR and AR envelopes (knaster_core_dsp/src/ugens/envelopes.rs:10-303), in IEEE arithmetic.
    [powi(3)] is taken to be [t * t * t] with two roundings. Times are given as values of the sample type (the code first
    converts a [PFloat]). The done flag is the frame passed to [UGenFlags::mark_done] (ugen.rs:199-202). *)
From Flocq Require Import BinarySingleNaN.
From Verif Require Import Base FloatBase.
Local Open Scope N_scope.

Section Env.
Context {prec emax : Z} {I : ieee prec emax}.
Notation fl := (binary_float prec emax).

(** envelopes.rs:10-15, 165-169; the AR envelope has no [Sustaining] *)
Inductive estate := Stopped | Attacking | Sustaining | Releasing.
(** envelopes.rs:19-28, 174-183 *)
Record env := mk_env { e_state : estate; e_t : fl; e_asec : fl; e_arate : fl; e_rsec : fl; e_rrate : fl; e_scale : fl }.
(** envelopes.rs:33-43, 187-197 *)
Definition env_new (attack release : fl) : env := mk_env Stopped fzero attack fone release fone fone.

(** envelopes.rs:33-43, 187-197: [t * t * t] *)
Definition cube (t : fl) : fl := fmul (fmul t t) t.
(** envelopes.rs:52-83 [EnvAsr::next_sample]: new state, sample, frame marked as done *)
Definition asr_next (e : env) (i : N) : env * fl * option N :=
  match e_state e with
  | Stopped => (e, fzero, None)
  | Attacking =>
      let t' := fadd (e_t e) (e_arate e) in
      (mk_env (if fleb fone t' then Sustaining else Attacking) t' (e_asec e) (e_arate e) (e_rsec e) (e_rrate e) (e_scale e), e_t e, None)
  | Sustaining => (e, fone, None)
  | Releasing =>
      let t' := fsub (e_t e) (e_rrate e) in
      let out := fmul (cube (e_t e)) (e_scale e) in
      if fleb t' fzero then (mk_env Stopped fzero (e_asec e) (e_arate e) (e_rsec e) (e_rrate e) (e_scale e), out, Some i)
      else (mk_env Releasing t' (e_asec e) (e_arate e) (e_rsec e) (e_rrate e) (e_scale e), out, None)
  end.
(** envelopes.rs:206-236 [EnvAr::next_sample] *)
Definition ar_next (e : env) (i : N) : env * fl * option N :=
  match e_state e with
  | Stopped | Sustaining => (e, fzero, None)
  | Attacking =>
      let t' := fadd (e_t e) (e_arate e) in
      (if fleb fone t' then mk_env Releasing fone (e_asec e) (e_arate e) (e_rsec e) (e_rrate e) fone
       else mk_env Attacking t' (e_asec e) (e_arate e) (e_rsec e) (e_rrate e) (e_scale e), e_t e, None)
  | Releasing =>
      let t' := fsub (e_t e) (e_rrate e) in
      let out := fmul (cube (e_t e)) (e_scale e) in
      if fleb t' fzero then (mk_env Stopped fzero (e_asec e) (e_arate e) (e_rsec e) (e_rrate e) (e_scale e), out, Some i)
      else (mk_env Releasing t' (e_asec e) (e_arate e) (e_rsec e) (e_rrate e) (e_scale e), out, None)
  end.

(** [F::from(sample_rate).unwrap()] *)
Definition rate_of (seconds : fl) (sr : N) : fl :=
  if feqb seconds fzero then fone else fdiv fone (fmul seconds (fz (Z.of_N sr))).
(** envelopes.rs:86-98, 238-251 *)
Definition set_attack (sr : N) (e : env) (s : fl) : env :=
  if negb (feqb (e_asec e) s) then mk_env (e_state e) (e_t e) s (rate_of s sr) (e_rsec e) (e_rrate e) (e_scale e) else e.
(** envelopes.rs:99-112, 252-264 *)
Definition set_release (sr : N) (e : env) (s : fl) : env :=
  if negb (feqb (e_rsec e) s) then mk_env (e_state e) (e_t e) (e_asec e) (e_arate e) s (rate_of s sr) (e_scale e) else e.
(** envelopes.rs:113-130 [EnvAsr::t_release]; the AR envelope has none *)
Definition t_release (e : env) : env :=
  match e_state e with
  | Attacking => mk_env Releasing fone (e_asec e) (e_arate e) (e_rsec e) (e_rrate e) (e_t e)
  | Sustaining => mk_env Releasing fone (e_asec e) (e_arate e) (e_rsec e) (e_rrate e) fone
  | _ => e
  end.
(** envelopes.rs:47-49, 131-134, 201-203, 265-268 *)
Definition t_restart (e : env) : env := mk_env Attacking (e_t e) (e_asec e) (e_arate e) (e_rsec e) (e_rrate e) (e_scale e).
(** envelopes.rs:136-152, 270-286 *)
Definition env_init (sr : N) (e : env) : env :=
  mk_env (e_state e) (e_t e) (e_asec e) (if feqb (e_arate e) fone then rate_of (e_asec e) sr else e_arate e)
    (e_rsec e) (if feqb (e_rrate e) fone then rate_of (e_rsec e) sr else e_rrate e) (e_scale e).

(** Samples with the frame numbers [fs] (envelopes.rs:159-163, 290-302) *)
Fixpoint env_samples (next : env -> N -> env * fl * option N) (fs : list N) (e : env) : env * list (fl * option N) :=
  match fs with
  | [] => (e, [])
  | i :: fs' =>
      let r := next e i in
      let rest := env_samples next fs' (fst (fst r)) in
      (fst rest, (snd (fst r), snd r) :: snd rest)
  end.
(** The frames of a block of [n] samples *)
Definition block_frames (n : nat) : list N := map N.of_nat (seq 0 n).

(** What can happen to an envelope *)
Inductive eop := EAttack (seconds : fl) | ERelease (seconds : fl) | ETrigRelease | ERestart | EBlock (n : nat).
(** one of these on [EnvAsr] (envelopes.rs:17-163) *)
Definition asr_step (sr : N) (e : env) (o : eop) : env * list (fl * option N) :=
  match o with
  | EAttack s => (set_attack sr e s, [])
  | ERelease s => (set_release sr e s, [])
  | ETrigRelease => (t_release e, [])
  | ERestart => (t_restart e, [])
  | EBlock n => env_samples asr_next (block_frames n) e
  end.
(** The AR envelope has no parameter for releasing. *)
Definition ar_step (sr : N) (e : env) (o : eop) : env * list (fl * option N) :=
  match o with
  | EAttack s => (set_attack sr e s, [])
  | ERelease s => (set_release sr e s, [])
  | ETrigRelease => (e, [])
  | ERestart => (t_restart e, [])
  | EBlock n => env_samples ar_next (block_frames n) e
  end.
(** plumbing: any sequence of them *)
Fixpoint env_run (step : env -> eop -> env * list (fl * option N)) (e : env) (ops : list eop) : env * list (fl * option N) :=
  match ops with
  | [] => (e, [])
  | o :: ops' => let r := step e o in let rest := env_run step (fst r) ops' in (fst rest, snd r ++ snd rest)
  end.
End Env.
Arguments env : clear implicits. Arguments eop : clear implicits.
