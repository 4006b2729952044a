(** What is said of the reverb: the energy its delay lines hold, and settings. *)
From Coq Require Import Reals.
From Verif Require Import Base DelayModel ReverbModel.
Local Open Scope R_scope.

Fixpoint total (l : list R) : R := match l with [] => 0 | x :: r => x + total r end.
Definition squares (l : list R) : R := total (map (fun x => x * x) l).
(** A line holds everything in its memory but the sample read last *)
Definition held (l : ssd R) : R := squares (ss_buf l) - nth (ss_pos l) (ss_buf l) 0 * nth (ss_pos l) (ss_buf l) 0.
(** A stage mixes its outputs into inputs of the next with four times the energy *)
Definition side_energy (s : side) : R := total (map held (stage0 s)) + total (map held (stage1 s)) / 4 + total (map held (stage2 s)) / 16.
Definition energy (t : tank) : R := side_energy (t_left t) + side_energy (t_right t) + (squares (t_fb0 t) + squares (t_fb1 t)) / 64.

(** As many lines as [Galactic] has: four to a stage *)
Definition fours (s : side) : Prop := length (stage0 s) = 4%nat /\ length (stage1 s) = 4%nat /\ length (stage2 s) = 4%nat.
Definition tank_fours (t : tank) : Prop := fours (t_left t) /\ fours (t_right t) /\ length (t_fb0 t) = 4%nat /\ length (t_fb1 t) = 4%nat.
(** A line whose length is within its memory and that is read inside of it *)
Definition line_ok (l : ssd R) : Prop := (0 < ss_len l <= length (ss_buf l))%nat /\ (ss_pos l < ss_len l)%nat.
Definition lines_ok (ls : list (ssd R)) : Prop := length ls = 4%nat /\ Forall line_ok ls.
Definition side_ok (s : side) : Prop := lines_ok (stage0 s) /\ lines_ok (stage1 s) /\ lines_ok (stage2 s).
Definition tank_ok (t : tank) : Prop := side_ok (t_left t) /\ side_ok (t_right t) /\ length (t_fb0 t) = 4%nat /\ length (t_fb1 t) = 4%nat.
(** The tank alone, for a list of inputs of both sides *)
Fixpoint tank_run (g : R) (us : list (R * R)) (t : tank) : option (tank * list (R * R)) :=
  match us with
  | [] => Some (t, [])
  | u :: r => p <- tank_frame g (fst u) (snd u) t;; q <- tank_run g r (fst p);; Some (fst q, snd p :: snd q)
  end.
(** Parameters in the advertised range *)
Definition unit_params (p : params) : Prop :=
  0 <= p_replace p <= 1 /\ 0 <= p_detune p <= 1 /\ 0 <= p_bright p <= 1 /\ 0 <= p_big p <= 1 /\ 0 <= p_wet p <= 1.
Definition within (b : R) (x : R * R) : Prop := Rabs (fst x) <= b /\ Rabs (snd x) <= b.
