(** Model of the Galactic reverb (knaster_airwindows/src/galactic.rs), in exact arithmetic: samples and parameters are real numbers,
    the random numbers are u32. The delay lines are those of [DelayModel] (knaster_core_dsp/src/ugens/delay.rs:308-416). [None] is a
    panic. Not modelled: rounding. *)
From Coq Require Import Reals.
From Flocq Require Import Core.
From Verif Require Import Base DelayModel RngModel.
Local Open Scope R_scope.

(** ** Delay lines *)
(** delay.rs:335-340 [set_delay_length_fraction]: not limited to the length of the buffer; [to_usize().unwrap()] panics below 0 *)
Definition set_fraction (x : R) (l : ssd R) : option (ssd R) :=
  let n := INR (length (ss_buf l)) * x in
  if Rlt_dec (-1) n then Some (mk_ssd (ss_buf l) (ss_pos l) (Z.to_nat (Ztrunc n))) else None.
(** delay.rs:382-395 [read_at_lin], for an index that is not negative: the [while] loop subtracts the length from both positions
    until the lower one is inside *)
Definition read_at_lin (x : R) (l : ssd R) : option R :=
  let len := length (ss_buf l) in
  if (len =? 0)%nat then None else
  let low := Z.to_nat (Zfloor x) in let high := Z.to_nat (Zceil x) in
  let q := (low / len)%nat in
  let high := (high - q * len)%nat in
  let high := if (len <=? high)%nat then (high - len)%nat else high in
  a <- nth_error (ss_buf l) (low - q * len);;
  b <- nth_error (ss_buf l) high;;
  Some (a + (b - a) * (x - IZR (Zfloor x))).

(** ** State: galactic.rs:13-38. The twelve lines of a side are kept as three stages of four. *)
Record side := mk_side { stage0 : list (ssd R); stage1 : list (ssd R); stage2 : list (ssd R) }.
(** galactic.rs:13-38: the parameters *)
Record params := mk_params { p_replace : R; p_detune : R; p_bright : R; p_big : R; p_wet : R }.
(** galactic.rs:13-38: both sides and what they feed to each other *)
Record tank := mk_tank { t_left : side; t_right : side; t_fb0 : list R; t_fb1 : list R }.
(** galactic.rs:13-38 [Galactic] *)
Record galactic := mk_galactic {
  g_tank : tank; g_dl : ssd R; g_dr : ssd R; g_fpd_l : N; g_fpd_r : N; g_oldfpd : R; g_vib : R;
  g_al : R; g_ar : R; g_bl : R; g_br : R; g_scale : R; g_par : params }.

(** galactic.rs:40-42 *)
Definition times0 : list Z := [6480; 3660; 1720; 680]%Z.
(** galactic.rs:40-42 [GALACTIC_DELAY_TIMES], the second four *)
Definition times1 : list Z := [9700; 6000; 2320; 940]%Z.
(** galactic.rs:40-42 [GALACTIC_DELAY_TIMES], the last four *)
Definition times2 : list Z := [15220; 8460; 4540; 3200]%Z.
(** l.53-56 *)
Definition line_new (sr : N) (time : Z) : option (ssd R) := ssd_new R 0 (Z.to_nat (Ztrunc (IZR time / 44100 * IZR (Z.of_N sr)))).
(** plumbing: a loop that stops at the first panic *)
Fixpoint each {A B} (f : A -> option B) (l : list A) : option (list B) :=
  match l with [] => Some [] | x :: r => y <- f x;; s <- each f r;; Some (y :: s) end.
(** l.53-56: the lines of one side *)
Definition side_new (sr : N) : option side :=
  a <- each (line_new sr) times0;; b <- each (line_new sr) times1;; c <- each (line_new sr) times2;; Some (mk_side a b c).
(** l.139-170 [new] with the random numbers [fl], [fr], then l.52-74 [init] *)
Definition galactic_init (sr fl fr : N) (p : params) : option galactic :=
  l <- side_new sr;; r <- side_new sr;; dl <- ssd_new R 0 256;; dr <- ssd_new R 0 256;;
  Some (mk_galactic (mk_tank l r [0; 0; 0; 0] [0; 0; 0; 0]) dl dr fl fr (4294967295 / 10000) 3 0 0 0 0 (1 / 44100 * IZR (Z.of_N sr)) p).

(** ** Per block: l.176-182 *)
Definition regen (p : params) : R := / 16 + (1 - p_replace p) * / 16.
(** l.176-182: the factor in front of the tank *)
Definition attenuate (p : params) : R := (1 - regen p / (/ 8)) * (1333 / 1000).
(** l.176-182: the coefficient of the input filter *)
Definition lowpass (p : params) (scale : R) : R := (100001 / 100000 - (1 - p_bright p)) ^ 2 / sqrt scale.
(** l.176-182: the speed of the modulation *)
Definition drift (p : params) : R := p_detune p ^ 3 * (1 / 1000).
(** l.176-182: the scale of the delays *)
Definition size (p : params) : R := p_big p * (9 / 10) + 1 / 10.
(** l.176-182: the part of the wet signal *)
Definition wetness (p : params) : R := 1 - (1 - p_wet p) ^ 3.
(** l.184-191 *)
Definition resize (x : R) (s : side) : option side :=
  a <- each (set_fraction x) (stage0 s);; b <- each (set_fraction x) (stage1 s);; c <- each (set_fraction x) (stage2 s);; Some (mk_side a b c).

(** ** The reverb: l.255-341 *)
Fixpoint write_all (xs : list R) (ls : list (ssd R)) : option (list (ssd R)) :=
  match xs, ls with
  | x :: xr, l :: lr => l' <- ssd_write x l;; r <- write_all xr lr;; Some (l' :: r)
  | _, _ => Some []
  end.
(** [v[i] - (v[(1 + i) % 4] + v[(2 + i) % 4] + v[(3 + i) % 4])] *)
Definition mix (v : list R) (i : nat) : R := nth i v 0 - (nth ((1 + i) mod 4) v 0 + nth ((2 + i) mod 4) v 0 + nth ((3 + i) mod 4) v 0).
(** the four of them *)
Definition mixed (v : list R) : list R := map (mix v) [0; 1; 2; 3]%nat.
(** One side: the input of its first four lines; the outputs of the last four *)
Definition side_frame (ins : list R) (s : side) : option (side * list R) :=
  a <- write_all ins (stage0 s);; x <- each ssd_read a;;
  b <- write_all (mixed x) (stage1 s);; y <- each ssd_read b;;
  c <- write_all (mixed y) (stage2 s);; z <- each ssd_read c;;
  Some (mk_side a b c, z).
(** Each side gets the feedback of the other *)
Definition tank_frame (g : R) (ul ur : R) (t : tank) : option (tank * (R * R)) :=
  p <- side_frame (map (fun f => f * g + ul) (t_fb1 t)) (t_left t);;
  q <- side_frame (map (fun f => f * g + ur) (t_fb0 t)) (t_right t);;
  Some (mk_tank (fst p) (fst q) (mixed (snd p)) (mixed (snd q)), (fold_left Rplus (snd p) 0 * / 8, fold_left Rplus (snd q) 0 * / 8)).

(** ** Per frame *)
(** l.210-219: the input, or dither if it is very faint *)
Definition heard (fpd : N) (x : R) : R := if Rlt_dec (Rabs x) (118 / 10 ^ 25) then IZR (Z.of_N fpd) * (118 / 10 ^ 19) else x.
(** l.225-229: the phase of the vibrato and its speed *)
Definition vibrate (p : params) (fpd : N) (oldfpd vib : R) : R * R :=
  let v := vib + oldfpd * drift p in
  if Rlt_dec (2 * PI) v then (0, 4294967295 / 10 ^ 10 + IZR (Z.of_N fpd) * (618 / 10 ^ 13)) else (v, oldfpd).
(** l.245-248, 351-354 *)
Definition smooth (lp x s : R) : R := s * (1 - lp) + x * lp.
(** l.206-359: up to the mix with the dry signal *)
Definition signal_frame (xl xr : R) (g : galactic) : option (galactic * (R * R)) :=
  let p := g_par g in let lp := lowpass p (g_scale g) in
  let dl := heard (g_fpd_l g) xl in let dr := heard (g_fpd_r g) xr in
  let '(vib, old) := vibrate p (g_fpd_l g) (g_oldfpd g) (g_vib g) in
  ml <- ssd_write (dl * attenuate p) (g_dl g);; mr <- ssd_write (dr * attenuate p) (g_dr g);;
  il <- read_at_lin (INR (ss_pos ml) + (sin vib + 1) * 127) ml;;
  ir <- read_at_lin (INR (ss_pos mr) + (sin (vib + PI / 2) + 1) * 127) mr;;
  let al := smooth lp il (g_al g) in let ar := smooth lp ir (g_ar g) in
  t <- tank_frame (regen p) al ar (g_tank g);;
  let '(tk, (ol, or)) := t in
  let bl := smooth lp ol (g_bl g) in let br := smooth lp or (g_br g) in
  let w := wetness p in
  let out := if Rlt_dec w 1 then (bl * w + dl * (1 - w), br * w + dr * (1 - w)) else (bl, br) in
  Some (mk_galactic tk ml mr (g_fpd_l g) (g_fpd_r g) old vib al ar bl br (g_scale g) p, out).
(** l.391-400 [frexp], the exponent: [log2().floor() + 1] as u32, 0 for 0 and for negative exponents *)
Definition exponent (s : R) : Z := if Req_EM_T s 0 then 0%Z else Z.max 0 (mag radix2 s).
(** [2_u64.pow(e + 62)]: with overflow checks a panic, without them 0, from 2^64 on *)
Definition pow_u64 (checks : bool) (e : Z) : option R :=
  if (e + 62 <? 64)%Z then Some (bpow radix2 (e + 62)) else if checks then None else Some 0.
(** l.361-371 and 373-383: the random number and the dithered sample *)
Definition dithered (checks : bool) (fpd : N) (s : R) : option (N * R) :=
  let fpd := rng_next fpd in
  d <- pow_u64 checks (exponent s);;
  Some (fpd, s + (IZR (Z.of_N fpd) - 2147483647) * (55 / 10 ^ 37) * d).
(** l.200-387: one round of the loop, with the steps above in order *)
Definition frame (checks : bool) (x : R * R) (g : galactic) : option (galactic * (R * R)) :=
  s <- signal_frame (fst x) (snd x) g;;
  let '(g, (ol, or)) := s in
  a <- dithered checks (g_fpd_l g) ol;; b <- dithered checks (g_fpd_r g) or;;
  Some (mk_galactic (g_tank g) (g_dl g) (g_dr g) (fst a) (fst b) (g_oldfpd g) (g_vib g) (g_al g) (g_ar g) (g_bl g) (g_br g) (g_scale g) (g_par g), (snd a, snd b)).
(** plumbing: frame after frame *)
Fixpoint frames (checks : bool) (xs : list (R * R)) (g : galactic) : option (galactic * list (R * R)) :=
  match xs with
  | [] => Some (g, [])
  | x :: r => p <- frame checks x g;; q <- frames checks r (fst p);; Some (fst q, snd p :: snd q)
  end.
(** l.172-388 [process]: one block *)
Definition process (checks : bool) (xs : list (R * R)) (g : galactic) : option (galactic * list (R * R)) :=
  l <- resize (size (g_par g)) (t_left (g_tank g));; r <- resize (size (g_par g)) (t_right (g_tank g));;
  frames checks xs (mk_galactic (mk_tank l r (t_fb0 (g_tank g)) (t_fb1 (g_tank g))) (g_dl g) (g_dr g) (g_fpd_l g) (g_fpd_r g) (g_oldfpd g) (g_vib g)
                                (g_al g) (g_ar g) (g_bl g) (g_br g) (g_scale g) (g_par g)).
(** plumbing: block after block *)
Fixpoint blocks (checks : bool) (bs : list (list (R * R))) (g : galactic) : option (galactic * list (list (R * R))) :=
  match bs with
  | [] => Some (g, [])
  | b :: r => p <- process checks b g;; q <- blocks checks r (fst p);; Some (fst q, snd p :: snd q)
  end.
