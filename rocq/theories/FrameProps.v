(** Which samples are in the blocks of a UGen (C27), and of a UGen whose parameters change within the block (C26) *)
From Coq Require Import ZArith.
From Verif Require Import Base BlockModel BlockSpec BlockProofs PreciseModel PreciseSpec PreciseProofs PreciseProps FrameSpec FrameProofs.
Local Open Scope nat_scope.

(** A block, or a part of one, of a UGen with any numbers of channels: frame f of channel c of the output is what the UGen puts out in
    channel c for frame f of the input, after the frames before; nothing else is written. *)
Theorem C27_samples : forall F V St (zero : F) (u : ugen F V St) m st ib iv ob ov x g, own_inputs u -> room u (m_frames m) ib iv ob ov -> shows ib iv x -> shows ob [] g ->
  exists ob', ugen_block zero u m st ib iv ob ov = Some (state_at u [] x st (m_frames m), ob') /\ block_wf ob' /\ same_shape ob ob' /\
    shows ob' [] (placed u (origin ov) (m_frames m) (out_at u [] x st) g).
Proof.
  intros F V St zero u m st ib iv ob ov x g Hu Hr Hx Hg. unfold ugen_block. rewrite frames_timed.
  destruct (timed_samples zero u Hu [] x st (m_frames m) 0 ib iv ob ov g Hx Hr Hg) as (b & E & W & S & G). cbn [state_at Nat.add] in *. rewrite Nat.add_0_r in G. exists b. auto.
Qed.
Print Assumptions C27_samples.

(** A block of the wrapper, under the conditions of [C26_on_time_partial]: the same, with every change in force from its frame on. *)
Theorem C26_samples_partial : forall F V St (zero : F) (u : ugen F V St) slots bs tp es st ib ob x g, own_inputs u -> 0 < bs -> block_ok u bs slots es -> offsets_stated tp es ->
  room u bs ib [] ob [] -> shows ib [] x -> shows ob [] g ->
  exists p ob', (q <- precise_events u (precise_new u slots st) es ;; precise_block zero u (mk_meta 0 bs) q ib [] ob []) = Some (p, ob') /\
    p_st p = state_at u es x st bs /\ block_wf ob' /\ same_shape ob ob' /\ shows ob' [] (placed u 0 bs (out_at u es x st) g).
Proof.
  intros F V St zero u slots bs tp es st ib ob x g Hu Hbs Hes Hof Hr Hx Hg.
  destruct (timed_samples zero u Hu es x st bs 0 ib [] ob [] g Hx Hr Hg) as (b & E & W & S & G). cbn [state_at Nat.add origin fold_right] in *.
  destruct (block_spec zero u tp slots bs es (precise_new u slots st) ib ob Hbs) as (p1 & E1 & R); try assumption.
  { split; [apply repeat_length |]. split; [apply repeat_length |]. intros i _ Hi. cbn. apply nth_error_repeat. exact Hi. }
  { reflexivity. }
  cbn [precise_new p_st] in R. rewrite E in R. destruct R as (p2 & R & S1 & _). exists p2, b. rewrite E1. cbn [bind]. auto.
Qed.
Print Assumptions C26_samples_partial.

(** Two inputs and two outputs that are exchanged and multiplied by the parameter; it is set to 10 at frame 2. *)
Definition cross : ugen Z Z Z := mk_ugen 2 2 1 (fun k x => (k, fun c => (k * x (1 - c)%nat)%Z)) (fun _ v _ => v).
Definition cross_in : block Z := mk_block false [1; 2; 3; 4; 5; 6; 7; 8]%Z 2 4.
Definition cross_out : block Z := block_new 0%Z false 3 4.
Example C26_samples_case : own_inputs cross /\ block_ok cross 4 1 [(2%N, 0, 10%Z)] /\ offsets_stated (fun _ => true) [(2%N, 0, 10%Z)] /\ room cross 4 cross_in [] cross_out [] /\
  shows cross_in [] (fun c f => Z.of_nat (4 * c + f + 1)) /\ shows cross_out [] (fun _ _ => 0%Z) /\
  option_map snd (p <- precise_events cross (precise_new cross 1 1%Z) [(2%N, 0, 10%Z)] ;; precise_block 0%Z cross (mk_meta 0 4) p cross_in [] cross_out []) =
    Some (mk_block false [5; 6; 70; 80; 1; 2; 30; 40; 0; 0; 0; 0]%Z 3 4).
Proof.
  split; [intros st x y H; split; [reflexivity |]; intros c Hc; change ((st * x (1 - c)%nat)%Z = (st * y (1 - c)%nat)%Z); rewrite (H (1 - c)) by (change (u_ins cross) with 2; lia); reflexivity |].
  split; [split; [cbn; lia |]; split; [cbn; auto |]; intros d i v [E | []]; injection E as <- <- <-; cbn; lia |].
  split; [intros d i v [E | []]; injection E as <- <- <-; reflexivity |].
  split; [repeat split; cbn; lia |].
  split; [intros c f Hc Hf; cbn in Hc, Hf; do 2 (destruct c as [| c]; [do 4 (destruct f as [| f]; [reflexivity |]); lia |]); lia |].
  split; [intros c f Hc Hf; cbn in Hc, Hf; do 3 (destruct c as [| c]; [do 4 (destruct f as [| f]; [reflexivity |]); lia |]); lia |].
  vm_compute. reflexivity.
Qed.
