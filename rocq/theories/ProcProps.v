(** Memory safety of the safe methods of the processor (C85). *)
From Verif Require Import Base ProcModel ProcSpec ProcProofs.
Local Open Scope nat_scope.

(** C85: a program without [unsafe] that gives every run slices as long as a block, and does not exchange output blocks, never has undefined
    behaviour: in any order of creating, running, reading and dropping any number of processors with any graphs *)
Theorem C85_safe_partial : forall F (zero : F) cs, careful F zero empty cs -> ~ In Undefined (snd (run_all zero empty cs)).
Proof. intros F zero cs C. apply careful_defined; [apply healthy_empty | exact C]. Qed.
Print Assumptions C85_safe_partial.
(** C85: what is heard. After a run that does not panic, the output block has what the graph wrote last, and the old samples elsewhere. *)
Theorem C85_output : forall F (zero : F) cs i p slices g c f old, Forall (keeps F) cs -> let w := fst (run_all zero empty cs) in live w i = Some p ->
  snd (step zero w (Run i slices g)) = Fine None -> snd (step zero w (Output i c f)) = Fine (Some old) ->
  snd (step zero (fst (step zero w (Run i slices g))) (Output i c f)) = Fine (Some (left_at F slices (pr_bs p) g c f old)).
Proof.
  intros F zero cs i p slices g c f old K w Hi R Out. assert (H : healthy F w) by (apply careful_healthy; [apply healthy_empty | exact K]).
  assert (H' : healthy F (fst (step zero w (Run i slices g)))) by (apply step_healthy; [exact H | exact Logic.I]).
  apply (output_sample F zero w i p c f old Hi H) in Out. assert (Hi' : live (fst (step zero w (Run i slices g))) i = Some p) by (cbn [step]; rewrite Hi; destruct (length slices =? pr_ins p); exact Hi).
  apply (output_sample F zero _ i p c f _ Hi' H'). cbn [step] in *. rewrite Hi in *. destruct (length slices =? pr_ins p); [| discriminate R]. cbn [fst snd w_heap] in *.
  destruct (proj1 H i p Hi) as (l & E1 & E2 & E3 & E4). rewrite <- E1 in E3. rewrite <- E2 in E4. eapply exec_left; eassumption.
Qed.
Print Assumptions C85_output.
(** C85: a run, or dropping, of one processor changes no output of another *)
Theorem C85_apart : forall F (zero : F) cs i j q slices g c f, Forall (keeps F) cs -> let w := fst (run_all zero empty cs) in live w j = Some q -> i <> j ->
  snd (step zero (fst (step zero w (Run i slices g))) (Output j c f)) = snd (step zero w (Output j c f)) /\
  snd (step zero (fst (step zero w (Drop i))) (Output j c f)) = snd (step zero w (Output j c f)).
Proof.
  intros F zero cs i j q slices g c f K w Hj N. assert (H : healthy F w) by (apply careful_healthy; [apply healthy_empty | exact K]). destruct H as [O U].
  destruct (O j q Hj) as (lq & Q1 & Q2 & Q3 & Q4). destruct (live w i) as [p |] eqn:Hi.
  2: { cbn [step]. rewrite Hi. split; reflexivity. }
  destruct (O i p Hi) as (l & E1 & E2 & E3 & E4). assert (Own : pr_own q <> pr_own p) by (intros E; apply N; symmetry; apply (U j i q p Hj Hi E)). split.
  - cbn [step]. rewrite Hi. destruct (length slices =? pr_ins p); [| reflexivity]. cbn [fst w_heap live w_procs].
    assert (E3' := E3). rewrite <- E1 in E3'. assert (E4' := E4). rewrite <- E2 in E4'. destruct (exec_shape F slices (pr_bs p) (pr_block p) g (w_heap w) l E3' E4') as (l' & _ & _ & R & _).
    change (live {| w_heap := fst (exec slices (pr_bs p) (pr_block p) g (w_heap w)); w_procs := w_procs w |} j) with (live w j). rewrite Hj.
    destruct (position (pr_block q) c f); [| reflexivity]. rewrite R by (rewrite Q1, E1; exact Own). destruct (alloc_at (w_heap w) (b_mem (pr_block q))); [| reflexivity]. destruct (nth_error _ _); reflexivity.
  - cbn [step]. rewrite Hi. cbn [fst w_heap]. assert (L : live {| w_heap := set_at (w_heap w) (pr_own p) None; w_procs := set_at (w_procs w) i None |} j = Some q) by (unfold live in *; cbn [w_procs]; rewrite set_at_other by exact N; exact Hj).
    rewrite L, Hj. destruct (position (pr_block q) c f); [| reflexivity]. rewrite Q1. rewrite alloc_set by (eapply alloc_lt; exact E3). rewrite (proj2 (Nat.eqb_neq _ _)) by (intros E; apply Own; symmetry; exact E).
    rewrite Q3. destruct (nth_error _ _); reflexivity.
Qed.
Print Assumptions C85_apart.
(** C85: a wrong number of slices panics before anything happens *)
Theorem C85_number : forall F (zero : F) w i p slices g, live w i = Some p -> length slices <> pr_ins p -> step zero w (Run i slices g) = (w, Panicked).
Proof. intros F zero w i p slices g Hi N. cbn [step]. rewrite Hi. rewrite (proj2 (Nat.eqb_neq _ _) N). reflexivity. Qed.
Print Assumptions C85_number.
(** C85: only the first samples of a slice, as many as the block has, are heard *)
Theorem C85_only_block : forall F (zero : F) w i p slices slices' g, live w i = Some p -> length slices = length slices' ->
  Forall (fun s => pr_bs p <= length s) slices -> Forall (fun s => pr_bs p <= length s) slices' -> map (firstn (pr_bs p)) slices = map (firstn (pr_bs p)) slices' ->
  step zero w (Run i slices g) = step zero w (Run i slices' g).
Proof.
  intros F zero w i p slices slices' g Hi L A B E. cbn [step]. rewrite Hi, L. destruct (length slices' =? pr_ins p); [| reflexivity].
  assert (X : forall g h, exec slices (pr_bs p) (pr_block p) g h = exec slices' (pr_bs p) (pr_block p) g h); [| rewrite X; reflexivity].
  assert (T : forall c, take_slice F slices (pr_bs p) c = take_slice F slices' (pr_bs p) c).
  { intros c. unfold take_slice. pose proof (f_equal (fun l => nth_error l c) E) as Ec. cbv beta in Ec. rewrite !nth_error_map in Ec.
    destruct (nth_error slices c) as [s |] eqn:N, (nth_error slices' c) as [s' |] eqn:N'; try discriminate Ec; [| reflexivity]. cbn in Ec. injection Ec as Ec.
    rewrite Forall_forall in A, B. rewrite (proj2 (Nat.leb_le _ _) (A s (nth_error_In _ _ N))). rewrite (proj2 (Nat.leb_le _ _) (B s' (nth_error_In _ _ N'))). rewrite Ec. reflexivity. }
  clear g. induction g as [| c k IH | c f x k IH]; intros h; cbn [exec]; [reflexivity | rewrite T; destruct (take_slice F slices' (pr_bs p) c) as [[s |] |]; [apply IH | reflexivity | reflexivity] |].
  destruct (position (pr_block p) c f); [| reflexivity]. destruct (alloc_at h (b_mem (pr_block p))); [| reflexivity]. destruct (_ <? _); [apply IH | reflexivity].
Qed.
Print Assumptions C85_only_block.
(** A graph that passes its input on, and one processor that is run with it *)
Definition pass (bs : nat) : prog nat := RdIn 0 (fun s => (fix put f l := match l with [] => Done | x :: l => Wr 0 f x (put (S f) l) end) 0 s).
Definition session : list (call nat) := [New 2 1 1; New 2 0 2; Run 0 [[5; 6; 7]] (pass 2); Drop 1; Output 0 0 1].
Example C85_case : careful nat 0 empty session /\ snd (run_all 0 empty session) = [Fine None; Fine None; Fine None; Fine None; Fine (Some 6)].
Proof.
  split; [| vm_compute; reflexivity]. cbn [careful session]. repeat split. intros p H. vm_compute in H. injection H as <-. repeat constructor.
Qed.

(** C85, any slices: refuted. The lengths of the slices are not checked: a graph that uses an input reads behind the end of every slice that is
    shorter than a block. *)
Theorem C85_short_refuted : forall F (zero : F) w i p slices c s k, live w i = Some p -> length slices = pr_ins p -> nth_error slices c = Some s -> length s < pr_bs p ->
  snd (step zero w (Run i slices (RdIn c k))) = Undefined.
Proof.
  intros F zero w i p slices c s k Hi L N S. cbn [step]. rewrite Hi, L, Nat.eqb_refl. cbn [exec snd]. unfold take_slice. rewrite N. rewrite (proj2 (Nat.leb_gt _ _) S). reflexivity.
Qed.
Print Assumptions C85_short_refuted.
Example C85_short_case : snd (run_all 0 empty [New 64 1 1; Run 0 [[]] (pass 64)]) = [Fine None; Undefined].
Proof. vm_compute. reflexivity. Qed.
(** C85, any safe program: refuted. The output block can be moved out of a processor: after exchanging the blocks of two processors and
    dropping one, the other reads and writes freed memory. *)
Theorem C85_swap_refuted : snd (run_all 0 empty [New 1 0 1; New 1 0 1; Swap 0 1; Drop 0; Output 1 0 0]) = [Fine None; Fine None; Fine None; Fine None; Undefined] /\
  snd (run_all 0 empty [New 1 0 1; New 1 0 1; Swap 0 1; Drop 0; Run 1 [] (Wr 0 0 1 Done)]) = [Fine None; Fine None; Fine None; Fine None; Undefined].
Proof. split; vm_compute; reflexivity. Qed.
Print Assumptions C85_swap_refuted.
