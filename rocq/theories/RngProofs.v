From Coq Require Import Reals Lra Lia.
From Flocq Require Import Core BinarySingleNaN.
From Verif Require Import Base FloatBase FloatMore RngModel.
Open Scope N_scope.

(** * Linear maps over bits, as columns *)
Fixpoint apply (cols : list N) (x : N) : N :=
  match cols with [] => 0 | c :: r => N.lxor (if N.odd x then c else 0) (apply r (N.div2 x)) end.
Definition mul (A B : list N) : list N := map (apply A) B.
Definition linear (f : N -> N) : Prop := forall x y, f (N.lxor x y) = N.lxor (f x) (f y).

Lemma lxor4 : forall a b c d, N.lxor (N.lxor a b) (N.lxor c d) = N.lxor (N.lxor a c) (N.lxor b d).
Proof. intros. apply N.bits_inj. intros i. rewrite !N.lxor_spec. destruct (N.testbit a i), (N.testbit b i), (N.testbit c i), (N.testbit d i); reflexivity. Qed.
Lemma div2_lxor : forall x y, N.div2 (N.lxor x y) = N.lxor (N.div2 x) (N.div2 y).
Proof. intros. rewrite !N.div2_spec. apply N.shiftr_lxor. Qed.
Lemma odd_lxor : forall x y, N.odd (N.lxor x y) = xorb (N.odd x) (N.odd y).
Proof. intros. rewrite <- !N.bit0_odd. apply N.lxor_spec. Qed.
Lemma linear_0 : forall f, linear f -> f 0 = 0.
Proof. intros f L. specialize (L 0 0). rewrite N.lxor_nilpotent in L. rewrite L. apply N.lxor_nilpotent. Qed.
Lemma apply_linear : forall cols, linear (apply cols).
Proof.
  induction cols as [| c r IH]; intros x y; cbn [apply]; [reflexivity |]. rewrite div2_lxor, odd_lxor, IH.
  rewrite <- lxor4. f_equal. destruct (N.odd x), (N.odd y); cbn [xorb]; rewrite ?N.lxor_0_r, ?N.lxor_0_l, ?N.lxor_nilpotent; reflexivity.
Qed.
Fixpoint columns (f : N -> N) (k : nat) (b : N) : list N := match k with O => [] | S k => f b :: columns f k (2 * b) end.
Lemma columns_ok : forall f, linear f -> forall k j x, x < 2 ^ N.of_nat k -> apply (columns f k (2 ^ j)) x = f (N.shiftl x j).
Proof.
  intros f L. induction k as [| k IH]; intros j x Hx; cbn [columns apply].
  - cbn in Hx. assert (x = 0) by lia. subst x. rewrite N.shiftl_0_l. symmetry. apply linear_0. exact L.
  - replace (2 * 2 ^ j) with (2 ^ N.succ j) by (rewrite N.pow_succ_r'; reflexivity).
    rewrite IH.
    + destruct (N.odd x) eqn:O.
      * rewrite <- L. f_equal. rewrite <- N.shiftl_1_l. 
        replace (N.shiftl (N.div2 x) (N.succ j)) with (N.shiftl (N.shiftl (N.div2 x) 1) j) by (rewrite N.shiftl_shiftl; f_equal; lia).
        rewrite <- N.shiftl_lxor. f_equal. pose proof (N.div2_odd x) as D. rewrite O in D. cbn [N.b2n] in D.
        rewrite D at 2. rewrite N.shiftl_mul_pow2, N.pow_1_r, N.mul_comm.
        apply N.bits_inj. intros i. rewrite N.lxor_spec. destruct i as [| i].
        -- rewrite N.testbit_even_0, N.testbit_odd_0. reflexivity.
        -- replace (N.pos i) with (N.succ (N.pred (N.pos i))) by lia. rewrite N.testbit_even_succ, N.testbit_odd_succ by lia.
           replace (N.testbit 1 (N.succ (N.pred (N.pos i)))) with false; [rewrite xorb_false_l; reflexivity |].
           symmetry. change 1 with (2 * 0 + 1). rewrite N.testbit_odd_succ by lia. apply N.bits_0.
      * rewrite N.lxor_0_l. f_equal. pose proof (N.div2_odd x) as D. rewrite O in D. cbn [N.b2n] in D. rewrite N.add_0_r in D.
        rewrite D at 2. rewrite !N.shiftl_mul_pow2. rewrite N.pow_succ_r'. lia.
    + rewrite Nat2N.inj_succ, N.pow_succ_r' in Hx. pose proof (N.div2_odd x). destruct (N.odd x); cbn [N.b2n] in H; lia.
Qed.
Lemma apply_mul : forall A B x, apply (mul A B) x = apply A (apply B x).
Proof.
  intros A B. induction B as [| b B IH]; intros x; cbn [mul map apply]; [symmetry; apply linear_0, apply_linear |].
  fold (mul A B). rewrite IH, apply_linear. f_equal. destruct (N.odd x); [reflexivity | symmetry; apply linear_0, apply_linear].
Qed.
Fixpoint mpow (A : list N) (p : positive) : list N :=
  match p with xH => A | xO q => let B := mpow A q in mul B B | xI q => let B := mpow A q in mul A (mul B B) end.
Lemma mpow_ok : forall A p x, apply (mpow A p) x = Pos.iter (apply A) x p.
Proof.
  intros A. induction p as [q IH | q IH |]; intros x; cbn [mpow Pos.iter]; [| | reflexivity].
  - rewrite !apply_mul, !IH. reflexivity.
  - rewrite apply_mul, !IH. reflexivity.
Qed.

(** * The generator is linear *)
Lemma shl_linear : forall k, linear (fun x => shl32 x k).
Proof.
  intros k x y. unfold shl32. rewrite N.shiftl_lxor. apply N.bits_inj. intros i. rewrite !N.lxor_spec, !N.land_spec, N.lxor_spec.
  destruct (N.testbit (N.shiftl x k) i), (N.testbit (N.shiftl y k) i), (N.testbit (N.ones 32) i); reflexivity.
Qed.
Lemma next_linear : linear rng_next.
Proof.
  intros x y. unfold rng_next. rewrite (shl_linear 13 x y), lxor4. rewrite N.shiftr_lxor, lxor4. rewrite (shl_linear 5), lxor4. reflexivity.
Qed.
Notation M32 := (2 ^ 32).
Lemma small_iff : forall x, x < M32 <-> N.shiftr x 32 = 0.
Proof. intros x. rewrite N.shiftr_div_pow2. split; intros H; [apply N.div_small; exact H |]. apply N.div_small_iff; [lia | exact H]. Qed.
Lemma lxor_small : forall x y, x < M32 -> y < M32 -> N.lxor x y < M32.
Proof. intros x y Hx Hy. apply small_iff in Hx, Hy. apply small_iff. rewrite N.shiftr_lxor, Hx, Hy. reflexivity. Qed.
Lemma shl_small : forall x k, shl32 x k < M32.
Proof. intros. unfold shl32. rewrite N.land_ones. apply N.mod_upper_bound. lia. Qed.
Lemma shr_small : forall x k, x < M32 -> N.shiftr x k < M32.
Proof. intros x k H. rewrite N.shiftr_div_pow2. apply N.le_lt_trans with x; [apply N.div_le_upper_bound; [apply N.pow_nonzero; lia |] | exact H].
  assert (1 <= 2 ^ k) by (pose proof (N.pow_nonzero 2 k); lia). nia. Qed.
Lemma next_small : forall x, x < M32 -> rng_next x < M32.
Proof.
  intros x H. unfold rng_next. set (x1 := N.lxor x (shl32 x 13)). assert (H1 : x1 < M32) by (apply lxor_small; [exact H | apply shl_small]).
  set (x2 := N.lxor x1 (N.shiftr x1 17)). assert (H2 : x2 < M32) by (apply lxor_small; [exact H1 | apply shr_small; exact H1]).
  apply lxor_small; [exact H2 | apply shl_small].
Qed.
Definition T : list N := columns rng_next 32 1.
Lemma T_ok : forall x, x < M32 -> apply T x = rng_next x.
Proof.
  intros x H. pose proof (columns_ok rng_next next_linear 32 0 x) as E. cbn [N.of_nat] in E. change (2 ^ 0) with 1 in E. unfold T.
  rewrite E; [rewrite N.shiftl_0_r; reflexivity | exact H].
Qed.
Lemma iter_small : forall p x, x < M32 -> Pos.iter rng_next x p < M32 /\ Pos.iter (apply T) x p = Pos.iter rng_next x p.
Proof.
  intros p x H. revert p. apply Pos.peano_ind.
  - split; [apply next_small; exact H | apply T_ok; exact H].
  - intros p [H1 H2]. rewrite !Pos.iter_succ. rewrite H2. split; [apply next_small; exact H1 | apply T_ok; exact H1].
Qed.
Lemma at_small : forall n x, x < M32 -> rng_at x n < M32.
Proof. intros [| p] x H; [exact H |]. apply (iter_small p x H). Qed.
Lemma at_add : forall n m x, rng_at x (n + m) = rng_at (rng_at x n) m.
Proof. intros. unfold rng_at. rewrite N.add_comm, N.iter_add. reflexivity. Qed.
Lemma at_succ : forall n x, rng_at x (N.succ n) = rng_next (rng_at x n).
Proof. intros. unfold rng_at. apply N.iter_succ. Qed.
Lemma at_mpow : forall p x, x < M32 -> rng_at x (N.pos p) = apply (mpow T p) x.
Proof. intros p x H. rewrite mpow_ok. symmetry. apply iter_small. exact H. Qed.

(** * The period *)
Definition period : N := 2 ^ 32 - 1.
Definition ident : list N := columns (fun x => x) 32 1.
Lemma ident_ok : forall x, x < M32 -> apply ident x = x.
Proof.
  intros x H. pose proof (columns_ok (fun x => x) (fun x y => eq_refl) 32 0 x) as E. cbn [N.of_nat] in E. change (2 ^ 0) with 1 in E. unfold ident.
  rewrite E; [apply N.shiftl_0_r | exact H].
Qed.
Lemma full_round : mpow T 4294967295 = ident. Proof. vm_compute. reflexivity. Qed.
Lemma at_period : forall x, x < M32 -> rng_at x period = x.
Proof. intros x H. change period with (N.pos 4294967295). rewrite at_mpow by exact H. rewrite full_round. apply ident_ok. exact H. Qed.
Definition madd (A B : list N) : list N := map (fun p => N.lxor (fst p) (snd p)) (combine A B).
Lemma madd_ok : forall A B x, length A = length B -> apply (madd A B) x = N.lxor (apply A x) (apply B x).
Proof.
  induction A as [| a A IH]; intros [| b B] x L; try discriminate L; [reflexivity |]. cbn [madd combine map apply fst snd]. fold (madd A B).
  rewrite IH by (injection L; auto). rewrite lxor4. f_equal. destruct (N.odd x); [reflexivity | symmetry; apply N.lxor_0_l].
Qed.
Definition has_inverse (p : positive) (inv : list N) : Prop := mul inv (madd (mpow T p) ident) = ident /\ length (mpow T p) = length ident.
Lemma no_short : forall p inv, has_inverse p inv -> forall x, x < M32 -> rng_at x (N.pos p) = x -> x = 0.
Proof.
  intros p inv [HI HL] x Hx H. rewrite at_mpow in H by exact Hx.
  assert (E : apply (madd (mpow T p) ident) x = 0) by (rewrite madd_ok by exact HL; rewrite H, ident_ok by exact Hx; apply N.lxor_nilpotent).
  rewrite <- (ident_ok x Hx), <- HI, apply_mul, E. apply linear_0, apply_linear.
Qed.
(* The inverses of T^((2^32-1)/q) + 1, computed outside and checked here *)
Definition inv3 : list N := [3335786257; 3906425407; 341432259; 3494094572; 1287699228; 2747661528; 2150333198; 1082698387; 2611265886; 3557500517; 3637289613; 2868896625; 410369362; 1269330915; 4088754115; 154103209; 1548993245; 1491119919; 2404261344; 3419380581; 2808848906; 551830956; 2331709170; 188466835; 3017353089; 1526152647; 441219537; 2121271239; 792014187; 2569338613; 2655281178; 105270877]%N.
Definition inv5 : list N := [3037765269; 3182012677; 1669387622; 2344659563; 370929321; 3901211764; 1380852402; 4210098316; 2969553326; 2348631362; 1854761326; 1663573681; 1840518332; 1230994099; 4206056119; 2280264177; 2761711817; 2141840559; 1783100198; 2364816481; 1110627307; 3500024705; 2915665707; 311039995; 1912523766; 1756755554; 3294084956; 326808620; 2100464665; 1580234416; 2287416289; 4045495915]%N.
Definition inv17 : list N := [2080738118; 4098161938; 4167003272; 262081113; 4280086534; 4185094329; 2355677745; 3596925114; 3587069701; 2535039379; 1691659854; 3661366594; 3081963516; 2254921635; 205510780; 2576529806; 3889960224; 3965609850; 1675181996; 1663335326; 464242227; 164803375; 1135727768; 3702832275; 733074617; 3475373130; 3364815054; 2204756806; 2769922784; 2141131413; 4189123440; 1776631044]%N.
Definition inv257 : list N := [1940479401; 668616311; 607776604; 3685168204; 1129029766; 648810898; 3303171155; 235886680; 3828553010; 2674952864; 3259775758; 1952802776; 3122666590; 807405955; 2074935119; 10541013; 2953885123; 3744595128; 1051926783; 353530678; 151549380; 394224902; 2319156462; 238374970; 180587326; 3341967654; 1264618217; 3233456239; 2630374898; 2982569044; 4209708186; 2989590033]%N.
Definition inv65537 : list N := [331728430; 2488218541; 1209385696; 682878283; 839817293; 1408035726; 4013029473; 4095696576; 1033618122; 2301755989; 769798078; 4185028050; 2663489015; 2683529367; 4136185144; 2950586883; 1578865829; 2816851372; 349201241; 3096975940; 3937016935; 2625434786; 2636012314; 211073125; 3311055944; 1920044434; 2025742764; 2060168078; 4064662879; 1177042686; 3953608156; 586778632]%N.
Lemma inv_3 : has_inverse 1431655765 inv3. Proof. split; vm_compute; reflexivity. Qed.
Lemma inv_5 : has_inverse 858993459 inv5. Proof. split; vm_compute; reflexivity. Qed.
Lemma inv_17 : has_inverse 252645135 inv17. Proof. split; vm_compute; reflexivity. Qed.
Lemma inv_257 : has_inverse 16711935 inv257. Proof. split; vm_compute; reflexivity. Qed.
Lemma inv_65537 : has_inverse 65535 inv65537. Proof. split; vm_compute; reflexivity. Qed.

Lemma at_mul : forall x d, rng_at x d = x -> forall k, rng_at x (d * k) = x.
Proof. intros x d H. apply N.peano_ind; [rewrite N.mul_0_r; reflexivity |]. intros k IH. rewrite N.mul_succ_r, at_add, IH. exact H. Qed.
Lemma at_gcd : forall x d, x < M32 -> rng_at x d = x -> d <> 0 -> rng_at x (N.gcd d period) = x.
Proof.
  intros x d Hx H Hd. destruct (N.gcd_bezout_pos d period ltac:(lia)) as (u & v & E).
  pose proof (at_mul x d H u) as A. pose proof (at_mul x period (at_period x Hx) v) as B.
  rewrite N.mul_comm in A, B. rewrite E, N.add_comm, at_add, B in A. exact A.
Qed.
(** No divisor of a prime but the trivial ones *)
Fixpoint no_div (fuel : nat) (d p : N) : bool := match fuel with O => true | S f => negb (p mod d =? 0) && no_div f (d + 1) p end.
Lemma no_div_ok : forall p fuel d, no_div fuel d p = true -> forall k, d <= k < d + N.of_nat fuel -> ~ (k | p).
Proof.
  intros p. induction fuel as [| f IH]; intros d H k Hk D; [lia |]. cbn [no_div] in H. apply andb_true_iff in H as [H1 H2].
  destruct (N.eq_dec k d) as [-> | Hne]; [| apply (IH (d + 1) H2 k ltac:(lia) D)].
  apply negb_true_iff, N.eqb_neq in H1. apply H1. apply N.mod_divide; [| exact D]. intros ->. destruct D as [z D]. rewrite N.mul_0_r in D.
  subst p. apply H1. reflexivity.
Qed.
Definition prime_check (p : N) : bool := no_div (N.to_nat (p - 2)) 2 p.
Lemma gcd_prime : forall p k, prime_check p = true -> 2 <= p -> N.gcd k p = 1 \/ (p | k).
Proof.
  intros p k H Hp. pose proof (N.gcd_divide_r k p) as D. set (g := N.gcd k p) in *.
  assert (Hg : g <> 0) by (intros E; rewrite E in D; destruct D as [z D]; lia).
  assert (Hle : g <= p) by (apply N.divide_pos_le; [lia | exact D]).
  destruct (N.eq_dec g 1) as [| H1]; [left; assumption |]. right.
  destruct (N.eq_dec g p) as [E | Hne]; [rewrite <- E; apply N.gcd_divide_l |]. exfalso.
  apply (no_div_ok p _ 2 H g); [| exact D]. rewrite N2Nat.id. lia.
Qed.
Lemma split_period : forall g k, period = g * k -> k <> 1 ->
  exists q h, In q [1431655765; 858993459; 252645135; 16711935; 65535] /\ q = g * h.
Proof.
  intros g k E Hk.
  assert (G : forall p q, prime_check p = true -> 2 <= p -> period = p * q -> (p | k) -> exists h, q = g * h).
  { intros p q Hp H2 Hq [h Hh]. exists h. rewrite E, Hh in Hq. assert (F : p * (g * h) = p * q) by lia. apply N.mul_cancel_l in F; lia. }
  assert (C : forall p, prime_check p = true -> 2 <= p -> N.gcd k p = 1 \/ (p | k)) by (intros; apply gcd_prime; assumption).
  destruct (C 3) as [A1 | A]; [vm_compute; reflexivity | lia | | destruct (G 3 1431655765) as [h Hh]; try assumption; try reflexivity; [lia |]; exists 1431655765, h; split; [cbn; tauto | exact Hh]].
  destruct (C 5) as [A2 | A]; [vm_compute; reflexivity | lia | | destruct (G 5 858993459) as [h Hh]; try assumption; try reflexivity; [lia |]; exists 858993459, h; split; [cbn; tauto | exact Hh]].
  destruct (C 17) as [A3 | A]; [vm_compute; reflexivity | lia | | destruct (G 17 252645135) as [h Hh]; try assumption; try reflexivity; [lia |]; exists 252645135, h; split; [cbn; tauto | exact Hh]].
  destruct (C 257) as [A4 | A]; [vm_compute; reflexivity | lia | | destruct (G 257 16711935) as [h Hh]; try assumption; try (vm_compute; reflexivity); [lia |]; exists 16711935, h; split; [cbn; tauto | exact Hh]].
  destruct (C 65537) as [A5 | A]; [vm_compute; reflexivity | lia | | destruct (G 65537 65535) as [h Hh]; try assumption; try (vm_compute; reflexivity); [lia |]; exists 65535, h; split; [cbn; tauto | exact Hh]].
  exfalso. apply Hk.
  assert (S : forall a b, N.gcd k a = 1 -> (k | a * b) -> (k | b)) by (intros a b Ha Hd; apply N.gauss with a; assumption).
  assert (D : (k | 3 * (5 * (17 * (257 * (65537 * 1)))))) by (exists g; rewrite <- E; reflexivity).
  apply S in D; [| exact A1]. apply S in D; [| exact A2]. apply S in D; [| exact A3]. apply S in D; [| exact A4]. apply S in D; [| exact A5].
  apply N.divide_1_r in D. exact D.
Qed.
Lemma period_exact : forall x d, 0 < x < M32 -> 0 < d < period -> rng_at x d <> x.
Proof.
  intros x d Hx Hd H. assert (Hg : rng_at x (N.gcd d period) = x) by (apply at_gcd; [lia | exact H | lia]).
  destruct (N.gcd_divide_r d period) as [k E]. pose proof (N.gcd_divide_l d period) as Dl. apply N.divide_pos_le in Dl; [| lia].
  destruct (split_period (N.gcd d period) k) as (q & h & Hq & Eq); [rewrite N.mul_comm; exact E | intros ->; lia |].
  pose proof (at_mul x _ Hg h) as Q. rewrite <- Eq in Q.
  assert (x = 0); [| lia].
  destruct Hq as [<- | [<- | [<- | [<- | [<- | []]]]]]; [apply (no_short _ _ inv_3) | apply (no_short _ _ inv_5) | apply (no_short _ _ inv_17) | apply (no_short _ _ inv_257) | apply (no_short _ _ inv_65537)]; (exact Q || apply Hx).
Qed.
Lemma at_0 : forall n, rng_at 0 n = 0.
Proof. apply N.peano_ind; [reflexivity |]. intros n IH. rewrite at_succ, IH. reflexivity. Qed.
Lemma period_big : 1 < period. Proof. reflexivity. Qed.
Lemma at_inj : forall x n, x < M32 -> rng_at x n = 0 -> x = 0.
Proof.
  intros x n Hx H.
  assert (E : rng_at x (period * n) = x) by (apply at_mul, at_period; exact Hx).
  replace (period * n) with (n + (period * n - n)) in E by (pose proof period_big; nia). rewrite at_add, H, at_0 in E. symmetry. exact E.
Qed.
Lemma at_nonzero : forall x n, 0 < x < M32 -> 0 < rng_at x n < M32.
Proof.
  intros x n H. split; [| apply at_small; lia]. destruct (N.eq_dec (rng_at x n) 0) as [E | E]; [| lia]. apply at_inj in E; lia.
Qed.
Lemma at_mod : forall x n, x < M32 -> rng_at x n = rng_at x (n mod period).
Proof.
  intros x n H. rewrite (N.div_mod' n period) at 1. rewrite at_add, at_mul by (apply at_period; exact H). reflexivity.
Qed.
Lemma at_distinct : forall x i j, 0 < x < M32 -> i < period -> j < period -> rng_at x i = rng_at x j -> i = j.
Proof.
  assert (K : forall x i j, 0 < x < M32 -> i < j -> j < period -> rng_at x i = rng_at x j -> False).
  { intros x i j Hx Hij Hj E. replace j with (i + (j - i)) in E by lia. rewrite at_add in E.
    apply (period_exact (rng_at x i) (j - i)); [apply at_nonzero; exact Hx | lia | symmetry; exact E]. }
  intros x i j Hx Hi Hj E. destruct (N.lt_trichotomy i j) as [L | [L | L]]; [exfalso; apply (K x i j); assumption | exact L |].
  exfalso. apply (K x j i); [assumption | assumption | assumption | symmetry; exact E].
Qed.
(** * An injection of a finite set into itself is onto *)
Lemma onto_nat : forall P (f : nat -> nat), (forall i, (i < P)%nat -> (f i < P)%nat) ->
  (forall i j, (i < P)%nat -> (j < P)%nat -> f i = f j -> i = j) -> forall y, (y < P)%nat -> exists i, (i < P)%nat /\ f i = y.
Proof.
  intros P f Hf Hi y Hy.
  assert (ND : NoDup (map f (seq 0 P))).
  { assert (G : forall l, NoDup l -> (forall i, In i l -> (i < P)%nat) -> NoDup (map f l)).
    { induction l as [| a l IH]; intros N B; [constructor |]. inversion N. subst. cbn [map]. constructor.
      - intros C. apply in_map_iff in C as (b & E & Hb). apply Hi in E; [subst b; contradiction | apply B; right; exact Hb | apply B; left; reflexivity].
      - apply IH; [assumption | intros i H; apply B; right; exact H]. }
    apply G; [apply seq_NoDup | intros i H; apply in_seq in H; lia]. }
  assert (I : incl (seq 0 P) (map f (seq 0 P))).
  { apply NoDup_length_incl; [exact ND | rewrite map_length; apply le_n |]. intros z Hz. apply in_map_iff in Hz as (i & <- & H). apply in_seq in H.
    apply in_seq. split; [lia |]. apply Hf. lia. }
  assert (Hin : In y (seq 0 P)) by (apply in_seq; lia). apply I in Hin. apply in_map_iff in Hin as (i & E & H). apply in_seq in H. exists i. split; [lia | exact E].
Qed.
Lemma onto_N : forall P (f : N -> N), (forall i, i < P -> 0 < f i <= P) -> (forall i j, i < P -> j < P -> f i = f j -> i = j) ->
  forall y, 0 < y <= P -> exists i, i < P /\ f i = y.
Proof.
  intros P f Hf Hi y Hy.
  destruct (onto_nat (N.to_nat P) (fun n => N.to_nat (f (N.of_nat n) - 1)) ) with (y := N.to_nat (y - 1)) as (i & Hi1 & Hi2).
  - intros i H. specialize (Hf (N.of_nat i) ltac:(lia)). lia.
  - intros i j H1 H2 E. pose proof (Hf (N.of_nat i) ltac:(lia)). pose proof (Hf (N.of_nat j) ltac:(lia)).
    assert (E2 : N.of_nat i = N.of_nat j) by (apply Hi; lia). lia.
  - lia.
  - exists (N.of_nat i). specialize (Hf (N.of_nat i) ltac:(lia)). split; lia.
Qed.
Lemma at_onto : forall x v, 0 < x < M32 -> 0 < v < M32 -> exists n, n < period /\ rng_at x n = v.
Proof.
  intros x v Hx Hv. assert (PE : period + 1 = M32) by reflexivity.
  apply onto_N.
  - intros i _. pose proof (at_nonzero x i Hx). lia.
  - intros i j Hi Hj E. apply (at_distinct x); assumption.
  - lia.
Qed.

(** * Conversion to the unit interval *)
Section Unit.
Context {prec emax : Z} {I : ieee prec emax}.
Local Open Scope R_scope.
Lemma unit_range : forall v, (0 < v < M32)%N -> fin (rng_unit v : binary_float prec emax) /\ 0 < val (rng_unit v : binary_float prec emax) <= 1.
Proof.
  intros v Hv. pose proof (ieee_emax (prec := prec) (emax := emax)). unfold rng_unit.
  assert (B32 : bpow radix2 32 = IZR (2 ^ 32)) by reflexivity.
  assert (V : 1 <= IZR (Z.of_N v) <= IZR (2 ^ 32 - 1)) by (split; apply IZR_le; lia).
  assert (W : IZR (2 ^ 32 - 1) <= bpow radix2 32) by (rewrite B32; apply IZR_le; lia).
  destruct (fz_ok (prec := prec) (emax := emax) (Z.of_N v)) as [A1 A2]; [apply fits with 32%Z; [lia | rewrite Rabs_pos_eq; lra] |].
  destruct (fz_ok (prec := prec) (emax := emax) (2 ^ 32 - 1)) as [C1 C2]; [apply fits with 32%Z; [lia | rewrite Rabs_pos_eq; lra] |].
  assert (D : 1 <= val (fz (Z.of_N v) : binary_float prec emax) <= val (fz (2 ^ 32 - 1) : binary_float prec emax)).
  { rewrite A1, C1. split; [| apply rnd_le; lra]. rewrite <- (rnd_1 (prec := prec) (emax := emax)) at 1. apply rnd_le. lra. }
  assert (E : val (fz (2 ^ 32 - 1) : binary_float prec emax) <= bpow radix2 32).
  { rewrite C1. rewrite <- (rnd_bpow (prec := prec) (emax := emax) 32) by lia. apply rnd_le. lra. }
  set (a := fz (Z.of_N v)) in *. set (b := fz (2 ^ 32 - 1)) in *.
  assert (Q : bpow radix2 (-32) <= val a / val b <= 1).
  { split.
    - replace (bpow radix2 (-32)) with (/ bpow radix2 32) by (rewrite <- bpow_opp; reflexivity). unfold Rdiv. rewrite <- (Rmult_1_l (/ _)) at 1.
      pose proof (bpow_gt_0 radix2 32). apply Rmult_le_compat; [lra | left; apply Rinv_0_lt_compat; assumption | lra | apply Rinv_le; lra].
    - unfold Rdiv. apply Rmult_le_reg_r with (val b); [lra |]. rewrite Rmult_assoc, Rinv_l by (apply Rgt_not_eq; lra). lra. }
  assert (Rn : bpow radix2 (-32) <= @rnd prec emax (val a / val b) <= 1).
  { apply rnd_between; [apply rnd_bpow; lia | apply rnd_1 | exact Q]. }
  pose proof (bpow_gt_0 radix2 (-32)).
  destruct (fdiv_ok a b A2) as [F1 F2]; [apply Rgt_not_eq; lra | |].
  - apply fits with 0%Z; [lia |]. change (bpow radix2 0) with 1. rewrite Rabs_pos_eq; lra.
  - split; [exact F2 |]. rewrite F1. lra.
Qed.
End Unit.
