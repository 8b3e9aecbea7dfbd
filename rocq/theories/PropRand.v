(** Properties C01-C05 and C07: random draws and seeds. *)
From Coq Require Import ZArith Arith List Bool Reals Lia Permutation.
From Flocq Require Import Core IEEE754.BinarySingleNaN.
From Verif Require Import Base Arith B64 Rand Mh Mpi Prog Seq System Runs SeqFiles B64Facts RandRange Seeds SeqTotal SeedRuns.
Import ListNotations.
Open Scope Z_scope.

(** C01.  In binary64, for every generator state g and every a in [1, 2^31), the index drawn
    below a is one of 0 .. a-1 and the draw is defined (no bad conversion). *)
Theorem C01_index_draw_in_range : forall (L : Libm) (a g : Z), 1 <= a <= 2147483647 ->
  exists v, i4_unif_0a (A := B64 L) a g = OK (v, lcg g) /\ 0 <= v <= a - 1.
Proof.
  intros L a g H. destruct (i4_unif_0a_b64 L a g) as [v [E R]]; [unfold INT_MAX; lia|].
  exists v. split; [exact E|lia].
Qed.
Print Assumptions C01_index_draw_in_range.
Example C01_case : 1 <= 2147483647 <= 2147483647. Proof. lia. Qed.

(** C02 *)
Theorem C02_jitter_in_range : forall (L : Libm) (R g : Z), 0 <= R -> 2 * R <= 2147483647 ->
  exists v, i4_unif_ab (A := B64 L) (- R) R g = OK (v, lcg g) /\ - R <= v <= R.
Proof. exact i4_unif_ab_b64. Qed.
Print Assumptions C02_jitter_in_range.
Example C02_case : 0 <= 5 /\ 2 * 5 <= 2147483647. Proof. lia. Qed.

(** C03.  [B2R] is the real value of a finite double. *)
Theorem C03_uniform_draw_in_range : forall (L : Libm) (lo hi : b64) (g : Z),
  is_finite lo = true -> is_finite hi = true -> (B2R lo <= B2R hi)%R ->
  is_finite (Bminus mode_NE hi lo) = true ->
  is_finite (fst (r8_unif_ab (A := B64 L) lo hi g)) = true /\
  (B2R lo <= B2R (fst (r8_unif_ab (A := B64 L) lo hi g)) <= B2R hi)%R.
Proof. exact r8_unif_ab_b64. Qed.
Print Assumptions C03_uniform_draw_in_range.
Example C03_case : is_finite (bof (-20)) = true /\ is_finite (bof 20) = true /\
  (B2R (bof (-20)) <= B2R (bof 20))%R /\ is_finite (Bminus mode_NE (bof 20) (bof (-20))) = true.
Proof.
  split; [reflexivity|]. split; [reflexivity|]. split; [|reflexivity].
  destruct (bof_ok (-20) ltac:(simpl; lia)) as [-> _]. destruct (bof_ok 20 ltac:(simpl; lia)) as [-> _].
  apply IZR_le. lia.
Qed.

(** C04.  The lower end is drawn exactly when the uniform draw is 0. *)
Theorem C04_loguniform_draw_in_range : forall (a b : R) (g : Z), (0 < a < b)%R ->
  (a <= fst (r8_logunif_ab (A := RArith) a b g) < b)%R /\
  (fst (r8_logunif_ab (A := RArith) a b g) = a <-> fst (drand48 (A := RArith) g) = 0%R).
Proof.
  intros a b g H. destruct (r8_logunif_R a b g H) as [H1 H2]. split; [exact H1|].
  rewrite H2, drand48_R. split.
  - intros ->. unfold Rdiv. apply Rmult_0_l.
  - intros Z0. apply eq_IZR. apply (Rmult_eq_reg_r (/ IZR RMOD)).
    + rewrite Rmult_0_l. exact Z0.
    + apply Rinv_neq_0_compat. apply not_eq_sym, Rlt_not_eq, RMOD_pos.
Qed.
Print Assumptions C04_loguniform_draw_in_range.
Example C04_case : (0 < 1 < 30)%R. Proof. split; [apply Rlt_0_1|apply IZR_lt; lia]. Qed.

(** C05.  [rank_seed base n r] is the seed of rank r and [base_seed] the seed root starts from, both
    defined at the top of SeedRuns.v. *)
(** Distinct seeds and distinct generator states after any common number k of draws. *)
Theorem C05_streams_distinct : forall (base : Z) (n r q k : nat), Z.of_nat n <= 4294967296 ->
  (r < n)%nat -> (q < n)%nat -> r <> q ->
  rank_seed base n r <> rank_seed base n q /\
  Nat.iter k lcg (srand48 (rank_seed base n r)) <> Nat.iter k lcg (srand48 (rank_seed base n q)).
Proof. exact rank_seed_distinct. Qed.
Print Assumptions C05_streams_distinct.
Example C05_case : Z.of_nat 4 <= 4294967296 /\ (0 < 4)%nat /\ (3 < 4)%nat /\ 0%nat <> 3%nat. Proof. lia. Qed.

(** These are the seeds the program uses: in every complete execution init.randseed holds one line
    per rank with that rank's seed (printed as an int), and the initial parameter set of rank r is
    what init_parm_set draws from that seed. *)
Theorem C05_ranks_use_those_seeds : forall A (S : Setup A), Legal S ->
  forall k tr X, execution S k tr X -> complete S X ->
  Permutation (file FSeed tr)
    (map (fun r => EvSeed r (u2i (rank_seed (base_seed S) (s_n S) r))) (seq 0 (s_n S))) /\
  file FInit tr =
    [EvInit (map (fun r => fst (u_init (s_user S) (rank_seed (base_seed S) (s_n S) r))) (seq 0 (s_n S)))].
Proof. exact run_seeds. Qed.
Print Assumptions C05_ranks_use_those_seeds.
Example C05_case2 : forall L, Legal (demo L). Proof. exact demo_legal. Qed.

(** C07 is false of the code: drawing in [-1,1], the middle value is produced by twice as many
    generator states as either end. *)
Theorem C07_jitter_uniform_refuted : forall L : Libm,
  count (hits L (-1) 1 (-1)) = 2 ^ 46 /\ count (hits L (-1) 1 0) = 2 ^ 47 /\ count (hits L (-1) 1 1) = 2 ^ 46.
Proof. exact jitter_counts. Qed.
Print Assumptions C07_jitter_uniform_refuted.
