(** Properties C64 and C65: the random numbers of a rank do not repeat; the ranks do not share them. *)
From Coq Require Import ZArith Arith List Bool Lia.
From Verif Require Import Base Arith B64 Rand Mh Ladder Tune Mpi MpiMeta Spmd Prog Seq ListAux MhSpec SeqWf Refine
  SeqTotal System UserModels Demo Runs SeqFiles History Views RunHist Seeds SeedRuns LadderRuns Streams DrawRuns CountLemmas.
Import ListNotations.
Open Scope Z_scope.

(** ** C64 *)
(** The generator of srand48/drand48 comes back to a state after 2^48 draws and not before. *)
Theorem C64_period : forall base n r i j, (i <= j)%nat ->
  (stream base n r i = stream base n r j <-> exists m, Z.of_nat j - Z.of_nat i = m * 2 ^ 48).
Proof.
  intros base n r i j H. unfold stream. replace j with ((j - i) + i)%nat by lia. rewrite iter_plus.
  set (x := Nat.iter i lcg _). assert (Hx : 0 <= x < RMOD) by (apply iter_range; apply srand48_range).
  replace (Z.of_nat (j - i + i) - Z.of_nat i) with (Z.of_nat (j - i)) by lia.
  pose proof (lcg_period (j - i) x Hx) as P. change RMOD with (2 ^ 48) in P. split.
  - intros E. apply P. auto.
  - intros D. symmetry. apply P. exact D.
Qed.
Print Assumptions C64_period.

(** how many numbers a rank draws: b0 for its initial vector; per iteration two per parameter and one
    (mh); per batch one for its length, and up to three per exchange round; per tuning of a rank
    N_parm trials and one choice *)
Definition most_draws {A} (S : Setup A) (b0 : Z) : Z :=
  let c := s_cfg S in
  b0 + (2 * N_parm c + 1 + (1 + 3 * Z.max 0 (N_swap c))) * N_iter c
  + Z.of_nat (s_n S) * (N_parm c * ((2 * N_parm c + 1) * n_iter_in_tune c) + 1)
    * ((N_iter c + n_iter_a_stack c - 1) / n_iter_a_stack c).

(** Every state of every history: the generator of rank r is in its stream, not farther than that; and
    if that is below 2^48, no state of the generator came twice. *)
Theorem C64_run : forall A (S : Setup A), Legal S -> forall b0,
  (forall seed, exists k, Z.of_nat k <= b0 /\ snd (u_init (s_user S) seed) = Nat.iter k lcg (srand48 seed)) ->
  forall D G0 h Gf, history S D G0 h Gf -> forall G, In G (LadderRuns.states G0 h Gf) -> forall r, (r < s_n S)%nat ->
  exists k, Z.of_nat k <= most_draws S b0 /\ l_g (loc_at G r) = stream (base_seed S) (s_n S) r k /\
    (most_draws S b0 < 2 ^ 48 -> forall i j, (i < j <= k)%nat -> stream (base_seed S) (s_n S) r i <> stream (base_seed S) (s_n S) r j).
Proof.
  intros A S HL b0 HI D G0 h Gf HH G HG r Hr.
  destruct (run_draws S HL D b0 HI _ _ _ HH G HG r Hr) as [k [Hk Ek]]. exists k.
  assert (EB : draw_bound S b0 = most_draws S b0).
  { unfold draw_bound, run_bound, left_stacks, most_draws, per_iter, per_batch, per_tune, per_iter, zn. cbn zeta.
    rewrite !Z.sub_0_r. lia. }
  rewrite EB in Hk. split; [exact Hk|]. split; [exact Ek|]. intros HB i j Hij E.
  apply (C64_period _ _ _ i j) in E; [|lia]. destruct E as [m E].
  assert (0 < m) by nia. nia.
Qed.
Print Assumptions C64_run.

(** the shipped models draw at most two numbers per parameter for the initial vector *)
Theorem C64_initial : forall (A : Arith) ds box seed, exists k,
  Z.of_nat k <= 2 * Z.of_nat (length ds) /\ snd (init_parm_set (A := A) ds box seed) = Nat.iter k lcg (srand48 seed).
Proof. exact init_adv. Qed.
Print Assumptions C64_initial.

(** the shipped regression configuration with four ranks: at most 11120326 draws *)
Example C64_case : forall L, Legal (demo L) /\
  (forall seed, exists k, Z.of_nat k <= 6 /\ snd (u_init (s_user (demo L)) seed) = Nat.iter k lcg (srand48 seed)) /\
  most_draws (demo L) 6 = 11120326.
Proof.
  intros L. split; [apply demo_legal|]. split; [|vm_compute; reflexivity].
  intros seed. change 6 with (2 * Z.of_nat (length [DUnif (A := B64 L); DUnif; DLogUnif])). apply init_adv.
Qed.

(** ** C65 *)
(** At the same position, the states of two ranks differ by a power of the multiplier times the difference
    of their seeds, whatever the seed of the run; and this difference repeats after 2^30 draws. *)
Theorem C65_difference : forall base n r q k,
  (stream base n r k - stream base n q k) mod 2 ^ 48 = (25214903917 ^ Z.of_nat k * 65536 * (place n r - place n q)) mod 2 ^ 48 /\
  forall m, Z.of_nat m = 2 ^ 30 ->
  (stream base n r (k + m) - stream base n q (k + m)) mod 2 ^ 48 = (stream base n r k - stream base n q k) mod 2 ^ 48.
Proof. intros base n r q k. split; [exact (stream_diff base n r q k)|]. exact (stream_diff_period base n r q k). Qed.
Print Assumptions C65_difference.

(** two ranks in the same state: then one is ahead by a multiple of 65536 draws, and by one that their
    places in the sequence of seeds determine modulo 2^34 *)
Theorem C65_offset : forall base n r q i j, stream base n r i = stream base n q j -> (j <= i)%nat ->
  exists o, Z.of_nat i - Z.of_nat j = 65536 * o /\ 0 <= o /\ (2 ^ 18 | o - 172369 * (place n q - place n r)).
Proof. exact overlap_offset. Qed.
Print Assumptions C65_offset.

(** Up to 73 ranks, whatever the seed: no state of one rank within its first 234487808 draws is a state of
    another rank within its own. *)
Theorem C65_no_overlap : forall base n r q i j, (n <= 73)%nat -> (r < n)%nat -> (q < n)%nat -> r <> q ->
  Z.of_nat i < 234487808 -> Z.of_nat j < 234487808 -> stream base n r i <> stream base n q j.
Proof. exact no_overlap. Qed.
Print Assumptions C65_no_overlap.

(** Along whole runs: no generator state that rank r went through up to some moment is one that another
    rank went through up to the same or any other moment. *)
Theorem C65_run : forall A (S : Setup A), Legal S -> forall b0,
  (forall seed, exists k, Z.of_nat k <= b0 /\ snd (u_init (s_user S) seed) = Nat.iter k lcg (srand48 seed)) ->
  (s_n S <= 73)%nat -> most_draws S b0 < 234487808 ->
  forall D G0 h Gf, history S D G0 h Gf -> forall G G', In G (LadderRuns.states G0 h Gf) -> In G' (LadderRuns.states G0 h Gf) ->
  forall r q, (r < s_n S)%nat -> (q < s_n S)%nat -> r <> q ->
  exists k m, l_g (loc_at G r) = stream (base_seed S) (s_n S) r k /\ l_g (loc_at G' q) = stream (base_seed S) (s_n S) q m /\
    forall i j, (i <= k)%nat -> (j <= m)%nat -> stream (base_seed S) (s_n S) r i <> stream (base_seed S) (s_n S) q j.
Proof.
  intros A S HL b0 HI H73 HB D G0 h Gf HH G G' HG HG' r q Hr Hq Hne.
  destruct (C64_run A S HL b0 HI _ _ _ _ HH G HG r Hr) as [k [Hk [Ek _]]].
  destruct (C64_run A S HL b0 HI _ _ _ _ HH G' HG' q Hq) as [m [Hm [Em _]]].
  exists k, m. split; [auto|]. split; [auto|]. intros i j Hi Hj. apply no_overlap; auto; lia.
Qed.
Print Assumptions C65_run.

(** With 74 ranks the bound is false: for the seed 11987, rank 1 after 1638400 more draws is where root is,
    and stays so. *)
Theorem C65_overlap_refuted : exists base n r q i, (r < n)%nat /\ (q < n)%nat /\ r <> q /\ Z.of_nat i = 1638400 /\
  forall m, stream base n r (m + i) = stream base n q m.
Proof.
  destruct (Z_of_nat_complete 1638400 ltac:(lia)) as [i Hi].
  exists 11987, 74%nat, 1%nat, 0%nat, i. split; [lia|]. split; [lia|]. split; [discriminate|]. split; [symmetry; exact Hi|].
  intros m. apply overlap_74. symmetry. exact Hi.
Qed.
Print Assumptions C65_overlap_refuted.

Example C65_case : forall L, exists D G0 h Gf, history (demo L) D G0 h Gf /\ (s_n (demo L) <= 73)%nat /\ most_draws (demo L) 6 < 234487808.
Proof.
  intros L. destruct (history_exists (demo L) (demo_legal L)) as [D [G0 [h [Gf HH]]]]. exists D, G0, h, Gf. split; [exact HH|].
  split; [cbn; lia|]. destruct (C64_case L) as [_ [_ ->]]. reflexivity.
Qed.
