(** Properties C38-C43: schedules, deadlock, determinism, files. *)
From Coq Require Import ZArith Arith List Bool Lia Permutation.
From Verif Require Import Base Arith B64 Rand Mh Mpi Prog Seq SeqTotal System Runs SeedRuns SchedLemmas.
Import ListNotations.
Open Scope Z_scope.

(** All theorems hold for every arithmetic, configuration, user model, number of ranks >= 2, data
    and clock within the limits [Legal], and for every execution, i.e. every interleaving and every
    choice of buffered or rendezvous completion of each MPI_Send / MPI_Bcast. *)
Example legal_case : forall L, Legal (demo L). Proof. exact demo_legal. Qed.
Example legal_case_real : Legal demoR. Proof. exact demoR_legal. Qed.

(** C38.  There is a bound N on the number of steps of any execution; in every reachable state
    either all ranks have finished or some rank can move without any buffer space ([can_step]); and
    every reachable state can be continued to a complete one. *)
Theorem C38_no_deadlock : forall A (S : Setup A), Legal S ->
  exists N, forall k tr X, execution S k tr X ->
    (k <= N)%nat /\ (complete S X \/ can_step S X) /\
    exists k' tr' Y, mrun (s_n S) X k' tr' Y /\ complete S Y.
Proof. exact @no_deadlock. Qed.
Print Assumptions C38_no_deadlock.

(** C39.  Two complete executions leave the same contents in every chain file, width file, the beta
    file and init.parm, and these are the contents the sequential reference writes. *)
Theorem C39_schedule_independent : forall A (S : Setup A), Legal S ->
  forall k1 tr1 X1 k2 tr2 X2, execution S k1 tr1 X1 -> complete S X1 -> execution S k2 tr2 X2 -> complete S X2 ->
  forall f, f <> FSeed -> file f tr1 = file f tr2.
Proof. intros. eapply two_runs_same; eauto. Qed.
Print Assumptions C39_schedule_independent.

Theorem C39_equals_reference : forall A (S : Setup A), Legal S ->
  forall k tr X, execution S k tr X -> complete S X ->
  exists G t, reference S = OK (G, t) /\ forall f, f <> FSeed -> file f tr = file f t.
Proof. exact @equals_reference. Qed.
Print Assumptions C39_equals_reference.

(** C40.  The set of lines of init.randseed is fixed ... *)
Theorem C40_seed_lines_fixed : forall A (S : Setup A), Legal S ->
  forall k1 tr1 X1 k2 tr2 X2, execution S k1 tr1 X1 -> complete S X1 -> execution S k2 tr2 X2 -> complete S X2 ->
  Permutation (file FSeed tr1) (file FSeed tr2).
Proof. intros. eapply two_runs_same; eauto. Qed.
Print Assumptions C40_seed_lines_fixed.

(** ... their order is not: for every legal setup two complete executions differ. *)
Theorem C40_seed_order_refuted : forall A (S : Setup A), Legal S ->
  exists k1 tr1 X1 k2 tr2 X2,
    execution S k1 tr1 X1 /\ complete S X1 /\ execution S k2 tr2 X2 /\ complete S X2 /\
    file FSeed tr1 <> file FSeed tr2.
Proof. exact @seed_order_differs. Qed.
Print Assumptions C40_seed_order_refuted.

(** C41.  The first thing that reaches the disk is root's mkdir, and it happens once. *)
Theorem C41_directory_first : forall A (S : Setup A), Legal S ->
  forall k tr X, execution S k tr X -> tr <> [] ->
  exists tr', tr = (0%nat, EvDir) :: tr' /\ forall q, ~ In (q, EvDir) tr'.
Proof. exact @directory_first. Qed.
Print Assumptions C41_directory_first.

(** C42.  Stop any execution anywhere: every file (other than the shared init.randseed) holds a
    prefix of what a complete execution leaves; init.randseed holds some of its lines, none twice
    (together with the missing ones they are the full set, one line per rank). *)
Theorem C42_crash_prefix : forall A (S : Setup A), Legal S ->
  forall k tr X, execution S k tr X ->
  forall k' tr' X', execution S k' tr' X' -> complete S X' ->
  forall f, f <> FSeed -> exists rest, file f tr' = file f tr ++ rest.
Proof. exact @prefix_of_full. Qed.
Print Assumptions C42_crash_prefix.

Theorem C42_crash_seed_lines : forall A (S : Setup A), Legal S ->
  forall k tr X, execution S k tr X ->
  exists rest, Permutation (file FSeed tr ++ rest)
    (map (fun r => EvSeed r (u2i (rank_seed (base_seed S) (s_n S) r))) (seq 0 (s_n S))).
Proof. exact @seed_sub. Qed.
Print Assumptions C42_crash_seed_lines.

(** C43.  No rank ever fails (a receive of another type or length, an access outside an array, an
    uninitialised read, an overflow would be [Fail]), and when all have returned every queue is
    empty. *)
Theorem C43_messages_matched : forall A (S : Setup A), Legal S ->
  forall k tr X, execution S k tr X ->
  (forall r e, (r < s_n S)%nat -> pr X r <> Fail e) /\
  (complete S X -> forall s d t, ch X s d t = []).
Proof. exact @messages_matched. Qed.
Print Assumptions C43_messages_matched.
