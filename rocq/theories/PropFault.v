(** Property C71: a result file that cannot be opened. *)
From Coq Require Import ZArith Arith List Bool Lia Permutation.
From Verif Require Import Base Arith B64 Rand Mh Mpi Prog Seq SeqTotal System Runs CountLemmas SeedRuns SchedLemmas PropSched.
From Verif Require Import Faults.
Import ListNotations.
Local Open Scope nat_scope.

(** [fruns S k (f_start S) F]: some schedule takes the program in k steps to F, where any rank may at
    any append find the file it needs unopenable and leave through exit(3) ([f_dead]); the other ranks
    go on, and messages to a rank that has left may still be buffered. *)

(** Whatever fails and whenever: every file (other than init.randseed) holds a prefix of what an
    undisturbed run leaves, init.randseed some of its lines. *)
Theorem C71_prefix : forall A (S : Setup A), Legal S -> forall k F, fruns S k (f_start S) F ->
  (forall k' tr' X', execution S k' tr' X' -> complete S X' ->
     forall f, f <> FSeed -> exists rest, file f tr' = file f (f_tr F) ++ rest) /\
  exists rest, Permutation (file FSeed (f_tr F) ++ rest)
    (map (fun r => EvSeed r (u2i (rank_seed (base_seed S) (s_n S) r))) (seq 0 (s_n S))).
Proof.
  intros A S HL k F H. destruct (faulty_exec S k F H) as [_ [j [HE _]]]. split.
  - intros. eapply C42_crash_prefix; eauto.
  - eapply C42_crash_seed_lines; eauto.
Qed.
Print Assumptions C71_prefix.

(** A rank that has left writes nothing more, and does not come back. *)
Theorem C71_silent : forall A (S : Setup A), Legal S -> forall k F, fruns S k (f_start S) F ->
  forall r, f_dead F r = true -> forall j F', fruns S j F F' ->
  f_dead F' r = true /\ map snd (filter (fun x => Nat.eqb (fst x) r) (f_tr F')) = map snd (filter (fun x => Nat.eqb (fst x) r) (f_tr F)).
Proof.
  intros A S HL k F H r Hr j F' H'. split; [eapply dead_stays; eauto|]. exact (dead_silent S _ _ _ H' r Hr).
Qed.
Print Assumptions C71_silent.

(** When a rank has left, no rank ever returns from main: the failure cannot pass for a completed
    run in any rank. *)
Theorem C71_no_success : forall A (S : Setup A), Legal S -> forall k F, fruns S k (f_start S) F ->
  forall r, f_dead F r = true -> forall q, (q < s_n S) -> forall x, pr (f_X F) q <> Ret x.
Proof. exact @no_success. Qed.
Print Assumptions C71_no_success.

(** Returns are all or nothing also without failures: one rank returning means that all have. *)
Theorem C71_together : forall A (S : Setup A), Legal S -> forall k tr X, execution S k tr X ->
  forall q x, (q < s_n S) -> pr X q = Ret x -> complete S X.
Proof. intros A S HL k tr X HE q x Hq E. eapply return_together; eauto. exists x; auto. Qed.
Print Assumptions C71_together.

(** But the failure does not end the run: whichever record of whichever run fails (the directory
    aside), the other ranks can only come to a state in which none of them can move and none has
    returned - they wait for the missing rank for ever, unless the MPI launcher kills them. *)
Theorem C71_terminates_refuted : forall A (S : Setup A), Legal S ->
  forall k tr X, execution S k tr X -> forall a r e b, tr = a ++ (r, e) :: b -> (r < s_n S) -> e <> EvDir ->
  exists j F, fruns S j (f_start S) F /\ f_tr F = a /\ f_dead F r = true /\ (forall q, q <> r -> f_dead F q = false) /\
    (exists N, forall i F', fruns S i F F' -> (i <= N)) /\
    (forall i F', fruns S i F F' -> forall q x, (q < s_n S) -> pr (f_X F') q <> Ret x) /\
    exists i F', fruns S i F F' /\ stuck S F' /\ f_dead F' r = true.
Proof.
  intros A S HL k tr X HE a r e b E Hr He. destruct (can_fail_at S _ _ _ HE a r e b E Hr He) as [j [F [H1 [H2 [H3 H4]]]]].
  exists j, F. repeat (split; [assumption|]). split; [|split].
  - destruct (faulty_bound S HL) as [N HN]. exists N. intros i F' Hi. pose proof (HN _ _ (fruns_trans S _ _ _ H1 _ _ Hi)). lia.
  - intros i F' Hi q x Hq. eapply (no_success S HL _ F' (fruns_trans S _ _ _ H1 _ _ Hi) r); eauto. eapply dead_stays; eauto.
  - destruct (reaches_stuck S HL _ _ H1) as [i [F' [Hi St]]]. exists i, F'. split; [auto|]. split; [auto|]. eapply dead_stays; eauto.
Qed.
Print Assumptions C71_terminates_refuted.

(** Every run has such records: in the demo setup rank 2 can fail at its first record, the seed line. *)
Example C71_case : forall L, exists j F, fruns (demo L) j (f_start (demo L)) F /\ f_dead F 2 = true /\ f_dead F 0 = false.
Proof.
  intros L. destruct (legal_completes _ _ (demo_legal L)) as [k [tr [X [HE HC]]]].
  pose proof (proj1 (SeedRuns.run_seeds _ _ (demo_legal L) _ _ _ HE HC)) as P.
  assert (I : In (2, EvSeed 2 (u2i (rank_seed (base_seed (demo L)) 4 2))) tr).
  { assert (J : In (EvSeed 2 (u2i (rank_seed (base_seed (demo L)) 4 2))) (file FSeed tr)).
    { eapply Permutation_in; [apply Permutation_sym; exact P|]. change (s_n (demo L)) with 4. cbn [seq map]. right; right; left; auto. }
    unfold file in J. apply filter_In in J. destruct J as [J _]. apply in_map_iff in J. destruct J as [[q e] [E J]]. cbn [snd] in E. subst e.
    destruct (reference_ok _ (demo_legal L)) as [G [t HR]]. destruct (legal_files _ (demo_legal L) _ _ _ HE HC G t HR) as [PT _].
    pose proof (owned_perm _ _ _ PT (seq_main_owned _ _ _ _ _ (proj1 (proj2 (demo_legal L))) G t HR)) as Ho. destruct (Ho _ _ J) as [Hq _]. change (2 = q) in Hq. subst; auto. }
  apply in_split in I. destruct I as [a [b E]].
  destruct (can_fail_at (demo L) _ _ _ HE a 2 _ b E ltac:(vm_compute; lia) ltac:(discriminate)) as [j [F [H1 [_ [H3 H4]]]]].
  exists j, F. auto.
Qed.
