(** Property C86: a results directory that cannot be made. *)
From Coq Require Import ZArith Arith List Bool Lia Permutation Classical.
From Verif Require Import Base Arith B64 Rand Mh Mpi MpiMeta Spmd Prog Seq SeqTotal System Demo Runs SchedLemmas SeedRuns CountLemmas PropSched SeqFiles MhSpec SeqWf Refine Faults PropFault NoDir.
Import ListNotations.
Local Open Scope nat_scope.

(** C86.  [fruns], [f_dead]: see C71.  A run in which no result file can be opened is one whose trace holds
    no record but the attempt to make the directory.  Every such run is bounded, and as long as not all
    ranks have left through exit(3) some rank can do something, again without opening a file: whatever the
    schedule and the buffering, all ranks leave, none waits for ever. *)
Theorem C86_all_leave : forall A (S : Setup A), Legal S -> exists N, forall k F, fruns S k (f_start S) F ->
  (forall x, In x (f_tr F) -> snd x = EvDir) ->
  k <= N /\ ((forall r, r < s_n S -> f_dead F r = true) \/
             exists F', fstep S F F' /\ forall x, In x (f_tr F') -> snd x = EvDir).
Proof. exact @no_directory. Qed.
Print Assumptions C86_all_leave.

(** Of such a run nothing is left but at most one attempt of root to make the directory. *)
Theorem C86_trace : forall A (S : Setup A), Legal S -> forall k F, fruns S k (f_start S) F ->
  (forall x, In x (f_tr F) -> snd x = EvDir) -> f_tr F = [] \/ f_tr F = [(0, EvDir)].
Proof.
  intros A S HL k F HF HT. destruct (faulty_exec S k F HF) as [_ [j [HE _]]].
  destruct (f_tr F) as [|x t] eqn:E; [auto|]. right.
  destruct (C41_directory_first A S HL _ _ _ HE ltac:(discriminate)) as [tr' [E1 E2]]. injection E1 as -> ->.
  destruct tr' as [|[q e] t']; [auto|]. exfalso. apply (E2 q). left. f_equal.
  exact (HT (q, e) ltac:(right; left; reflexivity)).
Qed.
Print Assumptions C86_trace.

(** There are such runs, and they come to that end. *)
Theorem C86_reached : forall A (S : Setup A), Legal S -> exists k F, fruns S k (f_start S) F /\
  (forall x, In x (f_tr F) -> snd x = EvDir) /\ forall r, r < s_n S -> f_dead F r = true.
Proof.
  intros A S HL. destruct (C86_all_leave A S HL) as [N HN].
  assert (K : forall m k F, N - k <= m -> fruns S k (f_start S) F -> (forall x, In x (f_tr F) -> snd x = EvDir) ->
    exists k F, fruns S k (f_start S) F /\ (forall x, In x (f_tr F) -> snd x = EvDir) /\ forall r, r < s_n S -> f_dead F r = true).
  { induction m as [|m IH]; intros k F Hm HF HT; destruct (HN k F HF HT) as [Hk [HA|[F' [Hs HT']]]]; try (exists k, F; auto; fail).
    - destruct (HN _ _ (fr_step _ _ _ _ _ HF Hs) HT') as [Hk' _]. lia.
    - destruct (HN _ _ (fr_step _ _ _ _ _ HF Hs) HT') as [Hk' _]. eapply (IH (Datatypes.S k) F'); [lia| |exact HT'].
      econstructor; eauto. }
  apply (K N 0 (f_start S)); [lia|constructor|intros x []].
Qed.
Print Assumptions C86_reached.

(** a run in which no further rank leaves comes to a state in which none can move *)
Lemma wait_for_ever : forall A (S : Setup A), Legal S -> forall k F, fruns S k (f_start S) F ->
  exists j F', fruns S j F F' /\ f_dead F' = f_dead F /\ stuck S F'.
Proof.
  intros A S HL. destruct (faulty_bound S HL) as [N HN].
  assert (K : forall m k F, N - k <= m -> fruns S k (f_start S) F -> exists j F', fruns S j F F' /\ f_dead F' = f_dead F /\ stuck S F').
  { induction m as [|m IH]; intros k F Hm HF;
      (destruct (classic (exists F1, fstep S F F1 /\ f_dead F1 = f_dead F)) as [[F1 [Hs Hd]]|Hno];
       [pose proof (fr_step _ _ _ _ _ HF Hs) as H1; pose proof (HN _ _ H1)|]).
    - lia.
    - exists 0, F. split; [constructor|]. split; auto. intros F' Hs. destruct Hs.
      + apply Hno. eexists. split; [eapply f_move; eauto|reflexivity].
      + apply Hno. exists (mkF (tr ++ [(r, e)]) (mkCfg (upd (pr X) r q) (ch X) (upd (lg X) r (lg X r ++ [e]))) dead). split; [|reflexivity].
        apply f_move; auto.
        * apply (m_eager _ _ _ _ (LRank r)). unfold bstep. rewrite (proj2 (Nat.ltb_lt _ _) H), H0. reflexivity.
        * intros s Hds. cbn [pr]. apply upd_ne. intros ->. congruence.
        * intros s. cbn [lg]. rewrite gproj_cons. unfold upd. destruct (Nat.eqb_spec s r) as [->|Ne].
          -- rewrite Nat.eqb_refl. reflexivity.
          -- destruct (Nat.eqb_spec r s); [congruence|]. cbn. symmetry. apply app_nil_r.
    - destruct (IH (Datatypes.S k) F1 ltac:(lia) H1) as [j [F' [R [D St]]]]. exists (1 + j), F'. split; [|split; [congruence|auto]].
      eapply fruns_trans; [|exact R]. eapply fr_step; [apply fr_refl|exact Hs].
    - exists 0, F. split; [constructor|]. split; auto. intros F' Hs. destruct Hs.
      + apply Hno. eexists. split; [eapply f_move; eauto|reflexivity].
      + apply Hno. exists (mkF (tr ++ [(r, e)]) (mkCfg (upd (pr X) r q) (ch X) (upd (lg X) r (lg X r ++ [e]))) dead). split; [|reflexivity].
        apply f_move; auto.
        * apply (m_eager _ _ _ _ (LRank r)). unfold bstep. rewrite (proj2 (Nat.ltb_lt _ _) H), H0. reflexivity.
        * intros s Hds. cbn [pr]. apply upd_ne. intros ->. congruence.
        * intros s. cbn [lg]. rewrite gproj_cons. unfold upd. destruct (Nat.eqb_spec s r) as [->|Ne].
          -- rewrite Nat.eqb_refl. reflexivity.
          -- destruct (Nat.eqb_spec r s); [congruence|]. cbn. symmetry. apply app_nil_r. }
  intros k F HF. apply (K N k F); [lia|exact HF].
Qed.

(** It is not so when some files can be opened: if rank 1 alone cannot write its first record (the seed),
    the others can come to a state in which they wait for ever and none of them has left or returned. *)
Theorem C86_some_file_refuted : forall A (S : Setup A), Legal S -> exists j F, fruns S j (f_start S) F /\
  f_dead F 1 = true /\ (forall r, r <> 1 -> f_dead F r = false) /\ stuck S F /\
  forall r x, r < s_n S -> pr (f_X F) r <> Ret x.
Proof.
  intros A S HL. pose proof HL as [_ [VC _]]. pose proof (vc_n _ _ VC) as Hn.
  destruct (legal_completes A S HL) as [k [tr [X [HE HC]]]].
  pose proof (proj1 (SeedRuns.run_seeds _ _ HL _ _ _ HE HC)) as P.
  assert (I : In (1, EvSeed 1 (u2i (rank_seed (base_seed S) (s_n S) 1))) tr).
  { assert (J : In (EvSeed 1 (u2i (rank_seed (base_seed S) (s_n S) 1))) (file FSeed tr)).
    { eapply Permutation_in; [apply Permutation_sym; exact P|]. apply (in_map (fun r => EvSeed r (u2i (rank_seed (base_seed S) (s_n S) r)))). apply in_seq. lia. }
    unfold file in J. apply filter_In in J. destruct J as [J _]. apply in_map_iff in J. destruct J as [[q e] [E J]]. cbn [snd] in E. subst e.
    destruct (reference_ok _ HL) as [G [t HR]]. destruct (legal_files _ HL _ _ _ HE HC G t HR) as [PT _].
    pose proof (owned_perm _ _ _ PT (seq_main_owned _ _ _ _ _ (proj1 (proj2 HL)) G t HR)) as Ho. destruct (Ho _ _ J) as [Hq _]. change (1 = q) in Hq. subst; auto. }
  apply in_split in I. destruct I as [a [b E]].
  destruct (can_fail_at S _ _ _ HE a 1 _ b E ltac:(lia) ltac:(discriminate)) as [j [F [H1 [_ [H3 H4]]]]].
  destruct (wait_for_ever A S HL j F H1) as [i [F' [R [D St]]]]. exists (j + i), F'.
  assert (HF : fruns S (j + i) (f_start S) F') by (eapply fruns_trans; eauto).
  split; [exact HF|]. rewrite D. split; [exact H3|]. split; [exact H4|]. split; [exact St|].
  intros r x Hr. apply (C71_no_success A S HL _ _ HF 1); [rewrite D; exact H3|exact Hr].
Qed.
Print Assumptions C86_some_file_refuted.

(** the hypotheses are met by the shipped regression settings *)
Example C86_case : forall L, exists k F, fruns (demo L) k (f_start (demo L)) F /\ (forall x, In x (f_tr F) -> snd x = EvDir) /\
  f_dead F 0 = true /\ f_dead F 3 = true.
Proof.
  intros L. destruct (C86_reached _ _ (demo_legal L)) as [k [F [H1 [H2 H3]]]]. exists k, F.
  repeat split; auto; apply H3; cbn; lia.
Qed.
