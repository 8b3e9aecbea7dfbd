(** Property C85: the number of ranks and the number of betas. *)
From Coq Require Import ZArith Arith List Bool Lia Reals Lra.
From Verif Require Import Base Arith B64 Rand Mh Ladder Tune Mpi MpiMeta Spmd Prog Seq ListAux MhSpec SeqWf Refine
  SeqTotal System Demo Runs SeedRuns History Views RunHist FailRuns OneRank SwapLemmas LadderReal LadderOrder LadderRuns LadderN CountLemmas SeqFiles HistCount HistRows PropLadder PropSwap RankBeta.
Import ListNotations.
Open Scope Z_scope.

(** C85.  More ranks than Beta_Values has entries: the first rank without one reads behind the array
    when the first log posteriors are computed (mpi_init.c:156, 191), and no execution ends. *)
Theorem C85_more : forall A (S : Setup A), Legal S -> forall n, (length (Beta_Values (s_cfg S)) < n)%nat ->
  fails (with_ranks S n) OutOfBounds.
Proof. exact more_fails. Qed.
Print Assumptions C85_more.

Example C85_more_case : forall L, fails (with_ranks (demo L) 5) OutOfBounds.
Proof. intros L. apply C85_more; [apply demo_legal|cbn; lia]. Qed.

(** Fewer ranks than betas: the run is a legal one that can be carried to its end, nothing stops it, and
    its ladder consists of as many betas as there are ranks; the last rank has the beta that stands at its
    own place of the input file, whatever stands behind it. *)
Theorem C85_fewer : forall A (S : Setup A), Legal S -> forall n, (2 <= n <= s_n S)%nat ->
  (exists k tr X, execution (with_ranks S n) k tr X /\ complete (with_ranks S n) X) /\
  (forall e, ~ fails (with_ranks S n) e) /\
  (forall D G0 h Gf, history (with_ranks S n) D G0 h Gf -> forall G, In G (states G0 h Gf) ->
     exists b, length b = n /\ (forall r, (r < n)%nat -> l_beta (loc_at G r) = b) /\
       nth_error b 0 = nth_error (Beta_Values (s_cfg S)) 0 /\
       nth_error b (n - 1) = nth_error (Beta_Values (s_cfg S)) (n - 1)) /\
  (Tune_Ladder (s_cfg S) <= 0 -> forall D, dataset (with_ranks S n) D ->
     forall k tr X, execution (with_ranks S n) k tr X -> forall r, (r < n)%nat ->
     forall ev, In ev (file (FChain r) tr) -> exists q, ev = EvRow r q /\
       r_lp q = logpost_at (s_user S) D (r_parm q) (nth r (Beta_Values (s_cfg S)) (nof 0))).
Proof.
  intros A S HL n Hn. pose proof (fewer_legal A S HL n Hn) as HL'.
  destruct (legal_completes A (with_ranks S n) HL') as [k [tr [X [HE HC]]]].
  split; [exists k, tr, X; auto|]. split; [intros e [_ HF]; exact (HF k tr X HE HC)|]. split.
  - intros D G0 h Gf HH G HG. exact (C26_ends A (with_ranks S n) HL' D G0 h Gf HH G HG).
  - intros HT D HD k' tr' X' HE' r Hr ev Hev. exact (C24_rows A (with_ranks S n) HL' HT D HD k' tr' X' HE' r Hr ev Hev).
Qed.
Print Assumptions C85_fewer.

Example C85_fewer_case : forall L, Legal (demo L) /\ (2 <= 3 <= s_n (demo L))%nat.
Proof. intros L. split; [apply demo_legal|cbn; lia]. Qed.

(** So a mismatch is not always noticed, and it can take away the chain the user wants: the shipped
    regression settings with their betas 0.001, 0.01, 0.1, 1 run to the end with three ranks, and in no
    state does any rank have a beta above 1/10. *)
Theorem C85_cold_refuted : exists S : Setup NArith, Legal S /\
  Beta_Values (s_cfg S) = [Some (1 / 1000)%R; Some (1 / 100)%R; Some (1 / 10)%R; Some 1%R] /\
  (exists k tr X, execution (with_ranks S 3) k tr X /\ complete (with_ranks S 3) X) /\
  forall D G0 h Gf, history (with_ranks S 3) D G0 h Gf -> forall G, In G (states G0 h Gf) ->
    forall r, (r < 3)%nat -> forall b, In b (l_beta (loc_at G r)) -> exists v, b = Some v /\ (v <= 1 / 10)%R.
Proof.
  assert (EB : Beta_Values (s_cfg demoN) = [Some (1 / 1000)%R; Some (1 / 100)%R; Some (1 / 10)%R; Some 1%R]).
  { cbn [Beta_Values s_cfg demoN demo_cfg]. rewrite !nlit_some by lia. reflexivity. }
  assert (HL' : Legal (with_ranks demoN 3)) by (apply fewer_legal; [apply demoN_legal|cbn; lia]).
  exists demoN. split; [apply demoN_legal|]. split; [exact EB|]. split; [apply legal_completes; exact HL'|].
  intros D G0 h Gf HH G HG r Hr b Hb.
  destruct (C28_run (with_ranks demoN 3) HL' (2 / 10)%R (1 / 10)%R) with (b0 := (1 / 1000)%R) (b1 := (1 / 100)%R) (b2 := (1 / 10)%R)
    (D := D) (G0 := G0) (h := h) (Gf := Gf) (G := G) (r := r) as [c [E Hc]]; auto; try lra.
  - exact (proj1 three_scale).
  - exact (proj2 three_scale).
  - cbn [s_cfg with_ranks]. rewrite EB. reflexivity.
  - rewrite E in Hb. destruct Hb as [<-|[<-|[<-|[]]]]; eexists; (split; [reflexivity|lra]).
Qed.
Print Assumptions C85_cold_refuted.
