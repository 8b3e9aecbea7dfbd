(** Properties C26 - C30 and C54: the temperature ladder. *)
From Coq Require Import ZArith Arith List Bool Reals Lia Lra.
From Verif Require Import Base Arith B64 Rand Mh Ladder Tune Mpi MpiMeta Spmd Prog Seq ListAux MhSpec SeqWf Refine
  SeqTotal System RandRange UserModels Demo Runs SeqFiles History Views RunHist HistCount HistRows SwapLemmas SwapReal ChainInv Stale
  BoxRuns LadderRuns LadderReal LadderOrder LadderBad SwapStats LadderN.
Import ListNotations.
Open Scope Z_scope.

(** C26.  In every state of every run, all ranks hold one and the same ladder, of n_ranks entries,
    whose first and last entries are those of Beta_Values. *)
Theorem C26_ends : forall A (S : Setup A), Legal S -> forall D G0 h Gf, history S D G0 h Gf ->
  forall G, In G (states G0 h Gf) -> exists b, length b = s_n S /\
    (forall r, (r < s_n S)%nat -> l_beta (loc_at G r) = b) /\
    nth_error b 0 = nth_error (Beta_Values (s_cfg S)) 0 /\
    nth_error b (s_n S - 1) = nth_error (Beta_Values (s_cfg S)) (s_n S - 1).
Proof. intros A S HL D G0 h Gf HH G HG. exact (ends_always S HL D G0 h Gf HH G HG). Qed.
Print Assumptions C26_ends.

(** Every record of the beta file has these ends, whatever has been written so far. *)
Theorem C26_file : forall A (S : Setup A), Legal S -> forall k tr X, execution S k tr X ->
  forall ev, In ev (file FBeta tr) -> exists b, ev = EvBeta b /\ length b = s_n S /\
    nth_error b 0 = nth_error (Beta_Values (s_cfg S)) 0 /\
    nth_error b (s_n S - 1) = nth_error (Beta_Values (s_cfg S)) (s_n S - 1).
Proof.
  intros A S HL k tr X HE ev Hev. destruct (history_exists S HL) as [D [G0 [h [Gf HH]]]].
  destruct (beta_file S HL D G0 h Gf HH k tr X HE) as [rest [E _]].
  assert (Hin : In ev (map (fun s => EvBeta (l_beta (loc_at (sr_in s) 0))) h)) by (rewrite E; apply in_or_app; auto).
  apply in_map_iff in Hin. destruct Hin as [s [<- Hs]].
  assert (HS : In (sr_in s) (states G0 h Gf)).
  { right. apply in_or_app. left. apply in_concat. exists (sstates s). split; [apply in_map; auto|left; auto]. }
  destruct (ends_always S HL D G0 h Gf HH _ HS) as [b [Lb [Hb [E1 E2]]]].
  exists b. pose proof HL as [_ [VC _]]. pose proof (vc_n _ _ VC). rewrite (Hb 0%nat) by lia. auto.
Qed.
Print Assumptions C26_file.

(** the ladder does move: after the first stack of a run with three ranks *)
Example C26_moves : forall L, l_pow L (bof 4) (nlit (A := B64 L) 5 1) = bof 2 ->
  exists D G0 h Gf s, history (flat L) D G0 h Gf /\ In s h /\ adapts (flat_cfg L) (sr_mid s) = true /\
    (l_beta (loc_at (sr_lad s) 1) = l_beta (loc_at (sr_in s) 1) -> False).
Proof.
  intros L HP. destruct (history_exists (flat L) (flat_legal L)) as [D [G0 [h [Gf HH]]]].
  destruct (flat_stale L HP D G0 h Gf HH) as [s [Hs [C1 [HA C2]]]]. exists D, G0, h, Gf, s. split; [auto|]. split; [auto|]. split; [auto|].
  intro E. apply C2. clear C2.
  destruct (ladder_stale (flat L) (flat_legal L) D G0 h Gf HH s Hs 1%nat ltac:(cbn; lia)) as [Ex [El Eb]].
  unfold cached_at in *. rewrite Ex, El. rewrite C1. f_equal.
  unfold beta_at in *. rewrite Eb, E. reflexivity.
Qed.

(** C27.  Exact reals with NaN for 0/0.  [counts m nsw npr]: the statistics are integers with
    0 <= swaps <= proposals (proposals may be 0).  For every number of ranks but 4, any number of
    adaptations of positive betas, with any statistics, gives positive betas. *)
Theorem C27_positive : forall sc zs m beta beta', (0 <= sc <= 1)%R -> (0 <= zs <= 1)%R -> (2 <= m)%nat -> m <> 4%nat ->
  length beta = m -> Forall pos beta -> adapted sc zs m beta beta' -> length beta' = m /\ Forall pos beta'.
Proof. exact adapted_pos. Qed.
Print Assumptions C27_positive.

(** One adaptation always succeeds; with 4 ranks it keeps positivity when the two inner betas are in order. *)
Theorem C27_one : forall sc zs m beta nsw npr, (0 <= sc <= 1)%R -> (0 <= zs <= 1)%R -> (2 <= m)%nat -> length beta = m ->
  Forall pos beta -> counts m nsw npr -> m <> 4%nat \/ (val (nth 1 beta None) <= val (nth 2 beta None))%R ->
  exists beta' : list (option R), tune_ladder (A := NArith) (Some sc) (Some zs) (Z.of_nat m) nsw npr beta = OK beta' /\
    length beta' = m /\ Forall pos beta'.
Proof. exact adapt_pos. Qed.
Print Assumptions C27_one.

(** Along whole runs of n <> 4 ranks over these numbers: every state of every rank. *)
Theorem C27_run : forall S : Setup NArith, Legal S -> forall sc zs,
  scale_tune_ladder (s_cfg S) = Some sc -> zero_stretch (s_cfg S) = Some zs ->
  (0 <= sc <= 1)%R -> (0 <= zs <= 1)%R -> (s_n S <> 4)%nat -> Forall pos (firstn (s_n S) (Beta_Values (s_cfg S))) ->
  forall D G0 h Gf, history S D G0 h Gf -> forall G, In G (states G0 h Gf) -> forall r, (r < s_n S)%nat ->
  length (l_beta (loc_at G r)) = s_n S /\ Forall pos (l_beta (loc_at G r)).
Proof. exact run_positive. Qed.
Print Assumptions C27_run.

(** four ranks: from an ordered positive ladder to a negative beta in four adaptations *)
Theorem C27_positive_refuted : exists sc zs b0 b1 b2 beta',
  (0 <= sc <= 1)%R /\ (0 <= zs <= 1)%R /\ (0 < b0)%R /\ (b0 < b1)%R /\ (b1 < b2)%R /\ (b2 < 1)%R /\
  adapted sc zs 4 (of_reals [b0; b1; b2; 1%R]) beta' /\
  exists k x, nth_error beta' k = Some (Some x) /\ (x < 0)%R.
Proof.
  exists 1%R, (1 / 10)%R, (1 / 25000)%R, (1 / 22500)%R, (24 / 25)%R. eexists.
  split; [lra|]. split; [lra|]. split; [lra|]. split; [lra|]. split; [lra|]. split; [lra|].
  assert (HC : forall s p, length s = 4%nat -> length p = 4%nat -> 
    (forall k, (k < 4)%nat -> (0 <= nth k s 0 <= nth k p 0)%Z) -> counts 4 (of_ints s) (of_ints p))
    by (intros; apply counts_ints; auto).
  split.
  - eapply adapted_step; [|exact neg_step1|eapply adapted_step; [|exact neg_step2|eapply adapted_step; [|exact neg_step3|
      eapply adapted_step; [|exact neg_step4|apply adapted_refl]]]]; apply HC; auto;
      intros [|[|[|[|k]]]] Hk; try lia; cbn; lia.
  - exists 1%nat, (- (244824000000 / 240326599064657))%R. split; [reflexivity|lra].
Qed.
Print Assumptions C27_positive_refuted.

Example C27_case : Legal threeN /\ s_n threeN <> 4%nat /\ Forall pos (firstn 3 (Beta_Values three_cfg)) /\
  0 < Tune_Ladder three_cfg /\ (exists sc zs, scale_tune_ladder three_cfg = Some sc /\ zero_stretch three_cfg = Some zs /\
  (0 <= sc <= 1)%R /\ (0 < zs < 1)%R).
Proof.
  split; [apply three_legal|]. split; [cbn; lia|]. split; [|split; [reflexivity|]].
  - rewrite three_betas. cbn [firstn]. repeat constructor; eexists; (split; [reflexivity|lra]).
  - destruct three_scale as [E1 E2]. exists (2 / 10)%R, (1 / 10)%R. split; [exact E1|]. split; [exact E2|]. lra.
Qed.

(** C28.  Three ranks: a strictly increasing ladder whose ends differ enough (b0 < 0.99 b2) stays
    strictly increasing, through any number of adaptations. *)
Theorem C28_three : forall sc zs b0 b1 b2 beta', (0 <= sc <= 1)%R -> (0 < zs < 1)%R ->
  (0 < b0)%R -> (b0 < b1)%R -> (b1 < b2)%R -> (b0 < 99 / 100 * b2)%R ->
  adapted sc zs 3 [Some b0; Some b1; Some b2] beta' ->
  exists b1', beta' = [Some b0; Some b1'; Some b2] /\ (b0 < b1' < b2)%R.
Proof.
  intros sc zs b0 b1 b2 beta' Hsc Hzs H0 H1 H2 Hg HA.
  destruct (adapted_three sc zs b0 b1 b2 beta' Hsc Hzs) as [c [E [_ [O1 [O2 _]]]]]; auto; [repeat split; auto|]. exists c. auto.
Qed.
Print Assumptions C28_three.

Theorem C28_run : forall S : Setup NArith, Legal S -> forall sc zs,
  scale_tune_ladder (s_cfg S) = Some sc -> zero_stretch (s_cfg S) = Some zs ->
  (0 <= sc <= 1)%R -> (0 < zs < 1)%R -> s_n S = 3%nat -> forall b0 b1 b2,
  firstn 3 (Beta_Values (s_cfg S)) = [Some b0; Some b1; Some b2] ->
  (0 < b0)%R -> (b0 < b1)%R -> (b1 < b2)%R -> (b0 < 99 / 100 * b2)%R ->
  forall D G0 h Gf, history S D G0 h Gf -> forall G, In G (states G0 h Gf) -> forall r, (r < 3)%nat ->
  exists b1', l_beta (loc_at G r) = [Some b0; Some b1'; Some b2] /\ (b0 < b1' < b2)%R.
Proof.
  intros S HL sc zs E1 E2 Hsc Hzs H3 b0 b1 b2 EB H0 H1 H2 Hg D G0 h Gf HH G HG r Hr.
  destruct (run_three S HL sc zs E1 E2 Hsc Hzs H3 b0 b1 b2 EB) with (D := D) (G0 := G0) (h := h) (Gf := Gf) (G := G) (r := r)
    as [c [E [_ [O1 [O2 _]]]]]; auto; [repeat split; auto|]. exists c. auto.
Qed.
Print Assumptions C28_run.

(** the configuration of C27_case meets the hypotheses of C28_run *)
Example C28_case : firstn 3 (Beta_Values three_cfg) = [Some (1 / 100)%R; Some (1 / 10)%R; Some 1%R] /\
  (0 < 1 / 100)%R /\ (1 / 100 < 1 / 10)%R /\ (1 / 10 < 1)%R /\ (1 / 100 < 99 / 100 * 1)%R.
Proof. rewrite three_betas. split; [reflexivity|lra]. Qed.

(** With four ranks one adaptation can put an increasing ladder out of order; with three ranks too,
    if the ends are close. *)
Theorem C28_order_refuted :
  (exists nsw npr b1' b2', counts 4 nsw npr /\
    tune_ladder (A := NArith) (Some (1 / 5))%R (Some (1 / 10))%R 4 nsw npr (of_reals [1 / 8; 1 / 4; 1 / 2; 1])%R =
      OK (of_reals [1 / 8; b1'; b2'; 1])%R /\ (b2' < b1')%R) /\
  (exists nsw npr b0 b1 b1', counts 3 nsw npr /\ (0 < b0)%R /\ (b0 < b1)%R /\ (b1 < 1)%R /\
    tune_ladder (A := NArith) (Some (1 / 5))%R (Some (1 / 10))%R 3 nsw npr (of_reals [b0; b1; 1])%R =
      OK (of_reals [b0; b1'; 1])%R /\ (1 < b1')%R).
Proof.
  split.
  - exists (of_ints [1; 0; 1; 0]), (of_ints [1; 1; 1; 0]), (5 / 11)%R, (5 / 19)%R.
    split; [|split; [exact disorder4|lra]]. apply counts_ints; auto. intros [|[|[|[|k]]]] Hk; try lia; cbn; lia.
  - exists (of_ints [1; 1; 0]), (of_ints [2; 1; 0]), (200 / 201)%R, (500 / 501)%R, (20000 / 19899)%R.
    split; [|split; [lra|split; [lra|split; [lra|split; [exact close_ends|lra]]]]].
    apply counts_ints; auto. intros [|[|[|k]]] Hk; try lia; cbn; lia.
Qed.
Print Assumptions C28_order_refuted.

(** C29.  Three ranks with b0 < 0.99 b2: every beta stays between the ends (C28_three says so for any
    number of adaptations, C28_run along runs).  In general not: with five ranks an increasing
    ladder that ends at 1 gets a beta above 1. *)
Theorem C29_three : forall sc zs b0 b1 beta', (0 <= sc <= 1)%R -> (0 < zs < 1)%R ->
  (0 < b0)%R -> (b0 < b1)%R -> (b1 < 1)%R -> (b0 < 99 / 100)%R ->
  adapted sc zs 3 [Some b0; Some b1; Some 1%R] beta' ->
  forall x, In x beta' -> exists v, x = Some v /\ (b0 <= v <= 1)%R.
Proof.
  intros sc zs b0 b1 beta' Hsc Hzs H0 H1 H2 Hg HA x Hx.
  destruct (C28_three sc zs b0 b1 1 beta') as [c [-> Hc]]; auto; [lra|].
  cbn [In] in Hx. destruct Hx as [<-|[<-|[<-|[]]]]; eexists; (split; [reflexivity|lra]).
Qed.
Print Assumptions C29_three.

Theorem C29_within_ends_refuted : exists nsw npr b0 b1 b2 b3 beta', counts 5 nsw npr /\
  (0 < b0)%R /\ (b0 < b1)%R /\ (b1 < b2)%R /\ (b2 < b3)%R /\ (b3 < 1)%R /\
  tune_ladder (A := NArith) (Some (1 / 5))%R (Some (1 / 10))%R 5 nsw npr (of_reals [b0; b1; b2; b3; 1])%R = OK beta' /\
  exists k x, nth_error beta' k = Some (Some x) /\ (1 < x)%R.
Proof.
  exists (of_ints [1; 0; 0; 1; 0]), (of_ints [1; 1; 1; 1; 0]), (1 / 100)%R, (5 / 88)%R, (5 / 6)%R, (10 / 11)%R. eexists.
  split; [apply counts_ints; auto; intros [|[|[|[|[|k]]]]] Hk; try lia; cbn; lia|].
  split; [lra|]. split; [lra|]. split; [lra|]. split; [lra|]. split; [lra|]. split; [exact above_one|].
  exists 2%nat, (100 / 71)%R. split; [reflexivity|lra].
Qed.
Print Assumptions C29_within_ends_refuted.

(** C30.  Without ladder tuning every state holds the betas of the input. *)
Theorem C30_off : forall A (S : Setup A), Legal S -> Tune_Ladder (s_cfg S) <= 0 ->
  forall D G0 h Gf, history S D G0 h Gf -> forall G, In G (states G0 h Gf) -> forall r, (r < s_n S)%nat ->
  l_beta (loc_at G r) = firstn (s_n S) (Beta_Values (s_cfg S)).
Proof. intros A S HL HT D G0 h Gf HH G HG r Hr. exact (fixed_always S HL D HT G0 h Gf HH G HG r Hr). Qed.
Print Assumptions C30_off.

(** With ladder tuning: from the beginning of the first stack that ends at or after
    N_stopTuneLadder, the ladder stays what it is there. *)
Theorem C30_stop : forall A (S : Setup A), Legal S -> forall D G0 h Gf, history S D G0 h Gf ->
  forall h1 s h2, h = h1 ++ s :: h2 -> N_stopTuneLadder (s_cfg S) <= sr_end s ->
  forall G, In G (states (sr_in s) (s :: h2) Gf) -> forall r, (r < s_n S)%nat ->
  l_beta (loc_at G r) = l_beta (loc_at (sr_in s) 0).
Proof.
  intros A S HL D G0 h Gf HH h1 s h2 Eh Hend G HG r Hr.
  assert (HS : In (sr_in s) (states G0 h Gf)).
  { right. apply in_or_app. left. apply in_concat. exists (sstates s). split; [apply in_map; rewrite Eh; apply in_or_app; right; left; auto|left; auto]. }
  destruct (ends_always S HL D G0 h Gf HH _ HS) as [b [Lb [Hb _]]].
  pose proof HL as [_ [VC _]]. pose proof (vc_n _ _ VC). rewrite (Hb 0%nat) by lia.
  exact (frozen_after S HL D G0 h Gf HH h1 s h2 Eh Hend b Hb G HG r Hr).
Qed.
Print Assumptions C30_stop.

(** a stack that ends before N_stopTuneLadder is adapted (C26_moves has one in which this changes a beta) *)
Theorem C30_adapts : forall A (S : Setup A), Legal S -> forall D G0 h Gf, history S D G0 h Gf ->
  forall s, In s h -> 0 < Tune_Ladder (s_cfg S) -> sr_end s < N_stopTuneLadder (s_cfg S) ->
  exists b, tune_ladder (scale_tune_ladder (s_cfg S)) (zero_stretch (s_cfg S)) (Z.of_nat (s_n S))
     (sr_nsw s) (sr_npr s) (l_beta (loc_at (sr_in s) 0)) = OK b /\
    forall r, (r < s_n S)%nat -> l_beta (loc_at (sr_lad s) r) = b.
Proof.
  intros A S HL D G0 h Gf HH s Hs HT Hend. apply (ladder_new S HL D G0 h Gf HH s Hs).
  destruct (history_count S HL _ _ _ _ HH) as [_ [F _]]. rewrite Forall_forall in F.
  destruct (F s Hs) as [H1 [H2 [H3 [_ [_ [_ [_ [_ [_ [_ [_ [_ [_ [_ [_ [_ [HI _]]]]]]]]]]]]]]]]].
  pose proof HL as [_ [VC _]]. pose proof (vc_n _ _ VC).
  destruct (HI 0%nat ltac:(lia)) as [_ [_ [E _]]]. unfold adapts. change (nth 0 (g_locs (sr_mid s)) dloc) with (loc_at (sr_mid s) 0).
  rewrite E. pose proof (vc_sum _ _ VC). pose proof (vc_stack _ _ VC).
  rewrite u2i_small by (unfold sr_end in *; lia). apply andb_true_iff. split; apply Z.ltb_lt; auto.
Qed.
Print Assumptions C30_adapts.

(** the shipped settings: stacks of 5000, N_stopTuneLadder 300000, N_iter 400000; the stack that ends
    at 300000 is the first without adaptation *)
Example C30_case : forall L, Legal (demo L) /\ 0 < Tune_Ladder (s_cfg (demo L)) /\
  N_stopTuneLadder (s_cfg (demo L)) < N_iter (s_cfg (demo L)).
Proof. intros L. split; [apply demo_legal|]. split; reflexivity. Qed.

(** C54.  The statistics used by the adaptation after a stack count, for each position, the attempts
    of the stack whose first position (i_swap) it is and those of them that were executed.  In binary64 this is
    exact up to 2^53 attempts. *)
Theorem C54_statistics : forall L (S : Setup (B64 L)), Legal S -> forall D G0 h Gf, history S D G0 h Gf ->
  0 < Tune_Ladder (s_cfg S) -> Z.max 0 (N_swap (s_cfg S)) * n_iter_a_stack (s_cfg S) <= 2 ^ 53 ->
  forall s, In s h -> exists wss, Forall2 (batch_swaps S D) (sr_batches s) wss /\
    sr_npr s = map (fun k => nof (Z.of_nat (length (filter (fun w => Nat.eqb (sw_i w) k) (concat wss))))) (seq 0 (s_n S)) /\
    sr_nsw s = map (fun k => nof (Z.of_nat (length (filter (fun w => Nat.eqb (sw_i w) k && sw_done w) (concat wss))))) (seq 0 (s_n S)).
Proof.
  intros L S HL D G0 h Gf HH HT HB s Hs. apply (run_stats (B64 L) S HL D G0 h Gf HH HT (2 ^ 53) (exact_b64 L) s Hs).
  pose proof (batch_count S HL D G0 h Gf HH s Hs). nia.
Qed.
Print Assumptions C54_statistics.

Theorem C54_statistics_real : forall S : Setup RArith, Legal S -> forall D G0 h Gf, history S D G0 h Gf ->
  0 < Tune_Ladder (s_cfg S) -> forall s, In s h -> exists wss, Forall2 (batch_swaps S D) (sr_batches s) wss /\
    sr_npr s = map (fun k => IZR (Z.of_nat (length (filter (fun w => Nat.eqb (sw_i w) k) (concat wss))))) (seq 0 (s_n S)) /\
    sr_nsw s = map (fun k => IZR (Z.of_nat (length (filter (fun w => Nat.eqb (sw_i w) k && sw_done w) (concat wss))))) (seq 0 (s_n S)).
Proof.
  intros S HL D G0 h Gf HH HT s Hs. exact (run_stats RArith S HL D G0 h Gf HH HT _ (exact_R _) s Hs (Z.le_refl _)).
Qed.
Print Assumptions C54_statistics_real.

(** the shipped settings: one attempt per batch, stacks of 5000 *)
Example C54_case : forall L, Legal (demo L) /\ 0 < Tune_Ladder (s_cfg (demo L)) /\
  Z.max 0 (N_swap (s_cfg (demo L))) * n_iter_a_stack (s_cfg (demo L)) <= 2 ^ 53.
Proof. intros L. split; [apply demo_legal|]. split; [reflexivity|cbn; lia]. Qed.
