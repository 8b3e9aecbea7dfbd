(** * C94: a beta moves towards the neighbour with which it swaps less often *)
From Coq Require Import ZArith Arith List Bool Reals Lia Lra.
From Verif Require Import Base Arith B64 Rand Mh Ladder Tune Mpi MpiMeta Spmd Prog Seq ListAux MhSpec SeqWf Refine
  SeqTotal System RandRange UserModels Demo Runs SeqFiles History Views RunHist HistCount HistRows SwapLemmas
  LadderReal LadderOrder LadderRuns SwapStats LadderN LadderEven LadderToward PropLadder.
Import ListNotations.
Open Scope R_scope.
Local Notation N := NArith.
Local Notation num := (option R).

(** tune_ladder_use_3_neighb (mpi_ladder.c:102-275) over the reals.  [bval beta k], [sval nsw k], [sval npr k]: the beta,
    the swaps made and the swaps tried between ranks k and k+1.  Rank i is an inner one that the treatment of the ends
    (mpi_ladder.c:244-255) leaves alone.  If the swaps with rank i-1 succeed less often than those with rank i+1, its beta
    falls towards that of rank i-1 and does not reach it; in the other case it rises towards that of rank i+1. *)
Theorem C94_one : forall sc zs m (beta nsw npr : list num) i, 0 < sc <= 1 -> 0 <= zs < 1 -> (3 <= m)%nat -> length beta = m -> Forall pos beta ->
  counts m nsw npr -> m <> 4%nat \/ bval beta 1 <= bval beta 2 -> (1 <= i <= m - 2)%nat ->
  0 < sval npr (i - 1) -> 0 < sval npr i ->
  (i = 1%nat -> sval npr 0 <= 100 * sval nsw 0) -> (i = (m - 2)%nat -> sval npr (m - 2) <= 100 * sval nsw (m - 2)) ->
  exists beta' : list num, tune_ladder (A := N) (Some sc) (Some zs) (Z.of_nat m) nsw npr beta = OK beta' /\
    (sval nsw (i - 1) * sval npr i < sval nsw i * sval npr (i - 1) -> 100 * bval beta (i - 1) < 99 * bval beta i ->
       bval beta (i - 1) < bval beta' i < bval beta i) /\
    (sval nsw i * sval npr (i - 1) < sval nsw (i - 1) * sval npr i -> 101 * bval beta i < 100 * bval beta (i + 1) ->
       bval beta i < bval beta' i < bval beta (i + 1)).
Proof. exact toward. Qed.
Print Assumptions C94_one.

(** Every adaptation of every legal run, on every rank, with the swap attempts of the stack counted. *)
Theorem C94_run : forall (S : Setup N), Legal S -> forall sc zs, scale_tune_ladder (s_cfg S) = Some sc -> zero_stretch (s_cfg S) = Some zs ->
  0 < sc <= 1 -> 0 <= zs < 1 -> (3 <= s_n S)%nat -> s_n S <> 4%nat -> Forall pos (firstn (s_n S) (Beta_Values (s_cfg S))) ->
  forall D G0 h Gf, history S D G0 h Gf -> (0 < Tune_Ladder (s_cfg S))%Z ->
  forall s, In s h -> (sr_end s < N_stopTuneLadder (s_cfg S))%Z ->
  exists wss, Forall2 (batch_swaps S D) (sr_batches s) wss /\
  let tried k := Z.of_nat (length (filter (fun w => Nat.eqb (sw_i w) k) (concat wss))) in
  let done k := Z.of_nat (length (filter (fun w => Nat.eqb (sw_i w) k && sw_done w) (concat wss))) in
  forall i, (1 <= i <= s_n S - 2)%nat -> (0 < tried (i - 1)%nat)%Z -> (0 < tried i)%Z ->
  (i = 1%nat -> (tried 0%nat <= 100 * done 0%nat)%Z) -> (i = (s_n S - 2)%nat -> (tried (s_n S - 2)%nat <= 100 * done (s_n S - 2)%nat)%Z) ->
  forall r, (r < s_n S)%nat ->
  let b := bval (l_beta (loc_at (sr_in s) r)) in let b' := bval (l_beta (loc_at (sr_lad s) r)) in
  ((done (i - 1)%nat * tried i < done i * tried (i - 1)%nat)%Z -> 100 * b (i - 1)%nat < 99 * b i -> b (i - 1)%nat < b' i < b i) /\
  ((done i * tried (i - 1)%nat < done (i - 1)%nat * tried i)%Z -> 101 * b i < 100 * b (i + 1)%nat -> b i < b' i < b (i + 1)%nat).
Proof.
  intros S HL sc zs Esc Ezs Hsc Hzs Hn H4 P0 D G0 h Gf HH HT s Hs Hend.
  destruct (run_stats N S HL D G0 h Gf HH HT _ (exact_N _) s Hs (Z.le_refl _)) as [wss [H2 [E1 E2]]].
  exists wss. split; [exact H2|]. intros tr dn i Hi T1 T2 L1 L2 r Hr b b'.
  pose proof (run_counts S HL D G0 h Gf HH HT s Hs) as HC.
  assert (V1 : forall k, (k < s_n S)%nat -> sval (sr_npr s) k = IZR (tr k)).
  { intros k Hk. unfold sval. rewrite E1. rewrite (map_nth2 _ _ k 0%nat) by (rewrite seq_length; auto). rewrite seq_nth by auto. reflexivity. }
  assert (V2 : forall k, (k < s_n S)%nat -> sval (sr_nsw s) k = IZR (dn k)).
  { intros k Hk. unfold sval. rewrite E2. rewrite (map_nth2 _ _ k 0%nat) by (rewrite seq_length; auto). rewrite seq_nth by auto. reflexivity. }
  assert (HG : In (sr_in s) (states G0 h Gf)).
  { unfold states. apply in_cons. apply in_or_app. left. apply in_concat. exists (sstates s). split; [apply in_map; exact Hs|]. unfold sstates. left. reflexivity. }
  destruct (run_positive S HL sc zs Esc Ezs ltac:(lra) ltac:(lra) H4 P0 D G0 h Gf HH _ HG r Hr) as [Lb Pb].
  destruct (C30_adapts N S HL D G0 h Gf HH s Hs HT Hend) as [b1 [E3 E4]]. rewrite Esc, Ezs in E3.
  assert (Er : l_beta (loc_at (sr_in s) 0) = l_beta (loc_at (sr_in s) r)).
  { destruct (C26_ends N S HL D G0 h Gf HH _ HG) as [c [_ [Hc _]]]. rewrite (Hc 0%nat) by lia. rewrite (Hc r Hr). reflexivity. }
  rewrite Er in E3.
  destruct (C94_one sc zs (s_n S) _ (sr_nsw s) (sr_npr s) i Hsc Hzs Hn Lb Pb HC (or_introl H4) Hi) as [b2 [E5 [A B]]].
  - rewrite V1 by lia. apply (IZR_lt 0). auto.
  - rewrite V1 by lia. apply (IZR_lt 0). auto.
  - intro K. rewrite V1, V2 by lia. rewrite <- mult_IZR. apply IZR_le. auto.
  - intro K. rewrite V1, V2 by lia. rewrite <- mult_IZR. apply IZR_le. auto.
  - assert (X : OK b2 = OK b1) by (rewrite <- E5; exact E3). injection X; intros ->. unfold b'. rewrite (E4 r Hr).
    rewrite !V1, !V2, <- !mult_IZR in A, B by lia. split; intros K1 K2; [apply A|apply B]; auto; apply IZR_lt; auto.
Qed.
Print Assumptions C94_run.

(** The distance is needed: 1/2 and 1001/2000 are neighbours; the swaps with the lower one succeed half as often as
    those with the upper one, and the beta rises, away from the lower one. *)
Theorem C94_close_refuted : exists (beta' : list num), counts 3 [Some 1; Some 2; Some 0] [Some 2; Some 2; Some 0] /\
  tune_ladder (A := N) (Some (1 / 5)) (Some (1 / 10)) 3 [Some 1; Some 2; Some 0] [Some 2; Some 2; Some 0] [Some (1 / 2); Some (1001 / 2000); Some 1] = OK beta' /\
  1001 / 2000 < bval beta' 1.
Proof.
  assert (C3 : counts 3 [Some 1; Some 2; Some 0] [Some 2; Some 2; Some 0]).
  { split; [reflexivity|]. split; [reflexivity|]. intros k Hk. destruct k as [|[|[|k]]]; [exists 1%Z, 2%Z|exists 2%Z, 2%Z|exists 0%Z, 0%Z|lia]; repeat split; lia. }
  assert (F : Forall pos [Some (1 / 2); Some (1001 / 2000); Some 1]) by (repeat (apply Forall_cons; [eexists; split; [reflexivity|lra]|]); apply Forall_nil).
  destruct (toward_val (1 / 5) (1 / 10) 3 [Some (1 / 2); Some (1001 / 2000); Some 1] _ _ 1 ltac:(lra) ltac:(lra) ltac:(lia) eq_refl F C3 ltac:(left; lia) ltac:(lia)) as [b' [t [E [P [Et V]]]]];
    try (unfold sval; cbn [nth val Nat.sub]; lra); try (intro; unfold sval; cbn [nth val Nat.sub]; lra).
  exists b'. split; [exact C3|]. split; [exact E|]. cbv zeta in V. rewrite V. unfold newT. cbn [Nat.sub Nat.eqb].
  unfold sval. cbn [nth val]. rewrite (proj2 (Rltb_true 0 _)) by lra. rewrite (proj2 (Rltb_true 0 _)) by lra. unfold incT. unfold bval. cbn [nth val Nat.sub].
  set (T := Rmin _ _). assert (T1 : T <= 198 / 100) by (unfold T; eapply Rle_trans; [apply Rmin_r|lra]).
  assert (T2 : 0 < T). { unfold T. apply Rmin_glb_lt; [|lra]. rewrite Et. unfold bval. cbn [nth val]. destruct (Reqb _ 1); lra. }
  apply Rlt_le_trans with (1 / (198 / 100)); [lra|]. unfold Rdiv. apply Rmult_le_compat_l; [lra|]. apply Rinv_le_contravar; lra.
Qed.
Print Assumptions C94_close_refuted.

(** three ranks with betas 1/100, 1/10 and 1: half of the swaps succeed below and all above, so the beta falls;
    [threeN] is a setup for [C94_run] *)
Example C94_case :
  (exists beta', tune_ladder (A := N) (Some (1 / 5)) (Some (1 / 10)) 3 [Some 1; Some 2; Some 0] [Some 2; Some 2; Some 0] [Some (1 / 100); Some (1 / 10); Some 1] = OK beta' /\
     1 / 100 < bval beta' 1 < 1 / 10) /\
  Legal threeN /\ (0 < Tune_Ladder (s_cfg threeN))%Z /\ (3 <= s_n threeN)%nat /\ s_n threeN <> 4%nat /\
  Forall pos (firstn 3 (Beta_Values (s_cfg threeN))) /\ exists sc zs, scale_tune_ladder (s_cfg threeN) = Some sc /\ zero_stretch (s_cfg threeN) = Some zs /\ 0 < sc <= 1 /\ 0 <= zs < 1.
Proof.
  split.
  - assert (C3 : counts 3 [Some 1; Some 2; Some 0] [Some 2; Some 2; Some 0]).
    { split; [reflexivity|]. split; [reflexivity|]. intros k Hk. destruct k as [|[|[|k]]]; [exists 1%Z, 2%Z|exists 2%Z, 2%Z|exists 0%Z, 0%Z|lia]; repeat split; lia. }
    assert (F : Forall pos [Some (1 / 100); Some (1 / 10); Some 1]) by (repeat (apply Forall_cons; [eexists; split; [reflexivity|lra]|]); apply Forall_nil).
    destruct (C94_one (1 / 5) (1 / 10) 3 [Some (1 / 100); Some (1 / 10); Some 1] _ _ 1 ltac:(lra) ltac:(lra) ltac:(lia) eq_refl F C3 ltac:(left; lia) ltac:(lia)) as [b' [E [A _]]];
      try (unfold sval; cbn [nth val Nat.sub]; lra); try (intro; unfold sval; cbn [nth val Nat.sub]; lra).
    exists b'. split; [exact E|]. unfold sval, bval in *. cbn [nth val Nat.sub] in A. apply A; lra.
  - split; [exact three_legal|]. split; [reflexivity|]. split; [cbn; lia|]. split; [cbn; lia|]. split.
    + cbn [s_cfg threeN]. rewrite three_betas. cbn [firstn]. repeat (apply Forall_cons; [eexists; split; [reflexivity|lra]|]). apply Forall_nil.
    + destruct three_scale as [A B]. exists (2 / 10), (1 / 10). cbn [s_cfg threeN]. split; [exact A|]. split; [exact B|]. lra.
Qed.
