(** The ladder along whole runs, over the reals extended by NaN. *)
From Coq Require Import ZArith Arith List Bool Lia Reals Lra.
From Verif Require Import Base Arith Rand Mh Ladder Tune Mpi MpiMeta Spmd Prog Seq ListAux MhSpec SeqWf Refine
  SeqTotal System RandRange UserModels Demo Runs SeqFiles History Views RunHist HistCount HistRows SwapLemmas
  LadderReal LadderOrder LadderRuns SwapStats.
Import ListNotations.
Open Scope Z_scope.
Local Notation N := NArith.

Lemma drand48_N : forall g, drand48 (A := N) g = (Some (fst (drand48 (A := RArith) g)), lcg g).
Proof.
  intros g. unfold drand48. cbn [fst]. f_equal.
  change (nof (a := N) (lcg g)) with (Some (IZR (lcg g))). change (nof (a := N) RMOD) with (Some (IZR RMOD)).
  rewrite ndiv_some by (unfold RMOD; lra). reflexivity.
Qed.

Lemma RandOK_N : RandOK N.
Proof.
  split.
  - intros a g Ha. destruct (rk_0a _ RandOK_R a g Ha) as [v [E B]]. exists v. split; auto. rewrite <- E.
    unfold i4_unif_0a. rewrite drand48_N. rewrite (surjective_pairing (drand48 (A := RArith) g)). reflexivity.
  - intros R g H0 H2. destruct (rk_ab _ RandOK_R R g H0 H2) as [v [E B]]. exists v. split; auto. rewrite <- E.
    unfold i4_unif_ab. rewrite drand48_N. rewrite (surjective_pairing (drand48 (A := RArith) g)). reflexivity.
Qed.

Section RunN.
Variable S : Setup N.
Hypothesis HL : Legal S.
Variables (sc zs : R).
Hypothesis Esc : scale_tune_ladder (s_cfg S) = Some sc.
Hypothesis Ezs : zero_stretch (s_cfg S) = Some zs.

(** the statistics are counts *)
Lemma run_counts : forall D G0 h Gf, history S D G0 h Gf -> 0 < Tune_Ladder (s_cfg S) ->
  forall s, In s h -> counts (s_n S) (sr_nsw s) (sr_npr s).
Proof.
  intros D G0 h Gf HH HT s Hs.
  destruct (run_stats N S HL D G0 h Gf HH HT _ (exact_N _) s Hs (Z.le_refl _)) as [wss [_ [E1 E2]]].
  rewrite E1, E2. split; [rewrite map_length, seq_length; auto|]. split; [rewrite map_length, seq_length; auto|].
  intros k Hk. exists (done k (concat wss)), (tried k (concat wss)). pose proof (tried_range k (concat wss)) as [TR _].
  split; [|split]; auto.
  - rewrite (map_nth2 _ _ k 0%nat) by (rewrite seq_length; auto). rewrite seq_nth by auto. reflexivity.
  - rewrite (map_nth2 _ _ k 0%nat) by (rewrite seq_length; auto). rewrite seq_nth by auto. reflexivity.
Qed.

Lemma run_positive : (0 <= sc <= 1)%R -> (0 <= zs <= 1)%R -> (s_n S <> 4)%nat -> Forall pos (firstn (s_n S) (Beta_Values (s_cfg S))) ->
  forall D G0 h Gf, history S D G0 h Gf -> forall G, In G (states G0 h Gf) -> forall r, (r < s_n S)%nat ->
  length (l_beta (loc_at G r)) = s_n S /\ Forall pos (l_beta (loc_at G r)).
Proof.
  intros Hsc Hzs H4 P0 D G0 h Gf HH G HG r Hr. pose proof HL as [_ [VC _]].
  destruct (betas_hist S HL D (Forall pos) P0 G0 h Gf HH) with (G := G) as [b [Lb [Pb Hb]]]; auto.
  - intros s b b' Hs HT Lb Pb HE. rewrite Esc, Ezs in HE.
    destruct (adapt_pos sc zs (s_n S) b (sr_nsw s) (sr_npr s)) as [b1 [E1 [_ P1]]]; auto.
    + apply (vc_n _ _ VC).
    + eapply run_counts; eauto.
    + assert (K : OK b1 = OK b') by (rewrite <- E1; exact HE). injection K; intros <-. exact P1.
  - rewrite (Hb r Hr). auto.
Qed.

Lemma run_three : (0 <= sc <= 1)%R -> (0 < zs < 1)%R -> s_n S = 3%nat -> forall b0 b1 b2,
  firstn 3 (Beta_Values (s_cfg S)) = [Some b0; Some b1; Some b2] -> ordered3 b0 b1 b2 ->
  forall D G0 h Gf, history S D G0 h Gf -> forall G, In G (states G0 h Gf) -> forall r, (r < 3)%nat ->
  exists b1', l_beta (loc_at G r) = [Some b0; Some b1'; Some b2] /\ ordered3 b0 b1' b2.
Proof.
  intros Hsc Hzs H3 b0 b1 b2 E0 HO D G0 h Gf HH G HG r Hr.
  destruct (betas_hist S HL D (fun b => exists b1', b = [Some b0; Some b1'; Some b2] /\ ordered3 b0 b1' b2)) with (G0 := G0) (h := h) (Gf := Gf) (G := G) as [b [Lb [[b1' [Eb Ho]] Hb]]]; auto.
  - exists b1. rewrite H3. auto.
  - intros s b b' Hs HT Lb [c [-> HO']] HE. rewrite Esc, Ezs in HE.
    pose proof (run_counts _ _ _ _ HH HT s Hs) as HC. rewrite H3 in HC.
    destruct (adapt_three sc zs b0 c b2 (sr_nsw s) (sr_npr s) Hsc Hzs HO' HC) as [c' [E1 HO1]].
    rewrite H3 in HE.
    assert (K : OK [Some b0; Some c'; Some b2] = OK b') by (rewrite <- E1; exact HE). injection K; intros <-. eauto.
  - exists b1'. rewrite (Hb r ltac:(lia)). auto.
Qed.
End RunN.

(** ** A configuration: the shipped regression settings with three ranks *)
Definition three_cfg : Cfg N :=
  mkCfgP N 3 400000 5000 20 5 1 0 300000 400000 1000 1 300000 100000 20
    (nlit 10 2) (nlit 45 2) (nlit 23 2) (nlit 1 1) (nof 20) (nof 300) (nlit 2 1) (nlit 1 1)
    [nlit 1 2; nlit 1 1; nof 1].
Definition threeN : Setup N := mkSetup three_cfg (demo_user _) 3 (demo_env _) 2.
Definition demoN : Setup N := mkSetup (demo_cfg _) (demo_user _) 4 (demo_env _) 2.

Lemma three_legal : Legal threeN.
Proof.
  split; [apply RandOK_N|]. split; [|split].
  - constructor; cbn; try (vm_compute; intuition discriminate); try lia.
  - constructor; [constructor| |]; try (cbn; lia).
    + intros x Hx. exact (uo_bound _ _ (vu_ok _ _ (demo_user_valid N)) x Hx).
    + intros s. exact (uo_init _ _ (vu_ok _ _ (demo_user_valid N)) s).
    + reflexivity.
  - apply demo_env_valid.
Qed.
Lemma demoN_legal : Legal demoN.
Proof.
  split; [apply RandOK_N|]. split; [apply demo_valid|]. split; [apply demo_user_valid|apply demo_env_valid].
Qed.

Lemma three_betas : Beta_Values three_cfg = [Some (1 / 100)%R; Some (1 / 10)%R; Some 1%R].
Proof.
  cbn [Beta_Values three_cfg]. rewrite !nlit_some by lia. reflexivity.
Qed.
Lemma three_scale : scale_tune_ladder three_cfg = Some (2 / 10)%R /\ zero_stretch three_cfg = Some (1 / 10)%R.
Proof. cbn [scale_tune_ladder zero_stretch three_cfg]. rewrite !nlit_some by lia. auto. Qed.
