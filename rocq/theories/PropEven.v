(** * C93: equal swap rates make the ladder geometric *)
From Coq Require Import ZArith Arith List Bool Reals Lia Lra.
From Verif Require Import Base Arith Rand Mh Ladder Tune Mpi MpiMeta Spmd Prog Seq ListAux MhSpec SeqWf Refine
  SeqTotal System RandRange UserModels Demo Runs SeqFiles History Views RunHist HistCount HistRows SwapLemmas
  LadderReal LadderOrder LadderRuns SwapStats LadderN LadderEven.
Import ListNotations.
Open Scope R_scope.
Local Notation N := NArith.
Local Notation num := (option R).

(** [evenly] (LadderEven.v): neighbouring rates are equal or one of the two was never tried, and the first and the
    last rate are 1/100 or more or never tried.  Then tune_ladder_use_3_neighb (mpi_ladder.c:102-275) leaves the ends alone and
    sets every other beta to sqrt(b0 b_k b_(k+1) / b1), whatever scale_tune_ladder and zero_stretch are. *)
Theorem C93_one : forall sc zs m (beta nsw npr : list num), (2 <= m)%nat -> length beta = m -> Forall pos beta ->
  counts m nsw npr -> evenly m nsw npr ->
  exists beta' : list num, tune_ladder (A := N) (Some sc) (Some zs) (Z.of_nat m) nsw npr beta = OK beta' /\
    length beta' = m /\ Forall pos beta' /\
    bval beta' 0 = bval beta 0 /\ bval beta' (m - 1) = bval beta (m - 1) /\
    (forall k, (1 <= k <= m - 2)%nat -> bval beta' k = sqrt (bval beta 0 * bval beta k * bval beta (k + 1) / bval beta 1)).
Proof. exact adapt_even. Qed.
Print Assumptions C93_one.

Lemma bval_pos : forall m beta, length beta = m -> Forall pos beta -> forall k, (k < m)%nat -> 0 < bval beta k.
Proof. intros m beta L F k Hk. apply (proj2 (pos_vals beta F) k). rewrite L. exact Hk. Qed.

(** an increasing ladder stays increasing: here the order is kept for any number of ranks *)
Definition increasing (m : nat) (l : list num) : Prop := forall k, (k + 1 < m)%nat -> bval l k < bval l (k + 1).

Lemma order_kept : forall m beta beta', (2 <= m)%nat -> length beta = m -> Forall pos beta -> 
  bval beta' 0 = bval beta 0 -> bval beta' (m - 1) = bval beta (m - 1) ->
  (forall k, (1 <= k <= m - 2)%nat -> bval beta' k = sqrt (bval beta 0 * bval beta k * bval beta (k + 1) / bval beta 1)) ->
  increasing m beta -> increasing m beta'.
Proof.
  intros m beta beta' Hm L F E0 E1 EK I k Hk. pose proof (bval_pos m beta L F) as P. set (b := bval beta) in *.
  destruct (Nat.eq_dec m 2) as [->|N2].
  - replace k with 0%nat by lia. cbn [Nat.add]. cbn [Nat.sub] in E1. rewrite E0, E1. apply (I 0%nat). lia.
  - assert (K : forall i, (i <= m - 2)%nat -> bval beta' i = sqrt (b 0%nat * b i * b (i + 1)%nat / b 1%nat)).
    { intros [|i] Hi; [|apply EK; lia]. rewrite E0. cbn [Nat.add]. pose proof (P 0%nat ltac:(lia)). pose proof (P 1%nat ltac:(lia)).
      replace (b 0%nat * b 0%nat * b 1%nat / b 1%nat) with (b 0%nat * b 0%nat) by (field; lra). rewrite sqrt_square by lra. reflexivity. }
    pose proof (P 0%nat ltac:(lia)) as P0. pose proof (P 1%nat ltac:(lia)) as P1. pose proof (P k ltac:(lia)) as Pk. pose proof (P (k + 1)%nat ltac:(lia)) as Pk1.
    pose proof (I k Hk) as I1. fold b in I1. pose proof (I 0%nat ltac:(lia)) as I0. cbn [Nat.add] in I0. fold b in I0.
    assert (C : 0 < b 0%nat / b 1%nat) by (apply Rdiv_lt_0_compat; lra).
    assert (C1 : b 0%nat / b 1%nat < 1) by (apply (Rmult_lt_reg_r (b 1%nat)); [lra|]; unfold Rdiv; rewrite Rmult_assoc, Rinv_l by lra; lra).
    destruct (Nat.eq_dec (k + 1) (m - 1)) as [E|E].
    + rewrite K by lia. rewrite E. rewrite E1. rewrite E in Pk1, I1. rewrite <- (sqrt_square (b (m - 1)%nat)) at 2 by lra. apply sqrt_lt_1_alt.
      replace (b 0%nat * b k * b (m - 1)%nat / b 1%nat) with ((b 0%nat / b 1%nat) * (b k * b (m - 1)%nat)) by (field; lra).
      assert (Q : 0 < b k * b (m - 1)%nat) by (apply Rmult_lt_0_compat; lra). split; [apply Rmult_le_pos; lra|].
      apply Rlt_trans with (1 * (b k * b (m - 1)%nat)); [apply Rmult_lt_compat_r; lra|]. rewrite Rmult_1_l. apply Rmult_lt_compat_r; lra.
    + rewrite !K by lia. apply sqrt_lt_1_alt. pose proof (I (k + 1)%nat ltac:(lia)) as I2. fold b in I2. pose proof (P (k + 1 + 1)%nat ltac:(lia)) as Pk2.
      replace (b 0%nat * b k * b (k + 1)%nat / b 1%nat) with ((b 0%nat / b 1%nat) * b (k + 1)%nat * b k) by (field; lra).
      replace (b 0%nat * b (k + 1)%nat * b (k + 1 + 1)%nat / b 1%nat) with ((b 0%nat / b 1%nat) * b (k + 1)%nat * b (k + 1 + 1)%nat) by (field; lra).
      assert (Q : 0 < (b 0%nat / b 1%nat) * b (k + 1)%nat) by (apply Rmult_lt_0_compat; lra).
      split; [apply Rmult_le_pos; lra|]. apply Rmult_lt_compat_l; lra.
Qed.
Theorem C93_order : forall sc zs m (beta nsw npr beta' : list num), (2 <= m)%nat -> length beta = m -> Forall pos beta ->
  counts m nsw npr -> evenly m nsw npr ->
  tune_ladder (A := N) (Some sc) (Some zs) (Z.of_nat m) nsw npr beta = OK beta' -> increasing m beta -> increasing m beta'.
Proof.
  intros sc zs m beta nsw npr beta' Hm L F HC HE HT I. destruct (adapt_even sc zs m beta nsw npr Hm L F HC HE) as [b1 [E [_ [_ [E0 [E1 EK]]]]]].
  assert (X : OK b1 = OK beta') by (rewrite <- E; exact HT). injection X; intros ->. exact (order_kept m beta beta' Hm L F E0 E1 EK I).
Qed.
Print Assumptions C93_order.

(** a geometric ladder is not changed *)
Theorem C93_fixed : forall sc zs m (beta nsw npr : list num) r, (2 <= m)%nat -> length beta = m -> Forall pos beta ->
  counts m nsw npr -> evenly m nsw npr -> 0 < r -> (forall k, (k < m)%nat -> bval beta k = bval beta 0 * r ^ k) ->
  tune_ladder (A := N) (Some sc) (Some zs) (Z.of_nat m) nsw npr beta = OK beta.
Proof.
  intros sc zs m beta nsw npr r Hm L F HC HE Hr G. destruct (adapt_even sc zs m beta nsw npr Hm L F HC HE) as [b1 [E [L1 [F1 [E0 [E1 EK]]]]]].
  rewrite E. f_equal. pose proof (bval_pos m beta L F 0%nat ltac:(lia)) as P0. apply (nth_ext _ _ None None); [lia|]. intros k Hk. rewrite L1 in Hk.
  destruct (pos_vals beta F) as [V _]. destruct (pos_vals b1 F1) as [V1 _]. rewrite V, V1 by lia. f_equal. change (bval b1 k = bval beta k).
  destruct (Nat.eq_dec k 0) as [->|N0]; [exact E0|]. destruct (Nat.eq_dec k (m - 1)) as [->|N1]; [exact E1|].
  rewrite EK by lia. rewrite (G k), (G (k + 1)%nat), (G 1%nat) by lia. rewrite pow_add, pow_1. pose proof (pow_lt r k Hr) as Pk.
  replace (bval beta 0 * (bval beta 0 * r ^ k) * (bval beta 0 * (r ^ k * r)) / (bval beta 0 * r)) with ((bval beta 0 * r ^ k) * (bval beta 0 * r ^ k)) by (field; lra).
  apply sqrt_square. apply Rmult_le_pos; lra.
Qed.
Print Assumptions C93_fixed.

(** Any sequence of such adaptations converges to the geometric ladder between the two end betas, from any positive
    betas, for any number of ranks, with statistics that may differ from one adaptation to the next. *)
Theorem C93_limit : forall sc zs m (B nsw npr : nat -> list num), (2 <= m)%nat -> length (B 0%nat) = m -> Forall pos (B 0%nat) ->
  (forall j, counts m (nsw j) (npr j) /\ evenly m (nsw j) (npr j) /\
     tune_ladder (A := N) (Some sc) (Some zs) (Z.of_nat m) (nsw j) (npr j) (B j) = OK (B (S j))) ->
  forall k, (k < m)%nat -> Un_cv (fun j => bval (B j) k)
    (bval (B 0%nat) 0 * Rpower (bval (B 0%nat) (m - 1) / bval (B 0%nat) 0) (INR k / INR (m - 1))).
Proof.
  intros sc zs m B nsw npr Hm L F H k Hk.
  assert (K : forall j, length (B j) = m /\ Forall pos (B j) /\ bval (B (S j)) 0 = bval (B j) 0 /\ bval (B (S j)) (m - 1) = bval (B j) (m - 1) /\
    (forall k, (1 <= k <= m - 2)%nat -> bval (B (S j)) k = sqrt (bval (B j) 0 * bval (B j) k * bval (B j) (k + 1) / bval (B j) 1)) /\
    length (B (S j)) = m /\ Forall pos (B (S j))).
  { assert (St : forall j, length (B j) = m -> Forall pos (B j) -> bval (B (S j)) 0 = bval (B j) 0 /\ bval (B (S j)) (m - 1) = bval (B j) (m - 1) /\
      (forall k, (1 <= k <= m - 2)%nat -> bval (B (S j)) k = sqrt (bval (B j) 0 * bval (B j) k * bval (B j) (k + 1) / bval (B j) 1)) /\
      length (B (S j)) = m /\ Forall pos (B (S j))).
    { intros j Lj Fj. destruct (H j) as [HC [HE HT]]. destruct (adapt_even sc zs m (B j) _ _ Hm Lj Fj HC HE) as [b1 [E [L1 [F1 [E0 [E1 EK]]]]]].
      assert (X : OK b1 = OK (B (S j))) by (rewrite <- E; exact HT). injection X; intros <-. auto. }
    induction j as [|j [_ [_ [_ [_ [_ [Lj Fj]]]]]]]; (split; [assumption|split; [assumption|apply St; assumption]]). }
  apply b_lim; auto; try (intro j; apply (K j)); try lia.
Qed.
Print Assumptions C93_limit.

(** ** Runs *)
Lemma noswap_evenly : forall (S : Setup N), Legal S -> (N_swap (s_cfg S) <= 0)%Z -> forall D G0 h Gf, history S D G0 h Gf ->
  (0 < Tune_Ladder (s_cfg S))%Z -> forall s, In s h -> evenly (s_n S) (sr_nsw s) (sr_npr s).
Proof.
  intros S HL HN D G0 h Gf HH HT s Hs. destruct (run_stats N S HL D G0 h Gf HH HT _ (exact_N _) s Hs (Z.le_refl _)) as [wss [H2 [E1 _]]].
  assert (W : concat wss = []).
  { clear - H2 HN. induction H2 as [|b ws bl wss [L _] H2 IH]; auto. cbn [concat]. rewrite IH. destruct ws; auto. exfalso. cbn [length] in L. lia. }
  assert (Z0 : forall k, (k < s_n S)%nat -> val (nth k (sr_npr s) None) = 0).
  { intros k Hk. rewrite E1, W. rewrite (map_nth2 _ _ k 0%nat) by (rewrite seq_length; auto). reflexivity. }
  pose proof HL as [_ [VC _]]. pose proof (vc_n _ _ VC) as Hn.
  unfold evenly. cbv zeta. split; [|split; left; apply Z0; lia]. intros k Hk. left. apply Z0. lia.
Qed.

(** In every legal run over the extended reals whose stacks have such rates, an increasing positive ladder stays
    increasing and keeps its ends on every rank at every recorded state. *)
Theorem C93_run : forall (S : Setup N), Legal S -> forall sc zs, scale_tune_ladder (s_cfg S) = Some sc -> zero_stretch (s_cfg S) = Some zs ->
  let b0 := firstn (s_n S) (Beta_Values (s_cfg S)) in Forall pos b0 -> increasing (s_n S) b0 ->
  forall D G0 h Gf, history S D G0 h Gf -> 
  ((N_swap (s_cfg S) <= 0)%Z \/ forall s, In s h -> evenly (s_n S) (sr_nsw s) (sr_npr s)) ->
  forall G, In G (states G0 h Gf) -> forall r, (r < s_n S)%nat ->
  let b := l_beta (loc_at G r) in
  length b = s_n S /\ Forall pos b /\ increasing (s_n S) b /\ bval b 0 = bval b0 0 /\ bval b (s_n S - 1) = bval b0 (s_n S - 1).
Proof.
  intros S HL sc zs Esc Ezs b0 P0 I0 D G0 h Gf HH HE G HG r Hr b. pose proof HL as [_ [VC _]].
  destruct (betas_hist S HL D (fun l => Forall pos l /\ increasing (s_n S) l /\ bval l 0 = bval b0 0 /\ bval l (s_n S - 1) = bval b0 (s_n S - 1)))
    with (G0 := G0) (h := h) (Gf := Gf) (G := G) as [b' [Lb [Pb Hb]]]; auto.
  - intros s l l' Hs HT Ll [Pl [Il [El Fl]]] HU. rewrite Esc, Ezs in HU.
    assert (Ev : evenly (s_n S) (sr_nsw s) (sr_npr s)) by (destruct HE as [HN|HE]; [eapply noswap_evenly; eauto|auto]).
    pose proof (run_counts S HL D G0 h Gf HH HT s Hs) as HC. pose proof (vc_n _ _ VC) as Hn.
    destruct (adapt_even sc zs (s_n S) l _ _ ltac:(lia) Ll Pl HC Ev) as [b1 [E [L1 [F1 [E0 [E1 EK]]]]]].
    assert (X : OK b1 = OK l') by (rewrite <- E; exact HU). injection X; intros <-. split; [exact F1|]. split; [|rewrite E0, E1; auto].
    exact (order_kept (s_n S) l b1 Hn Ll Pl E0 E1 EK Il).
  - unfold b. rewrite (Hb r Hr). tauto.
Qed.
Print Assumptions C93_run.

(** every swap accepted: from betas 1/16, 1/2 and 1 one adaptation reaches the geometric ladder; from any four
    betas there is a sequence as in [C93_limit] *)
Definition all_one : list num := [Some 1; Some 1; Some 1; Some 0].
Example C93_case :
  counts 3 [Some 1; Some 1; Some 0] [Some 1; Some 1; Some 0] /\ evenly 3 [Some 1; Some 1; Some 0] [Some 1; Some 1; Some 0] /\
  tune_ladder (A := N) (Some (1 / 5)) (Some (1 / 10)) 3 [Some 1; Some 1; Some 0] [Some 1; Some 1; Some 0] [Some (1 / 16); Some (1 / 2); Some 1] =
    OK [Some (1 / 16); Some (1 / 4); Some 1] /\
  exists B : nat -> list num, B 0%nat = [Some (1 / 27); Some (1 / 2); Some (2 / 3); Some 1] /\
    (forall j, counts 4 all_one all_one /\ evenly 4 all_one all_one /\
       tune_ladder (A := N) (Some (1 / 5)) (Some (1 / 10)) (Z.of_nat 4) all_one all_one (B j) = OK (B (S j))) /\
    Un_cv (fun j => bval (B j) 1) (1 / 27 * Rpower (1 / (1 / 27)) (INR 1 / INR 3)).
Proof.
  assert (C3 : counts 3 [Some 1; Some 1; Some 0] [Some 1; Some 1; Some 0]).
  { split; [reflexivity|]. split; [reflexivity|]. intros k Hk. destruct k as [|[|[|k]]]; [exists 1%Z, 1%Z|exists 1%Z, 1%Z|exists 0%Z, 0%Z|lia]; repeat split; lia. }
  assert (V3 : evenly 3 [Some 1; Some 1; Some 0] [Some 1; Some 1; Some 0]).
  { split; [|split; right; cbn; lra]. intros k Hk. replace k with 1%nat by lia. right. right. cbn. lra. }
  assert (C4 : counts 4 all_one all_one).
  { split; [reflexivity|]. split; [reflexivity|]. intros k Hk. destruct k as [|[|[|[|k]]]]; [exists 1%Z, 1%Z|exists 1%Z, 1%Z|exists 1%Z, 1%Z|exists 0%Z, 0%Z|lia]; repeat split; lia. }
  assert (V4 : evenly 4 all_one all_one).
  { split; [|split; right; cbn; lra]. intros k Hk. right. right. assert (HK : k = 1%nat \/ k = 2%nat) by lia. destruct HK as [-> | ->]; cbn; lra. }
  split; [exact C3|]. split; [exact V3|]. split.
  - assert (F : Forall pos [Some (1 / 16); Some (1 / 2); Some 1]) by (repeat (apply Forall_cons; [eexists; split; [reflexivity|lra]|]); apply Forall_nil).
    destruct (C93_one (1 / 5) (1 / 10) 3 [Some (1 / 16); Some (1 / 2); Some 1] _ _ ltac:(lia) eq_refl F C3 V3) as [b [E [L [P [E0 [E2 EK]]]]]].
    change (Z.of_nat 3) with 3%Z in E. rewrite E. f_equal. destruct b as [|x [|y [|z [|]]]]; try discriminate.
    specialize (EK 1%nat ltac:(lia)). unfold bval in E0, E2, EK. cbn [nth Nat.add Nat.sub] in E0, E2, EK. inversion P as [|? ? Px P2]; subst. inversion P2 as [|? ? Py P3]; subst. inversion P3 as [|? ? Pz _]; subst.
    destruct Px as [x' [-> _]]. destruct Py as [y' [-> _]]. destruct Pz as [z' [-> _]]. cbn [val] in E0, E2, EK. rewrite E0, E2, EK.
    do 3 f_equal. replace (1 / 16 * (1 / 2) * 1 / (1 / 2)) with (1 / 4 * (1 / 4)) by lra. apply sqrt_square. lra.
  - set (step := fun l : list num => match tune_ladder (A := N) (Some (1 / 5)) (Some (1 / 10)) (Z.of_nat 4) all_one all_one l with OK l' => l' | _ => l end).
    set (l0 := [Some (1 / 27); Some (1 / 2); Some (2 / 3); Some 1]). set (B := fun j => Nat.iter j step l0). exists B. split; [reflexivity|].
    assert (F0 : Forall pos l0) by (repeat (apply Forall_cons; [eexists; split; [reflexivity|lra]|]); apply Forall_nil).
    assert (I : forall j, length (B j) = 4%nat /\ Forall pos (B j)).
    { induction j as [|j [L F]]; [split; [reflexivity|exact F0]|]. destruct (C93_one (1 / 5) (1 / 10) 4 (B j) _ _ ltac:(lia) L F C4 V4) as [b [E [L' [F' _]]]].
      change (B (S j)) with (step (B j)). unfold step. rewrite E. auto. }
    assert (H : forall j, counts 4 all_one all_one /\ evenly 4 all_one all_one /\
       tune_ladder (A := N) (Some (1 / 5)) (Some (1 / 10)) (Z.of_nat 4) all_one all_one (B j) = OK (B (S j))).
    { intro j. split; [exact C4|]. split; [exact V4|]. destruct (I j) as [L F].
      destruct (C93_one (1 / 5) (1 / 10) 4 (B j) _ _ ltac:(lia) L F C4 V4) as [b [E _]]. change (B (S j)) with (step (B j)). unfold step. rewrite E. reflexivity. }
    split; [exact H|]. exact (C93_limit (1 / 5) (1 / 10) 4 B (fun _ => all_one) (fun _ => all_one) ltac:(lia) eq_refl F0 H 1%nat ltac:(lia)).
Qed.

(** three ranks without swaps, with the betas of [threeN]: a legal setup for [C93_run] *)
Definition quiet_cfg : Cfg N :=
  mkCfgP N 3 400000 5000 20 5 0 0 300000 400000 1000 1 300000 100000 20
    (nlit 10 2) (nlit 45 2) (nlit 23 2) (nlit 1 1) (nof 20) (nof 300) (nlit 2 1) (nlit 1 1)
    [nlit 1 2; nlit 1 1; nof 1].
Definition quietN : Setup N := mkSetup quiet_cfg (demo_user _) 3 (demo_env _) 2.
Example C93_run_case : Legal quietN /\ (N_swap (s_cfg quietN) <= 0)%Z /\ (0 < Tune_Ladder (s_cfg quietN))%Z /\
  Forall pos (firstn 3 (Beta_Values (s_cfg quietN))) /\ increasing 3 (firstn 3 (Beta_Values (s_cfg quietN))).
Proof.
  split.
  { split; [apply RandOK_N|]. split; [|split].
    - constructor; cbn; try (vm_compute; intuition discriminate); try lia.
    - constructor; [constructor| |]; try (cbn; lia).
      + intros x Hx. exact (uo_bound _ _ (vu_ok _ _ (demo_user_valid N)) x Hx).
      + intros s. exact (uo_init _ _ (vu_ok _ _ (demo_user_valid N)) s).
      + reflexivity.
    - apply demo_env_valid. }
  split; [cbn; lia|]. split; [cbn; lia|].
  assert (E : firstn 3 (Beta_Values (s_cfg quietN)) = [Some (1 / 100); Some (1 / 10); Some 1]).
  { cbn [Beta_Values quiet_cfg s_cfg quietN]. rewrite !nlit_some by lia. reflexivity. }
  rewrite E. split; [repeat (apply Forall_cons; [eexists; split; [reflexivity|lra]|]); apply Forall_nil|]. intros k Hk. destruct k as [|[|k]]; [| |lia]; unfold bval; cbn; lra.
Qed.
