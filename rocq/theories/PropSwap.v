(** Properties C21 - C25: swaps between ladder positions. *)
From Coq Require Import ZArith Arith List Bool Reals Lia Lra Permutation.
From Flocq Require Import IEEE754.BinarySingleNaN.
From Verif Require Import Base Arith B64 Rand Mh Ladder Tune Mpi MpiMeta Spmd Prog Seq ListAux MhSpec SeqWf Refine
  SeqTotal System RandRange Seeds UserModels Demo Runs SeqFiles History Views RunHist HistCount HistRows FailRuns CountLemmas
  SwapLemmas SwapReal ChainInv Stale SwapMore.
Import ListNotations.
Open Scope Z_scope.

(** C21.  Every batch makes N_swap attempts, one after the other; an attempt either changes nothing
    or exchanges the vectors of its two positions i and j; the other positions, the widths of all
    ranks, the counters and the betas stay as they are; over the whole batch the vectors are only
    permuted. *)
Theorem C21_exchange : forall A (S : Setup A), Legal S -> forall D G0 h Gf, history S D G0 h Gf ->
  forall b, In b (hbatches h) -> exists ws, attempts_of S D b ws /\
    Forall (fun w =>
      (sw_i w < s_n S)%nat /\ (sw_j w < s_n S)%nat /\
      (sw_done w = false -> transit (g_ro (sw_post w)) = transit (g_ro (sw_pre w)) /\ lps (g_ro (sw_post w)) = lps (g_ro (sw_pre w))) /\
      (sw_done w = true ->
         x_at (sw_post w) (sw_i w) = x_at (sw_pre w) (sw_j w) /\ x_at (sw_post w) (sw_j w) = x_at (sw_pre w) (sw_i w)) /\
      (forall r, (r < s_n S)%nat -> r <> sw_i w -> r <> sw_j w ->
         x_at (sw_post w) r = x_at (sw_pre w) r /\ lp_at (sw_post w) r = lp_at (sw_pre w) r) /\
      sigt (g_ro (sw_post w)) = sigt (g_ro (sw_pre w)) /\
      (forall r, (r < s_n S)%nat ->
         l_sig (loc_at (sw_post w) r) = l_sig (loc_at (sw_pre w) r) /\ l_it (loc_at (sw_post w) r) = l_it (loc_at (sw_pre w) r) /\
         l_acc (loc_at (sw_post w) r) = l_acc (loc_at (sw_pre w) r) /\ l_beta (loc_at (sw_post w) r) = l_beta (loc_at (sw_pre w) r))) ws /\
    Permutation (transit (g_ro (br_mid b))) (transit (g_ro (br_post b))).
Proof. exact swaps_exchange. Qed.
Print Assumptions C21_exchange.

(** every batch of the demo run has an attempt *)
Example C21_case : forall L, exists D b w ws, attempt (demo L) D w /\ attempts_of (demo L) D b (w :: ws).
Proof. intros L. apply (attempt_exists (demo L) (demo_legal L)); reflexivity. Qed.

(** a difference of 0 is always accepted, one of -1000 never *)
Example C21_both : forall L, l_exp L (B754_zero false) = bof 1 -> forall g,
  swap_ok (A := B64 L) (nof 0) g = true.
Proof.
  intros L HE g. unfold swap_ok. change (nltb (nof 0) (@nof (B64 L) 0)) with false. cbv iota.
  change (nexp (@nof (B64 L) 0)) with (l_exp L (B754_zero false)). rewrite HE. apply draw_below_one.
Qed.
Example C21_not : forall L, l_exp L (bof (-1000)) = B754_zero false -> forall g,
  swap_ok (A := B64 L) (nof (-1000)) g = false.
Proof.
  intros L HE g. unfold swap_ok. replace (nltb (nof 0) (@nof (B64 L) (-1000))) with false by (vm_compute; reflexivity). 
  change (nexp (@nof (B64 L) (-1000))) with (l_exp L (bof (-1000))). rewrite HE. apply draw_not_below_zero.
Qed.

(** C22.  Over the reals, for a likelihood tempered as beta*Lk(x) and any prior: as long as the
    cached values of the two positions are right, the attempt succeeds exactly when the uniform
    number is below min(1, exp((beta_i - beta_j)(Lk x_j - Lk x_i))). *)
Theorem C22_rule : forall (S : Setup RArith) D Lk w, tempered S D Lk -> attempt S D w ->
  cached_at S D (sw_pre w) (sw_i w) -> cached_at S D (sw_pre w) (sw_j w) ->
  let i := sw_i w in let j := sw_j w in let G := sw_pre w in
  (0 <= unif (sw_g w) < 1)%R /\
  (sw_done w = true <->
   (unif (sw_g w) < Rmin 1 (exp ((beta_at G i - beta_at G j) * (Lk (x_at G j) - Lk (x_at G i)))))%R).
Proof. exact attempt_rule. Qed.
Print Assumptions C22_rule.

(** In a run without ladder adaptation the proviso always holds, for every attempt. *)
Theorem C22_runs : forall S : Setup RArith, Legal S -> Tune_Ladder (s_cfg S) <= 0 -> forall D Lk, tempered S D Lk ->
  forall G0 h Gf, history S D G0 h Gf -> forall b, In b (hbatches h) ->
  exists ws, attempts_of S D b ws /\
    Forall (fun w : swrec RArith => let i := sw_i w in let j := sw_j w in let G := sw_pre w in
      (sw_done w = true <->
       (unif (sw_g w) < Rmin 1 (exp ((nth i (Beta_Values (s_cfg S)) 0 - nth j (Beta_Values (s_cfg S)) 0) *
                                     (Lk (x_at G j) - Lk (x_at G i)))))%R)) ws.
Proof. exact attempts_rule. Qed.
Print Assumptions C22_runs.

(** Detailed balance for the product of the two tempered posteriors, for every likelihood and prior:
    density before, times the probability of the swap, equals density after, times the
    probability of swapping back. *)
Theorem C22_balance : forall (S : Setup RArith) D w, attempt S D w -> sw_done w = true ->
  cached_at S D (sw_pre w) (sw_i w) -> cached_at S D (sw_pre w) (sw_j w) ->
  let p G := (exp (logpost_at (s_user S) D (x_at G (sw_i w)) (beta_at G (sw_i w))) *
              exp (logpost_at (s_user S) D (x_at G (sw_j w)) (beta_at G (sw_j w))))%R in
  let a G := Rmin 1 (exp (swap_sum (s_user S) D G (sw_i w) (sw_j w))) in
  (p (sw_pre w) * a (sw_pre w) = p (sw_post w) * a (sw_post w))%R.
Proof. exact swap_balance. Qed.
Print Assumptions C22_balance.

(** the regression model is tempered in this sense *)
Definition set_ladder {A} (C : Cfg A) (t : Z) : Cfg A :=
  mkCfgP A (N_parm C) (N_iter C) (n_iter_a_stack C) (n_iter_a_batch_base C) (n_iter_a_batch_rand C) (N_swap C)
    (Swapmode C) (N_begintune C) (N_stoptune C) (n_iter_in_tune C) t (N_stopTuneLadder C) (i_save_begin C)
    (init_rand_seed C) (ar_ok_lower C) (ar_ok_upper C) (ar_best C) (ar_accept_diff C) (sigma_scale_half_ratio C)
    (sigma_jumpin_ratio C) (scale_tune_ladder C) (zero_stretch C) (Beta_Values C).

Example C22_case : exists S : Setup RArith, Legal S /\ Tune_Ladder (s_cfg S) <= 0 /\
  exists D Lk G0 h Gf b, tempered S D Lk /\ history S D G0 h Gf /\ In b (hbatches h) /\ 0 < N_swap (s_cfg S).
Proof.
  set (S := with_cfg demoR (set_ladder (s_cfg demoR) 0)).
  assert (HL : Legal S).
  { split; [apply RandOK_R|]. destruct demoR_legal as [_ [V [VU VE]]]. split; [|split].
    - destruct V. constructor; assumption.
    - destruct VU as [[? ? ?] ? ?]. constructor; [constructor|..]; assumption.
    - exact VE. }
  exists S. split; auto. split; [cbn; lia|]. destruct (history_exists S HL) as [D [G0 [h [Gf HH]]]].
  destruct (batch_exists S HL ltac:(reflexivity) _ _ _ _ HH) as [b Hb].
  exists D, (fun x => reg_sum (A := RArith) x 2 (d_nline D) (d_arr D)), G0, h, Gf, b. split; [|split; [exact HH|split; [exact Hb|reflexivity]]].
  intros x beta. unfold S. cbn [s_user with_cfg demoR demo_user reg_user u_logll]. unfold reg_logll. cbn [nmul RArith]. apply Rmult_comm.
Qed.

(** C23.  After an executed swap the cached values of both positions are those of the vectors now
    stored there, at the betas of these positions. *)
Theorem C23_after : forall A (S : Setup A), Legal S -> forall D G0 h Gf, history S D G0 h Gf ->
  forall b, In b (hbatches h) -> exists ws, attempts_of S D b ws /\
    Forall (fun w => sw_done w = true ->
      let G := sw_post w in
      lp_at G (sw_i w) = logpost_at (s_user S) D (x_at G (sw_i w)) (beta_at G (sw_i w)) /\
      lp_at G (sw_j w) = logpost_at (s_user S) D (x_at G (sw_j w)) (beta_at G (sw_j w))) ws.
Proof. exact swaps_cached. Qed.
Print Assumptions C23_after.

(** C24.  Ladder adaptation off: in every state at a stack or batch boundary the cached value of
    every rank is the log-posterior of the stored vector at the rank's beta ... *)
Theorem C24_states : forall A (S : Setup A), Legal S -> Tune_Ladder (s_cfg S) <= 0 ->
  forall D G0 h Gf, history S D G0 h Gf ->
  right_at S D G0 /\ right_at S D Gf /\
  (forall s, In s h -> right_at S D (sr_pre s) /\ right_at S D (sr_mid s) /\ right_at S D (sr_lad s) /\ right_at S D (sr_post s)) /\
  (forall b, In b (hbatches h) -> right_at S D (br_pre b) /\ right_at S D (br_mid b) /\ right_at S D (br_post b)).
Proof. exact cached_states. Qed.
Print Assumptions C24_states.

(** ... and so in every row of every chain file, at every moment of every execution. *)
Theorem C24_rows : forall A (S : Setup A), Legal S -> Tune_Ladder (s_cfg S) <= 0 ->
  forall D, dataset S D -> forall k tr X, execution S k tr X -> forall r, (r < s_n S)%nat ->
  forall ev, In ev (file (FChain r) tr) ->
  exists q, ev = EvRow r q /\ r_lp q = logpost_at (s_user S) D (r_parm q) (nth r (Beta_Values (s_cfg S)) (nof 0)).
Proof. exact cached_rows. Qed.
Print Assumptions C24_rows.

(** Ladder adaptation on: within a stack the cached values stay right; the adaptation changes the
    betas and nothing else, so that afterwards they belong to the betas before it. *)
Theorem C24_adaptation : forall A (S : Setup A), Legal S -> forall D G0 h Gf, history S D G0 h Gf ->
  forall s, In s h -> (forall r, (r < s_n S)%nat -> cached_at S D (sr_in s) r) ->
  forall r, (r < s_n S)%nat -> cached_at S D (sr_mid s) r /\
    lp_at (sr_lad s) r = logpost_at (s_user S) D (x_at (sr_lad s) r) (beta_at (sr_in s) r).
Proof. exact adaptation_keeps. Qed.
Print Assumptions C24_adaptation.

(** So the invariant fails with ladder adaptation on, in a run of three ranks with betas 1/4, 3/4, 1
    and a constant likelihood, whatever the random numbers (pow(4, 0.5) = 2 is assumed of libm). *)
Theorem C24_adapting_refuted : forall L, l_pow L (bof 4) (nlit (A := B64 L) 5 1) = bof 2 ->
  exists S : Setup (B64 L), Legal S /\ 0 < Tune_Ladder (s_cfg S) /\
  exists D G0 h Gf, history S D G0 h Gf /\ exists s r, In s h /\ (r < s_n S)%nat /\
    cached_at S D (sr_mid s) r /\ ~ cached_at S D (sr_lad s) r.
Proof. exact stale_exists. Qed.
Print Assumptions C24_adapting_refuted.

(** C25.  Positions of an attempt: inside the ladder; neighbours in mode 0, distinct in mode 1;
    position 0 is always the partner in every other mode. *)
Theorem C25_partners : forall A (S : Setup A), Legal S -> forall D G0 h Gf, history S D G0 h Gf ->
  forall b, In b (hbatches h) -> exists ws, attempts_of S D b ws /\
    Forall (fun w => (sw_i w < s_n S - 1)%nat /\ (sw_j w < s_n S)%nat /\
      (Swapmode (s_cfg S) = 0 -> sw_j w = Datatypes.S (sw_i w)) /\
      (Swapmode (s_cfg S) = 1 -> sw_j w <> sw_i w) /\
      (Swapmode (s_cfg S) <> 0 -> Swapmode (s_cfg S) <> 1 -> sw_j w = 0%nat)) ws.
Proof. exact swaps_partners. Qed.
Print Assumptions C25_partners.

(** every first position, and in mode 1 every partner other than i, is drawn in some generator state *)
Theorem C25_all_drawn : forall L n, (2 <= n)%nat -> Z.of_nat n <= INT_MAX ->
  (forall i, 0 <= i < Z.of_nat n - 1 -> exists g, 0 <= g < RMOD /\ i4_unif_0a (A := B64 L) (Z.of_nat n - 1) g = OK (i, lcg g)) /\
  (forall C : Cfg (B64 L), Swapmode C = 1 -> forall i j, 0 <= i < Z.of_nat n - 1 -> 0 <= j < Z.of_nat n -> j <> i ->
     exists g g', 0 <= g < RMOD /\ choose_j C n i g = OK (j, g')).
Proof. exact all_drawn. Qed.
Print Assumptions C25_all_drawn.

(** In other modes the two positions need not be distinct. *)
Theorem C25_other_modes_refuted : forall L n, (2 <= n)%nat -> Z.of_nat n <= INT_MAX ->
  forall C : Cfg (B64 L), Swapmode C <> 0 -> Swapmode C <> 1 ->
  exists g i g1 g2, 0 <= g < RMOD /\ i4_unif_0a (A := B64 L) (Z.of_nat n - 1) g = OK (i, g1) /\ choose_j C n i g1 = OK (i, g2).
Proof. exact same_drawn. Qed.
Print Assumptions C25_other_modes_refuted.

Example C25_case : forall L, Swapmode (s_cfg (demo L)) = 0 /\ (2 <= s_n (demo L))%nat.
Proof. intros L. split; [reflexivity|cbn; lia]. Qed.
