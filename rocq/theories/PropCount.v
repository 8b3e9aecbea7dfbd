(** Properties C15-C20: rows, counters, number of iterations, burn-in, limits of the configuration. *)
From Coq Require Import ZArith Arith List Bool Lia.
From Verif Require Import Base Arith B64 Rand Mh Mpi Prog Seq MhSpec Refine SeqTotal System SeqFiles RandRange Demo Runs SeedRuns History Views
  RunHist HistCount HistRows FailRuns OneRank CountLemmas.
Import ListNotations.
Open Scope Z_scope.

(** C15, one call of iter_batch_mh.  The batch goes through nb rows; each is the bounded proposal made
    from the preceding one, with its own log-posterior, or a repeat ([mhwalk]); the last row is what
    the caller gets, and the rows saved are all or none of them. *)
Theorem C15_batch : forall A (U : User A) D np x sigma nb beta g it acc sb lp,
  BoundLen U np -> haslen np sigma -> haslen np x -> 1 <= nb ->
  0 <= it -> it + nb <= INT_MAX -> 0 <= acc -> acc + nb <= INT_MAX ->
  exists out rows bs, iter_batch_mh U D np x sigma nb beta g it acc sb lp = OK out /\
    mhwalk U D np sigma beta g (mkRow x lp it acc) rows bs (b_g out) /\
    Z.of_nat (length rows) = nb /\
    mkRow (b_last out) (b_lp out) (b_it out) (b_acc out) = last rows (mkRow x lp it acc) /\
    b_saved out = (if sb <=? it + nb then rows else []).
Proof. exact batch_rows. Qed.
Print Assumptions C15_batch.

Example C15_batch_case : forall L D x, haslen 3 x ->
  exists out rows bs, iter_batch_mh (demo_user (B64 L)) D 3 x (u_gp (demo_user (B64 L))) 20 (nof 1) 7 100 30 0 (nof (-9)) = OK out /\
    mhwalk (demo_user (B64 L)) D 3 (u_gp (demo_user (B64 L))) (nof 1) 7 (mkRow x (nof (-9)) 100 30) rows bs (b_g out) /\
    Z.of_nat (length rows) = 20 /\ b_saved out = rows.
Proof.
  intros L D x Hx. pose proof (demo_user_valid (B64 L)) as [UO _ _]. destruct UO as [BL _ GP].
  destruct (C15_batch _ (demo_user (B64 L)) D 3 x (u_gp (demo_user (B64 L))) 20 (nof 1) 7 100 30 0 (nof (-9)) BL GP Hx)
    as [out [rows [bs [H1 [H2 [H3 [_ H5]]]]]]]; try (unfold INT_MIN, INT_MAX; lia).
  exists out, rows, bs. repeat split; auto.
Qed.

(** C15, whole runs: in every batch of every rank the rows form such a walk, from the row the rank
    holds when the batch begins, with its own widths, beta and generator ([batch_walk]); the chain file
    is the initial row followed by the rows of the saved batches, in order. *)
Theorem C15_runs : forall A (S : Setup A), Legal S -> forall D G0 h Gf, history S D G0 h Gf ->
  forall k tr X, execution S k tr X -> complete S X -> forall r, (r < s_n S)%nat ->
  exists xs, Forall2 (fun b x => batch_walk S D r b (fst x) (snd x)) (hbatches h) xs /\
    file (FChain r) tr = EvRow r (mkRow (x_at G0 r) (lp_at G0 r) 0 0) ::
      concat (map (fun bx => if i_save_begin (s_cfg S) <=? l_it (loc_at (br_mid (fst bx)) r)
                             then map (EvRow r) (fst (snd bx)) else [])
        (combine (hbatches h) xs)).
Proof. intros A S HL. exact (rows_by_batch S HL). Qed.
Print Assumptions C15_runs.

(** the history these theorems speak about always exists, and is unique *)
Example history_case : forall L, exists D G0 h Gf, history (demo L) D G0 h Gf /\
  forall D' G0' h' Gf', history (demo L) D' G0' h' Gf' -> h' = h.
Proof.
  intros L. destruct (history_exists (demo L) (demo_legal L)) as [D [G0 [h [Gf HH]]]]. exists D, G0, h, Gf. split; auto.
  intros D' G0' h' Gf' H'. destruct (history_unique (demo L) _ _ _ _ _ _ _ _ H' HH) as [_ [_ [-> _]]]. auto.
Qed.

(** C16.  In the chain file of a complete run: the initial row with counters 0 0, then rows whose
    iteration column rises by one and whose acceptance column rises by zero or one, always
    acceptance <= iteration <= N_iter; the rank ends with iteration counter N_iter, and if any row
    was saved the last one carries the final counters. *)
Theorem C16_columns : forall A (S : Setup A), Legal S ->
  forall k tr X, execution S k tr X -> complete S X -> forall r, (r < s_n S)%nat ->
  exists r0 rows s, file (FChain r) tr = map (EvRow r) (r0 :: rows) /\
    r_it r0 = 0 /\ r_acc r0 = 0 /\
    (forall k p q, nth_error rows k = Some p -> nth_error rows (Datatypes.S k) = Some q -> follows p q) /\
    Forall (fun q => 0 < r_it q <= N_iter (s_cfg S) /\ 0 <= r_acc q <= r_it q) rows /\
    pr X r = Ret s /\ l_it (lo s) = N_iter (s_cfg S) /\
    (rows <> [] -> r_it (last rows r0) = N_iter (s_cfg S) /\ r_acc (last rows r0) = l_acc (lo s)).
Proof. exact @columns_complete. Qed.
Print Assumptions C16_columns.

(** the columns of a run that was cut off anywhere *)
Theorem C16_columns_any_time : forall A (S : Setup A), Legal S ->
  forall k tr X, execution S k tr X -> forall r, (r < s_n S)%nat ->
  exists rows, file (FChain r) tr = map (EvRow r) rows /\
    (forall j p q, nth_error rows (Datatypes.S j) = Some p ->
       nth_error rows (Datatypes.S (Datatypes.S j)) = Some q -> follows p q) /\
    Forall (fun q => 0 <= r_it q <= N_iter (s_cfg S) /\ 0 <= r_acc q <= r_it q) rows.
Proof. exact @columns_any. Qed.
Print Assumptions C16_columns_any_time.

(** the final accept counter is the number of accepted proposals, out of N_iter *)
Theorem C16_final_counters : forall A (S : Setup A), Legal S -> forall D G0 h Gf, history S D G0 h Gf ->
  forall k tr X, execution S k tr X -> complete S X -> forall r, (r < s_n S)%nat ->
  exists xs s, Forall2 (fun b x => batch_walk S D r b (fst x) (snd x)) (hbatches h) xs /\
    Z.of_nat (length (decisions xs)) = N_iter (s_cfg S) /\
    pr X r = Ret s /\ l_it (lo s) = N_iter (s_cfg S) /\ l_acc (lo s) = ctrue (decisions xs).
Proof. exact @final_counters. Qed.
Print Assumptions C16_final_counters.

(** the hypotheses are met: a complete execution of the demo setup exists *)
Example complete_case : forall L, exists k tr X, execution (demo L) k tr X /\ complete (demo L) X.
Proof. intros L. apply legal_completes, demo_legal. Qed.

(** C17.  Stack lengths are 1 .. n_iter_a_stack (all but the last full) and add up to N_iter; batch
    lengths are 1 .. base+rand and add up to the stack length ... *)
Theorem C17_lengths : forall A (S : Setup A), Legal S -> forall D G0 h Gf, history S D G0 h Gf ->
  zsum (map sr_len h) = N_iter (s_cfg S) /\
  Forall (fun s => 1 <= sr_len s <= n_iter_a_stack (s_cfg S) /\
    (sr_end s < N_iter (s_cfg S) -> sr_len s = n_iter_a_stack (s_cfg S)) /\
    zsum (map br_len (sr_batches s)) = sr_len s /\
    Forall (fun b => 1 <= br_len b <= n_iter_a_batch_base (s_cfg S) + n_iter_a_batch_rand (s_cfg S)) (sr_batches s)) h.
Proof. exact @schedule_sums. Qed.
Print Assumptions C17_lengths.

(** ... every rank makes exactly N_iter Metropolis steps, in whatever order the ranks run, and no
    execution is longer than N machine steps. *)
Theorem C17_steps : forall A (S : Setup A), Legal S ->
  (exists N, forall k tr X, execution S k tr X -> (k <= N)%nat) /\
  forall D G0 h Gf, history S D G0 h Gf -> forall r, (r < s_n S)%nat ->
  exists xs, Forall2 (fun b x => batch_walk S D r b (fst x) (snd x)) (hbatches h) xs /\
    Z.of_nat (length (rows_in xs)) = N_iter (s_cfg S).
Proof.
  intros A S HL. split.
  - destruct (legal_bound S HL) as [N HN]. exists N. intros k tr X HE. apply (HN _ _ _ HE).
  - intros D G0 h Gf HH r Hr. destruct (history_walks S HL _ _ _ _ HH r Hr) as [xs [W [_ [_ [L _]]]]]. exists xs. auto.
Qed.
Print Assumptions C17_steps.

(** C18.  What is saved: after the initial row exactly the rows of the batches bl2, the ones that end
    at or after i_save_begin, complete and in order; bl1 are the ones before. *)
Theorem C18_saved_batches : forall A (S : Setup A), Legal S -> forall D G0 h Gf, history S D G0 h Gf ->
  forall k tr X, execution S k tr X -> complete S X -> forall r, (r < s_n S)%nat ->
  exists bl1 bl2 xs1 xs2,
    hbatches h = bl1 ++ bl2 /\
    Forall2 (fun b x => batch_walk S D r b (fst x) (snd x)) bl1 xs1 /\
    Forall2 (fun b x => batch_walk S D r b (fst x) (snd x)) bl2 xs2 /\
    Forall (fun e => e < i_save_begin (s_cfg S)) (ends 0 bl1) /\
    Forall (fun e => i_save_begin (s_cfg S) <= e) (ends (zsum (map br_len bl1)) bl2) /\
    file (FChain r) tr = EvRow r (mkRow (x_at G0 r) (lp_at G0 r) 0 0) :: map (EvRow r) (rows_in xs2).
Proof.
  intros A S HL D G0 h Gf HH k tr X HE HC r Hr.
  destruct (history_saved S HL _ _ _ _ HH _ _ _ HE HC r Hr) as
    [b1 [b2 [x1 [x2 [EB [W1 [W2 [E1 [E2 [_ [_ [_ [_ [_ [_ HF]]]]]]]]]]]]]]].
  exists b1, b2, x1, x2. repeat split; auto.
Qed.
Print Assumptions C18_saved_batches.

(** nothing at or after i_save_begin is lost, and at most base+rand-1 earlier rows are saved *)
Theorem C18_slack : forall A (S : Setup A), Legal S ->
  forall k tr X, execution S k tr X -> complete S X -> forall r, (r < s_n S)%nat ->
  exists r0 rows, file (FChain r) tr = map (EvRow r) (r0 :: rows) /\ r_it r0 = 0 /\
    Forall (fun q => i_save_begin (s_cfg S) - (n_iter_a_batch_base (s_cfg S) + n_iter_a_batch_rand (s_cfg S)) < r_it q) rows /\
    (forall i, i_save_begin (s_cfg S) <= i -> 1 <= i <= N_iter (s_cfg S) -> exists q, In q rows /\ r_it q = i).
Proof. exact @save_begin_slack. Qed.
Print Assumptions C18_slack.

(** rows before i_save_begin are saved: in every run where the first batch is long enough ... *)
Theorem C18_early_rows : forall A (S : Setup A), Legal S -> 2 <= i_save_begin (s_cfg S) ->
  i_save_begin (s_cfg S) <= N_iter (s_cfg S) -> i_save_begin (s_cfg S) <= n_iter_a_stack (s_cfg S) ->
  i_save_begin (s_cfg S) <= n_iter_a_batch_base (s_cfg S) - n_iter_a_batch_rand (s_cfg S) ->
  forall k tr X, execution S k tr X -> complete S X -> forall r, (r < s_n S)%nat ->
  exists q, In (EvRow r q) (file (FChain r) tr) /\ r_it q = 1.
Proof. exact @saved_too_early. Qed.
Print Assumptions C18_early_rows.

(** ... so i_save_begin is not honoured row by row. *)
Theorem C18_row_by_row_refuted : exists A (S : Setup A), Legal S /\ exists k tr X,
  execution S k tr X /\ complete S X /\ exists r q, (r < s_n S)%nat /\ In (EvRow r q) (file (FChain r) tr) /\
    0 < r_it q < i_save_begin (s_cfg S).
Proof.
  exists RArith, (with_cfg demoR (set_save (s_cfg demoR) 5)).
  assert (HL : Legal (with_cfg demoR (set_save (s_cfg demoR) 5))) by (apply set_save_legal; apply demoR_legal).
  split; [exact HL|]. destruct (legal_completes _ _ HL) as [k [tr [Y [HY HC]]]].
  exists k, tr, Y. split; [exact HY|]. split; [exact HC|].
  destruct (C18_early_rows _ _ HL) with (k := k) (tr := tr) (X := Y) (r := 0%nat) as [q [Hq Hi]]; auto;
    try (cbn; lia).
  exists 0%nat, q. split; [cbn; lia|]. split; [exact Hq|]. rewrite Hi. cbn. lia.
Qed.
Print Assumptions C18_row_by_row_refuted.

(** C19.  [fails S e]: some execution of S reaches the undefined behaviour or non-termination e, and
    no execution completes.  Every legal setup fails when n_iter_a_stack is made <= 0 ... *)
Theorem C19_stack_nonpositive : forall A (S : Setup A), Legal S -> forall k, k <= 0 -> 0 < N_iter (s_cfg S) ->
  exists e, (e = OutOfFuel \/ e = IntOverflow) /\ (k = 0 -> e = OutOfFuel) /\
    fails (with_cfg S (set_stack (s_cfg S) k)) e.
Proof. exact @stack_nonpos_fails. Qed.
Print Assumptions C19_stack_nonpositive.

(** ... or when base and rand are such that the first jitter v gives an empty or negative batch ... *)
Theorem C19_empty_batch : forall A (S : Setup A), Legal S -> forall b R v g',
  0 < N_iter (s_cfg S) -> 0 <= R <= INT_MAX -> INT_MIN <= b + v <= 0 ->
  i4_unif_ab (A := A) (- R) R (root_gen S) = OK (v, g') ->
  fails (with_cfg S (set_batch (s_cfg S) b R)) OutOfBounds.
Proof. exact @short_batch_fails. Qed.
Print Assumptions C19_empty_batch.

(** ... and for every b <= R some generator state gives such a jitter. *)
Theorem C19_empty_batch_exists : forall L (S : Setup (B64 L)), Legal S -> forall b R,
  0 < N_iter (s_cfg S) -> 0 <= R -> 2 * R <= INT_MAX -> INT_MIN + R <= b <= R ->
  exists U, Legal (with_user S U) /\ fails (with_cfg (with_user S U) (set_batch (s_cfg S) b R)) OutOfBounds.
Proof.
  intros L S HL b R HN HR HR2 Hb. exists (set_gen (s_user S) 107048004364969).
  split; [apply set_gen_legal; auto|].
  apply (short_batch_fails (with_user S (set_gen (s_user S) 107048004364969))) with (v := - R) (g' := 0); auto; try lia.
  - apply set_gen_legal; auto.
  - rewrite set_gen_root. apply i4_unif_ab_low; auto.
Qed.
Print Assumptions C19_empty_batch_exists.

(** a run with one rank fails: the only chain looks for a partner *)
Theorem C19_one_rank : forall A (S : Setup A), Legal S -> Draw0 A -> 0 < N_iter (s_cfg S) -> 0 < N_swap (s_cfg S) ->
  exists e, (e = OutOfBounds \/ e = NoSuchRank) /\
    ((Swapmode (s_cfg S) = 0 \/ Swapmode (s_cfg S) = 1) -> e = OutOfBounds) /\ fails (with_ranks S 1) e.
Proof. exact @one_rank_fails. Qed.
Print Assumptions C19_one_rank.

Example C19_one_rank_case : forall L, fails (with_ranks (demo L) 1) OutOfBounds.
Proof.
  intros L. destruct (C19_one_rank _ (demo L) (demo_legal L) (Draw0_b64 L)) as [e [_ [He HF]]]; try (cbn; lia).
  rewrite <- He; [exact HF|]. cbn. auto.
Qed.

(** Not every configuration runs to completion: the shipped regression example, with its own seed,
    fails when n_iter_a_batch_rand is 25 instead of 5 (base is 20), and loops forever when
    n_iter_a_stack is 0. *)
Theorem C19_any_configuration_refuted : forall L,
  fails (with_cfg (demo L) (set_batch (s_cfg (demo L)) 20 25)) OutOfBounds /\
  fails (with_cfg (demo L) (set_stack (s_cfg (demo L)) 0)) OutOfFuel.
Proof.
  intros L. split.
  - apply (C19_empty_batch _ (demo L) (demo_legal L)) with (v := -23) (g' := lcg (root_gen (demo L))).
    + reflexivity.
    + unfold INT_MAX. lia.
    + unfold INT_MIN. lia.
    + vm_compute. reflexivity.
  - destruct (C19_stack_nonpositive _ (demo L) (demo_legal L) 0) as [e [_ [He HF]]]; try (cbn; lia).
    rewrite <- He; auto.
Qed.
Print Assumptions C19_any_configuration_refuted.

(** C20.  Within the limits no rank ever overflows (an overflow would be [Fail IntOverflow]), and the
    counters never wrap: when a rank is through, its iteration counter is N_iter and its accept counter
    is at most that. *)
Theorem C20_no_overflow : forall A (S : Setup A), Legal S ->
  forall k tr X, execution S k tr X -> forall r, (r < s_n S)%nat ->
  (forall e, pr X r <> Fail e) /\
  (complete S X -> exists s, pr X r = Ret s /\ l_it (lo s) = N_iter (s_cfg S) /\
     0 <= l_acc (lo s) <= N_iter (s_cfg S)).
Proof.
  intros A S HL k tr X HE r Hr. destruct (legal_bound S HL) as [N HN]. split.
  - intros e. apply (HN _ _ _ HE); auto.
  - intros HC. destruct (history_exists S HL) as [D [G0 [h [Gf HH]]]].
    destruct (final_counters S HL _ _ _ _ HH _ _ _ HE HC r Hr) as [xs [s [_ [L [P [I Ac]]]]]].
    exists s. pose proof (ctrue_range (decisions xs)). split; [auto|]. split; [auto|lia].
Qed.
Print Assumptions C20_no_overflow.

(** The first bound is needed: if the last stack would step over INT_MAX the run fails ... *)
Theorem C20_iter_bound_needed : forall A (S : Setup A), Legal S -> forall N k, N <= INT_MAX -> 0 <= k ->
  k * n_iter_a_stack (s_cfg S) < N -> INT_MAX < (k + 1) * n_iter_a_stack (s_cfg S) ->
  fails (with_cfg S (set_iter (s_cfg S) N)) IntOverflow.
Proof. exact @iter_overflow_fails. Qed.
Print Assumptions C20_iter_bound_needed.

Example C20_iter_bound_case : forall L,
  fails (with_cfg (demo L) (set_iter (s_cfg (demo L)) INT_MAX)) IntOverflow.
Proof.
  intros L. apply (C20_iter_bound_needed _ (demo L) (demo_legal L)) with (k := 429496); vm_compute; intuition discriminate.
Qed.

(** ... and so is the second: a first jitter that takes base beyond INT_MAX makes the run fail, and
    some generator state gives every jitter up to rand. *)
Theorem C20_batch_bound_needed : forall A (S : Setup A), Legal S -> forall b R v g',
  0 < N_iter (s_cfg S) -> 0 <= R <= INT_MAX -> INT_MAX < b + v ->
  i4_unif_ab (A := A) (- R) R (root_gen S) = OK (v, g') ->
  fails (with_cfg S (set_batch (s_cfg S) b R)) IntOverflow.
Proof. exact @long_batch_fails. Qed.
Print Assumptions C20_batch_bound_needed.

Theorem C20_batch_bound_exists : forall L (S : Setup (B64 L)), Legal S -> forall b R,
  0 < N_iter (s_cfg S) -> 0 <= R -> 2 * R <= INT_MAX -> INT_MAX < b + R ->
  exists U, Legal (with_user S U) /\ fails (with_cfg (with_user S U) (set_batch (s_cfg S) b R)) IntOverflow.
Proof.
  intros L S HL b R HN HR HR2 Hb. exists (set_gen (s_user S) 142368275371844).
  split; [apply set_gen_legal; auto|].
  apply (long_batch_fails (with_user S (set_gen (s_user S) 142368275371844))) with (v := R) (g' := RMOD - 1); auto; try lia.
  - apply set_gen_legal; auto.
  - rewrite set_gen_root. apply i4_unif_ab_high; auto.
Qed.
Print Assumptions C20_batch_bound_exists.
