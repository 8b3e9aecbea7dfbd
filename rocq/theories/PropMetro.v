(** Properties C11 - C14: the prior box, the Metropolis rule, exceptional values. *)
From Coq Require Import ZArith Arith List Bool Reals Lia Lra.
From Flocq Require Import Core IEEE754.BinarySingleNaN.
From Verif Require Import Base Arith B64 Rand Mh Ladder Tune Mpi MpiMeta Spmd Prog Seq ListAux MhSpec SeqWf Refine
  SeqTotal System RandRange Seeds UserModels Boundary Demo Runs SeqFiles History Views RunHist HistCount HistRows CountLemmas
  SwapLemmas SwapReal ChainInv Stale SwapMore Metro BoxRuns.
Import ListNotations.
Open Scope Z_scope.

(** C11.  Binary64, for every legal setup whose boundary map is that of the shipped models, with finite
    ranges, whose log-posterior is NaN on NaN, and whose initial vectors are inside: every row of every
    chain file, at every moment of every execution, is inside.  [LibmSpecial] lists the values of exp
    and log at 1, NaN and -inf that C99 requires. *)
Theorem C11_rows_in_box : forall L (S : Setup (B64 L)), Legal S -> forall D (box : list (b64 * b64)), LibmSpecial L ->
  u_bound (s_user S) = para_boundary (A := B64 L) box ->
  Z.of_nat (length box) = N_parm (s_cfg S) ->
  Forall (fun p => is_finite (fst p) = true /\ is_finite (snd p) = true /\ (B2R (fst p) <= B2R (snd p))%R) box ->
  (forall x b, length x = length box -> Exists (fun v : b64 => is_nan v = true) x ->
     is_nan (logpost_at (s_user S) D x b : b64) = true) ->
  (forall r, (r < s_n S)%nat -> inbox box (fst (u_init (s_user S) (seed_of (s_cfg S) (s_n S) (s_env S) r)))) ->
  forall k tr X, execution S k tr X -> dataset S D -> forall r, (r < s_n S)%nat ->
  forall ev, In ev (file (FChain r) tr) -> exists q, ev = EvRow r q /\
    Forall2 (fun (v : b64) p => is_finite v = true /\ (B2R (fst p) <= B2R v <= B2R (snd p))%R) (r_parm q) box.
Proof. exact box_rows. Qed.
Print Assumptions C11_rows_in_box.

(** the shipped models return NaN on NaN if the library functions do (regression: with at least one
    line of data) *)
Theorem C11_models_return_nan : forall L D, LibmNan L -> forall ra rb rc rd re gp smin smax nd,
  nanout (egg_user (A := B64 L) ra rb gp smin smax) D 2 /\
  nanout (curved_user (A := B64 L) ra rb gp smin smax) D 2 /\
  nanout (multi_user (A := B64 L) ra rb gp smin smax) D 2 /\
  nanout (ras_user (A := B64 L) ra rb rc rd re gp smin smax) D 5 /\
  (1 <= d_nline D -> nanout (reg_user (A := B64 L) nd ra rb rd gp smin smax) D 3).
Proof.
  intros L D HN ra rb rc rd re gp smin smax nd.
  split; [apply egg_nan; auto|]. split; [apply curved_nan; auto|]. split; [apply multi_nan; auto|].
  split; [apply ras_nan; auto|]. intros. apply reg_nan; auto.
Qed.
Print Assumptions C11_models_return_nan.

(** models that draw every initial coordinate uniformly (eggbox, curved_likelihood, multi_gaussian,
    rastrigin): nothing need be assumed about the initial vectors *)
Theorem C11_uniform_start : forall L, LibmSpecial L -> forall S : Setup (B64 L), Legal S ->
  forall D (box : list (b64 * b64)),
  u_bound (s_user S) = para_boundary (A := B64 L) box ->
  u_init (s_user S) = init_parm_set (A := B64 L) (repeat DUnif (length box)) box ->
  Z.of_nat (length box) = N_parm (s_cfg S) ->
  Forall (fun p => (is_finite (fst p) = true /\ is_finite (snd p) = true /\ (B2R (fst p) <= B2R (snd p))%R) /\
                   is_finite (Bminus mode_NE (snd p) (fst p)) = true) box ->
  nanout (s_user S) D (length box) ->
  forall k tr X, execution S k tr X -> dataset S D -> forall r, (r < s_n S)%nat ->
  forall ev, In ev (file (FChain r) tr) -> exists q, ev = EvRow r q /\
    Forall2 (fun (v : b64) p => is_finite v = true /\ (B2R (fst p) <= B2R v <= B2R (snd p))%R) (r_parm q) box.
Proof. exact unif_model_rows. Qed.
Print Assumptions C11_uniform_start.

(** all hypotheses met: the eggbox model *)
Example C11_case : forall L, LibmSpecial L -> LibmNan L -> forall D k tr X, execution (egg_demo L) k tr X -> dataset (egg_demo L) D ->
  forall r, (r < 3)%nat -> forall ev, In ev (file (FChain r) tr) ->
  exists q, ev = EvRow r q /\ inbox [(bof 0, bof 31); (bof 0, bof 31)] (r_parm q).
Proof.
  intros L HS HN D k tr X HE HD. apply (C11_uniform_start L HS (egg_demo L) (egg_legal L) D [egg_ra; egg_ra]) with (k := k) (X := X); auto.
  - exact egg_span.
  - apply egg_nan. exact HN.
Qed.
Example C11_libm : LibmSpecial libm0 /\ LibmNan libm0.
Proof. split; [exact libm0_special|exact libm0_nan]. Qed.

(** C12.  Exact reals.  [unif g] is the number drand48 returns in state g (C01); the proposal is
    accepted exactly when it is below min(1, exp(L'-L)). *)
Theorem C12_rule : forall (L L' : R) g,
  fst (drand48 (A := RArith) g) = unif g /\ (0 <= unif g < 1)%R /\
  (mh_ok (A := RArith) L L' g = true <-> (unif g < Rmin 1 (exp (L' - L)))%R) /\
  (mh_better (A := RArith) L L' = true <-> (L < L')%R).
Proof.
  intros. split; [apply drand48_R|]. split; [apply unit_range_lt|]. split; [apply ok_R|apply better_R].
Qed.
Print Assumptions C12_rule.

(** Every batch of every rank of every run is a walk by that rule ([metro]): proposal, decision by the
    next uniform number, which is drawn exactly when the proposal is not better. *)
Theorem C12_runs : forall (S : Setup RArith), Legal S -> forall D G0 h Gf, history S D G0 h Gf ->
  forall r, (r < s_n S)%nat -> forall b, In b (hbatches h) ->
  exists rows bs, length rows = length bs /\ Z.of_nat (length rows) = br_len b /\
    metro (s_user S) D (N_parm (s_cfg S)) (l_sig (loc_at (br_pre b) r)) (beta_at (br_pre b) r)
      (l_g (loc_at (br_pre b) r)) (row_at (br_pre b) r)
      rows bs (l_g (loc_at (br_mid b) r)).
Proof. exact batches_metro. Qed.
Print Assumptions C12_runs.

(** the trial batches of the tuning, too; what they return is the fraction of accepted proposals *)
Theorem C12_tuning : forall (U : User RArith) D np (x0 sigma : list R) nb (beta : R) g (lp : R),
  BoundLen U np -> haslen (A := RArith) np sigma -> haslen (A := RArith) np x0 -> 1 <= nb -> nb <= INT_MAX ->
  exists rows bs g', metro U D np sigma beta g (mkRow (A := RArith) x0 lp 0 0) rows bs g' /\ Z.of_nat (length rows) = nb /\
    iter_batch_mh_tune (A := RArith) U D np x0 sigma nb beta g lp = OK ((IZR (ctrue bs) / IZR nb)%R, g').
Proof.
  intros U D np x0 sigma nb beta g lp H1 H2 H3 H4 H5.
  destruct (tune_batch_walk RArith U D np x0 sigma nb beta g lp H1 H2 H3 H4 H5) as [rows [bs [g' [W [Ln E]]]]].
  exists rows, bs, g'. split; [apply walk_metro; exact W|]. split; [exact Ln|exact E].
Qed.
Print Assumptions C12_tuning.

(** detailed balance with respect to exp *)
Theorem C12_balance : forall L L' : R, (exp L * Rmin 1 (exp (L' - L)) = exp L' * Rmin 1 (exp (L - L')))%R.
Proof. exact metro_balance. Qed.
Print Assumptions C12_balance.

(** The number of generator states that accept is the acceptance probability times 2^48, up to less
    than one state; advancing the generator is a bijection of the states. *)
Theorem C12_probability : forall L L' : R, exists k, 0 <= k <= RMOD /\
  (IZR k - 1 < Rmin 1 (exp (L' - L)) * IZR RMOD <= IZR k)%R /\
  (forall g, mh_ok (A := RArith) L L' g = true <-> lcg g < k) /\
  (forall v, 0 <= v < RMOD -> exists g, (0 <= g < RMOD /\ lcg g = v) /\ forall g', 0 <= g' < RMOD -> lcg g' = v -> g' = g).
Proof.
  intros L L'. destruct (unif_count (Rmin 1 (exp (L' - L)))) as [k [K1 [K2 K3]]].
  - split; [apply Rmin_glb; [lra|left; apply exp_pos]|apply Rmin_l].
  - exists k. split; auto. split; auto. split.
    + intros g. rewrite ok_R. apply K3.
    + intros v Hv. destruct (lcg_bij v Hv) as [g [Hg Hu]]. exists g. auto.
Qed.
Print Assumptions C12_probability.

Example C12_case : exists D G0 h Gf b, history demoR D G0 h Gf /\ In b (hbatches h).
Proof.
  destruct (history_exists demoR demoR_legal) as [D [G0 [h [Gf HH]]]]. 
  destruct (batch_exists demoR demoR_legal ltac:(reflexivity) _ _ _ _ HH) as [b Hb]. exists D, G0, h, Gf, b. auto.
Qed.
Example C12_case2 : (exp 0 * Rmin 1 (exp (-1 - 0)) = exp (-1) * Rmin 1 (exp (0 - -1)))%R.
Proof. apply C12_balance. Qed.

(** C13.  Binary64: NaN and -inf are never accepted, whatever the current value and the draw. *)
Theorem C13_never_accepted : forall L, LibmSpecial L -> forall (current : b64) g,
  mh_ok (A := B64 L) current B754_nan g = false /\ mh_ok (A := B64 L) current (B754_infinity true) g = false.
Proof. intros L HS current g. split; [apply refuse_nan; exact HS|apply refuse_neginf; exact HS]. Qed.
Print Assumptions C13_never_accepted.

(** A proposal above the current value (as doubles, infinities included) is accepted without a draw,
    and no other is. *)
Theorem C13_better_accepted : forall L, LibmSpecial L -> forall (current proposed : b64),
  mh_better (A := B64 L) current proposed = Bltb current proposed /\
  (Bltb current proposed = true -> forall g, mh_ok (A := B64 L) current proposed g = true).
Proof.
  intros L HS a b. pose proof (better_b64 L HS a b) as E. split; [exact E|]. intros H g. unfold mh_ok. rewrite E, H. reflexivity.
Qed.
Print Assumptions C13_better_accepted.

(** the decisions of all batches of all ranks are these: one step of the sampler *)
Theorem C13_step : forall L, LibmSpecial L -> forall (U : User (B64 L)) D (sigma : list b64) (beta : b64) (s : ms),
  let new0 := fst (prop_list (A := B64 L) (ms_x s) sigma (ms_g s)) in
  let g1 := snd (prop_list (A := B64 L) (ms_x s) sigma (ms_g s)) in
  let lpn : b64 := logpost_at U D (u_bound U new0) beta in
  (is_nan lpn = true \/ lpn = B754_infinity true -> ms_x (mhstep U D sigma beta s) = ms_x s /\ ms_lp (mhstep U D sigma beta s) = ms_lp s) /\
  (Bltb (ms_lp s) lpn = true -> ms_x (mhstep U D sigma beta s) = u_bound U new0 /\ ms_g (mhstep U D sigma beta s) = g1).
Proof.
  intros L HS U D sigma beta s new0 g1 lpn. destruct (mhstep_cases U D sigma beta s) as [[Hok E]|[Hok E]];
    fold new0 g1 lpn in Hok, E; rewrite E; cbn [ms_x ms_lp ms_g]; split.
  - intros H. exfalso. destruct (C13_never_accepted L HS (ms_lp s) g1) as [N1 N2].
    destruct H as [H|H]; [apply nan_only in H|]; fold g1 lpn in Hok; rewrite H in Hok; congruence.
  - intros H. destruct (C13_better_accepted L HS (ms_lp s) lpn) as [B _]. rewrite H in B.
    rewrite B. auto.
  - auto.
  - intros H. exfalso. destruct (C13_better_accepted L HS (ms_lp s) lpn) as [_ B]. rewrite (B H) in Hok. discriminate.
Qed.
Print Assumptions C13_step.

(** whole runs: if no initial log-posterior is NaN or -inf, no row of any chain file ever has such a
    value, swaps included *)
Theorem C13_rows : forall L, LibmSpecial L -> forall S : Setup (B64 L), Legal S -> forall D,
  (forall r, (r < s_n S)%nat ->
     let lp : b64 := logpost_at (s_user S) D (fst (u_init (s_user S) (seed_of (s_cfg S) (s_n S) (s_env S) r)))
                 (nth r (Beta_Values (s_cfg S)) (nof 0)) in lp <> B754_nan /\ lp <> B754_infinity true) ->
  forall k tr X, execution S k tr X -> dataset S D -> forall r, (r < s_n S)%nat -> forall ev, In ev (file (FChain r) tr) ->
  exists q, ev = EvRow r q /\ (r_lp q : b64) <> B754_nan /\ (r_lp q : b64) <> B754_infinity true.
Proof. exact sound_rows. Qed.
Print Assumptions C13_rows.

Example C13_case : Bltb (bof 3) (bof 4) = true /\ Bltb (B754_infinity true) (bof 4) = true /\ LibmSpecial libm0.
Proof. split; [reflexivity|]. split; [reflexivity|exact libm0_special]. Qed.
Example C13_rows_case : forall L D r, (r < 3)%nat ->
  (logpost_at (Stale.flat_user L) D (fst (u_init (Stale.flat_user L) (seed_of (Stale.flat_cfg L) 3 (demo_env (B64 L)) r)))
     (nth r (Beta_Values (Stale.flat_cfg L)) (nof 0)) : b64) <> B754_nan.
Proof.
  intros L D r Hr E. apply (f_equal (fun x : b64 => B2SF x)) in E. destruct r as [|[|[|r]]]; [vm_compute in E; discriminate E ..|lia].
Qed.

(** C14, decided negatively.  A chain whose initial log-posterior is NaN (or +inf) never moves: every
    row of its file repeats the first one, in every execution, and no swap changes that. *)
Theorem C14_never_moves : forall L, LibmSpecial L -> forall S : Setup (B64 L), Legal S -> forall D r, (r < s_n S)%nat ->
  let x0 := fst (u_init (s_user S) (seed_of (s_cfg S) (s_n S) (s_env S) r)) in
  let lp0 := logpost_at (s_user S) D x0 (nth r (Beta_Values (s_cfg S)) (nof 0)) in
  (lp0 : b64) = B754_nan \/ (lp0 : b64) = B754_infinity false ->
  (forall k tr X, execution S k tr X -> dataset S D -> forall ev, In ev (file (FChain r) tr) ->
     exists q, ev = EvRow r q /\ r_parm q = x0 /\ r_lp q = lp0) /\
  (forall G0 h Gf, history S D G0 h Gf -> x_at Gf r = x0 /\ lp_at Gf r = lp0).
Proof. exact stuck_rows. Qed.
Print Assumptions C14_never_moves.

(** The claim that a chain recovers is false: here the log-posterior is finite everywhere except at
    the starting point 0 of chain 1, and the chain stays there. *)
Theorem C14_recovers_refuted : forall L, LibmSpecial L -> exists S : Setup (B64 L), Legal S /\ (1 < s_n S)%nat /\
  fst (u_init (s_user S) (seed_of (s_cfg S) (s_n S) (s_env S) 1)) = [bof 0] /\
  (forall D v b, Beqb v (bof 0) = false -> is_finite (logpost_at (s_user S) D [v] b : b64) = true) /\
  (exists k tr X, execution S k tr X /\ complete S X) /\
  forall D k tr X, execution S k tr X -> dataset S D -> forall ev, In ev (file (FChain 1) tr) ->
    exists q, ev = EvRow 1 q /\ r_parm q = [bof 0].
Proof.
  intros L HS. exists (hole L). split; [apply hole_legal|]. split; [cbn; lia|]. split; [apply hole_start|].
  split; [apply hole_elsewhere|]. split; [apply run_exists; apply hole_legal|].
  intros D k tr X HE HD ev He. destruct (hole_never L HS D) as [K _].
  destruct (K k tr X HE HD ev He) as [q [E [Eq _]]]. exists q. auto.
Qed.
Print Assumptions C14_recovers_refuted.

(** A start at -inf is left with the first proposal that is neither NaN nor -inf. *)
Theorem C14_from_minus_infinity : forall L, LibmSpecial L -> forall (proposed : b64) g,
  mh_ok (A := B64 L) (B754_infinity true) proposed g = true <-> proposed <> B754_nan /\ proposed <> B754_infinity true.
Proof.
  intros L HS p g. split.
  - intros H. split; intros ->; [rewrite (refuse_nan L HS) in H|rewrite (refuse_neginf L HS) in H]; discriminate.
  - intros [H1 H2]. apply (C13_better_accepted L HS). destruct p as [s|s| |s m e Hm]; try congruence; try reflexivity.
    destruct s; [congruence|reflexivity].
Qed.
Print Assumptions C14_from_minus_infinity.
Example C14_case : forall L D, logpost_at (hole_user L) D [bof 0] (nof 1) = (B754_nan : b64).
Proof. intros. apply hole_nan. Qed.
