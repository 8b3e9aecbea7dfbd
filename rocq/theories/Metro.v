(** The Metropolis decision, over the reals and in binary64, and what it means for whole runs. *)
From Coq Require Import ZArith Arith List Bool Reals Lia Lra.
From Flocq Require Import Core Plus_error IEEE754.BinarySingleNaN.
From Verif Require Import Base Arith B64 Rand Mh Ladder Tune Mpi MpiMeta Spmd Prog Seq ListAux MhSpec SeqWf Refine
  SeqTotal System B64Facts RandRange Seeds UserModels Boundary Demo Runs SeqFiles History Views RunHist HistCount HistRows
  SwapLemmas SwapReal ChainInv.
Import ListNotations.
Open Scope Z_scope.

(** ** Reals *)
Lemma better_R : forall a b : R, mh_better (A := RArith) a b = true <-> (a < b)%R.
Proof.
  intros. unfold mh_better. cbn [nltb nlog ndiv nof nsub RArith]. rewrite Rdiv_1_r || (unfold Rdiv; rewrite Rinv_1, Rmult_1_r).
  rewrite ln_1. split; intros H.
  - apply Rltb_true in H. lra.
  - destruct (Rltb 0 (b - a)) eqn:E; auto. exfalso. apply Rltb_false in E. lra.
Qed.

Lemma ok_R : forall (a b : R) g, mh_ok (A := RArith) a b g = true <-> (unif g < Rmin 1 (exp (b - a)))%R.
Proof.
  intros a b g. unfold mh_ok. pose proof (unit_range_lt g) as [U0 U1]. fold (unif g) in U0, U1.
  destruct (mh_better (A := RArith) a b) eqn:E.
  - apply better_R in E. split; auto. intros _. rewrite Rmin_left; auto. rewrite <- exp_0. left. apply exp_increasing. lra.
  - assert (N : ~ (a < b)%R) by (intros K; apply better_R in K; congruence).
    rewrite drand48_R. fold (unif g). cbn [nltb nmul nexp nsub nof RArith]. rewrite Rmult_1_r.
    assert (K : (exp (b - a) <= 1)%R).
    { rewrite <- exp_0. destruct (Req_dec (b - a) 0) as [->|]; [lra|]. left. apply exp_increasing. lra. }
    rewrite Rmin_right by auto. split; intros H.
    + apply Rltb_true in H. auto.
    + destruct (Rltb (unif g) (exp (b - a))) eqn:F; auto. exfalso. apply Rltb_false in F. lra.
Qed.

Lemma metro_balance : forall a b : R, (exp a * Rmin 1 (exp (b - a)) = exp b * Rmin 1 (exp (a - b)))%R.
Proof.
  intros a b. replace (exp (a - b)) with (/ exp (b - a))%R.
  - apply balance_min; try apply exp_pos. rewrite <- exp_plus. f_equal. ring.
  - rewrite <- exp_Ropp. f_equal. ring.
Qed.

(** the number of generator states with which the uniform number falls below p *)
Lemma unif_count : forall p : R, (0 <= p <= 1)%R -> exists k, 0 <= k <= RMOD /\ (IZR k - 1 < p * IZR RMOD <= IZR k)%R /\
  forall g, (unif g < p)%R <-> lcg g < k.
Proof.
  intros p Hp. assert (HR : (0 < IZR RMOD)%R) by (apply IZR_lt; reflexivity).
  exists (Zceil (p * IZR RMOD)). pose proof (Zceil_ub (p * IZR RMOD)) as Ku.
  assert (Kl : (IZR (Zceil (p * IZR RMOD)) - 1 < p * IZR RMOD)%R).
  { unfold Zceil. rewrite opp_IZR. pose proof (Zfloor_ub (- (p * IZR RMOD))). lra. }
  split; [|split; [auto|]].
  - split.
    + apply le_IZR. apply Rle_trans with (2 := Ku). apply Rmult_le_pos; lra.
    + apply Zceil_glb. rewrite <- (Rmult_1_l (IZR RMOD)) at 2. apply Rmult_le_compat_r; lra.
  - intros g. unfold unif. split; intros H.
    + apply lt_IZR. apply Rlt_le_trans with (2 := Ku). apply (Rmult_lt_compat_r (IZR RMOD)) in H; auto.
      unfold Rdiv in H. rewrite Rmult_assoc, Rinv_l in H by lra. lra.
    + apply (Rmult_lt_reg_r (IZR RMOD)); auto. unfold Rdiv. rewrite Rmult_assoc, Rinv_l, Rmult_1_r by lra.
      assert (lcg g <= Zceil (p * IZR RMOD) - 1) by lia. apply IZR_le in H0. rewrite minus_IZR in H0. lra.
Qed.

(** A walk with the decision written out: u is the uniform number, L' - L the difference of
    log-posteriors. *)
Inductive metro (U : User RArith) (D : Data RArith) (np : Z) (sigma : list R) (beta : R)
  : Z -> crow RArith -> list (crow RArith) -> list bool -> Z -> Prop :=
| metro_nil : forall g p, metro U D np sigma beta g p [] [] g
| metro_cons : forall g p new0 g1 q rows bs (b : bool) g',
    do_gaussian_propose (A := RArith) np (r_parm p) sigma g = OK (new0, 1%R, g1) ->
    let L := r_lp p in let L' := logpost_at U D (u_bound U new0) beta in
    (b = true <-> unif g1 < Rmin 1 (exp (L' - L)))%R ->
    r_parm q = (if b then u_bound U new0 else r_parm p) ->
    r_lp q = (if b then L' else L) ->
    r_it q = r_it p + 1 ->
    r_acc q = r_acc p + (if b then 1 else 0) ->
    metro U D np sigma beta (if Rlt_dec L L' then g1 else lcg g1) q rows bs g' ->
    metro U D np sigma beta g p (q :: rows) (b :: bs) g'.

Lemma walk_metro : forall (U : User RArith) D np sigma beta g p rows bs g',
  mhwalk U D np sigma beta g p rows bs g' -> metro U D np sigma beta g p rows bs g'.
Proof.
  induction 1 as [|g p new0 g1 g2 q rows bs g' H Hok Hg H1 H2 H3 H4 Hw IH|g p new0 g1 q rows bs g' H Hok H1 H2 H3 H4 Hw IH].
  - constructor.
  - apply metro_cons with (new0 := new0) (g1 := g1); auto.
    + split; auto. intros _. apply ok_R. exact Hok.
    + subst g2. destruct (Rlt_dec (r_lp p) (logpost_at U D (u_bound U new0) beta)) as [K|K].
      * apply better_R in K. rewrite K in IH. exact IH.
      * destruct (mh_better (r_lp p) (logpost_at U D (u_bound U new0) beta)) eqn:E; [apply better_R in E; contradiction|exact IH].
  - apply metro_cons with (new0 := new0) (g1 := g1); auto; try lia.
    + split; [discriminate|]. intros K. apply ok_R in K. congruence.
    + destruct (Rlt_dec (r_lp p) (logpost_at U D (u_bound U new0) beta)) as [K|K]; [|exact IH].
      apply better_R in K. unfold mh_ok in Hok. rewrite K in Hok. discriminate.
Qed.

(** the trial batches of the tuning use the same rule *)
Lemma tune_batch_walk : forall A (U : User A) D np x0 sigma nb beta g lp,
  BoundLen U np -> haslen np sigma -> haslen np x0 -> 1 <= nb -> nb <= INT_MAX ->
  exists rows bs g', mhwalk U D np sigma beta g (mkRow x0 lp 0 0) rows bs g' /\ Z.of_nat (length rows) = nb /\
    iter_batch_mh_tune U D np x0 sigma nb beta g lp = OK (ndiv (nof (ctrue bs)) (nof nb), g').
Proof.
  intros A U D np x0 sigma nb beta g lp HB Hs Hx H1 H2.
  rewrite (iter_batch_mh_tune_spec U D np x0 sigma nb beta g lp HB Hs Hx H1). cbn zeta.
  destruct (mhn_walk U D np sigma beta HB Hs (Z.to_nat nb) (mkMs x0 lp g 0) 0 (mkRow x0 lp 0 0) Hx) as [bs [Hw [Ha Hl]]];
    try (cbn [ms_acc]; rewrite ?Z2Nat.id by lia; lia); auto.
  eexists _, bs, _. split; [exact Hw|]. split; [rewrite map_length, seq_length; apply Z2Nat.id; lia|].
  rewrite Ha. reflexivity.
Qed.

Lemma lcg_bij : forall v, 0 <= v < RMOD -> exists g, (0 <= g < RMOD /\ lcg g = v) /\
  forall g', 0 <= g' < RMOD -> lcg g' = v -> g' = g.
Proof.
  intros v Hv. exists (unlcg v). assert (K : 0 <= unlcg v < RMOD) by (unfold unlcg; apply Z.mod_pos_bound; reflexivity).
  split; [split; [exact K|apply lcg_unlcg; exact Hv]|]. intros g' Hg E. rewrite <- E. symmetry. apply unlcg_lcg. exact Hg.
Qed.

Lemma batches_metro : forall (S : Setup RArith), Legal S -> forall D G0 h Gf, history S D G0 h Gf ->
  forall r, (r < s_n S)%nat -> forall b, In b (hbatches h) ->
  exists rows bs, length rows = length bs /\ Z.of_nat (length rows) = br_len b /\
    metro (s_user S) D (N_parm (s_cfg S)) (l_sig (loc_at (br_pre b) r)) (beta_at (br_pre b) r)
      (l_g (loc_at (br_pre b) r)) (row_at (br_pre b) r)
      rows bs (l_g (loc_at (br_mid b) r)).
Proof.
  intros S HL D G0 h Gf HH r Hr b Hb. destruct (history_walks S HL _ _ _ _ HH r Hr) as [xs [W _]].
  assert (K : exists x, batch_walk S D r b (fst x) (snd x)).
  { clear - W Hb. induction W as [|b' x bl xs Hw W IH]; [destruct Hb|]. destruct Hb as [->|Hb]; [exists x; exact Hw|auto]. }
  destruct K as [[rows bs] [K1 [K2 _]]]. cbn [fst snd] in *. exists rows, bs.
  split; [apply (walk_numbered _ _ _ _ _ _ _ _ _ _ K1)|]. split; [exact K2|]. apply walk_metro. exact K1.
Qed.

(** ** Binary64 *)
Section Bin.
Variable L : Libm.

(** what C99 Annex F asks of exp and log at exceptional arguments and at 1 *)
Definition LibmSpecial : Prop :=
  l_log L (bof 1) = B754_zero false /\ l_exp L B754_nan = B754_nan /\ l_exp L (B754_infinity true) = B754_zero false.
Hypothesis HS : LibmSpecial.

Lemma log_one : @nlog (B64 L) (ndiv (nof 1) (nof 1)) = (B754_zero false : b64).
Proof.
  cbn [nlog ndiv nof B64]. replace (Bdiv mode_NE (bof 1) (bof 1)) with (bof 1).
  - apply HS.
  - apply B2SF_inj. vm_compute. reflexivity.
Qed.

Lemma minus_nan_l : forall x : b64, Bminus mode_NE B754_nan x = B754_nan.
Proof. reflexivity. Qed.
Lemma minus_nan_r : forall x : b64, Bminus mode_NE x B754_nan = B754_nan.
Proof. intros [s|s| |s m e H]; reflexivity. Qed.
Lemma plus_nan_l : forall x : b64, Bplus mode_NE B754_nan x = B754_nan.
Proof. reflexivity. Qed.
Lemma plus_nan_r : forall x : b64, Bplus mode_NE x B754_nan = B754_nan.
Proof. intros [s|s| |s m e H]; reflexivity. Qed.
Lemma mult_nan_l : forall x : b64, Bmult mode_NE B754_nan x = B754_nan.
Proof. reflexivity. Qed.
Lemma draw_not_below_0 : forall g, Bltb (fst (drand48 (A := B64 L) g)) (B754_zero false) = false.
Proof.
  intros g. destruct (drand48_b64 L g) as [V F]. rewrite (Bltb_correct prec emax _ _ F) by reflexivity.
  apply Rlt_bool_false. rewrite V. change (B2R (B754_zero false : b64)) with 0%R. apply unit_range_lt.
Qed.
Lemma draw_not_below_nan : forall g, Bltb (fst (drand48 (A := B64 L) g)) B754_nan = false.
Proof. intros. apply bltb_nan_r. Qed.

(** a difference that is NaN or -inf is refused *)
Definition dead (x : b64) : Prop := x = B754_nan \/ x = B754_infinity true.

Lemma ok_dead : forall a b g, dead (Bminus mode_NE b a) -> mh_ok (A := B64 L) a b g = false /\ mh_better (A := B64 L) a b = false.
Proof.
  intros a b g H. unfold mh_ok.
  assert (E : mh_better (A := B64 L) a b = false).
  { unfold mh_better. rewrite log_one. cbn [nltb nsub B64]. destruct H as [-> | ->]; [apply bltb_nan_r|reflexivity]. }
  rewrite E. split; auto. cbn [nltb nmul nexp nsub nof B64].
  destruct HS as [_ [H1 H2]]. destruct H as [-> | ->].
  - rewrite H1, mult_nan_l. apply draw_not_below_nan.
  - rewrite H2. replace (Bmult mode_NE (B754_zero false) (bof 1)) with (B754_zero false : b64) by (apply B2SF_inj; vm_compute; reflexivity).
    apply draw_not_below_0.
Qed.

Lemma swap_dead : forall s g, dead s -> swap_ok (A := B64 L) s g = false.
Proof.
  intros s g H. unfold swap_ok. cbn [nltb nexp nof B64]. destruct HS as [_ [H1 H2]]. destruct H as [-> | ->].
  - rewrite bltb_nan_r, H1. apply draw_not_below_nan.
  - replace (Bltb (bof 0) (B754_infinity true)) with false by (vm_compute; reflexivity). rewrite H2. apply draw_not_below_0.
Qed.

Lemma dead_minus : forall x y : b64, dead x -> dead (Bminus mode_NE x y).
Proof.
  intros x y [-> | ->]; [left; apply minus_nan_l|].
  destruct y as [s|s| |s m e Hm]; try destruct s; cbn; unfold dead; auto.
Qed.
Lemma dead_plus_l : forall x y : b64, dead x -> dead (Bplus mode_NE x y).
Proof.
  intros x y [-> | ->]; [left; apply plus_nan_l|].
  destruct y as [s|s| |s m e Hm]; try destruct s; cbn; unfold dead; auto.
Qed.
Lemma dead_plus_r : forall x y : b64, dead y -> dead (Bplus mode_NE x y).
Proof.
  intros x y [-> | ->]; [left; apply plus_nan_r|].
  destruct x as [s|s| |s m e Hm]; try destruct s; cbn; unfold dead; auto.
Qed.

(** NaN is never accepted, -inf only when the current value is -inf too (and then neither) *)
Lemma refuse_nan : forall a g, mh_ok (A := B64 L) a B754_nan g = false.
Proof. intros. apply ok_dead. left. apply minus_nan_l. Qed.
Lemma refuse_neginf : forall a g, mh_ok (A := B64 L) a (B754_infinity true) g = false.
Proof.
  intros. apply ok_dead. destruct a as [s|s| |s m e H]; try destruct s; cbn; unfold dead; auto.
Qed.
Lemma stuck_nan : forall b g, mh_ok (A := B64 L) B754_nan b g = false.
Proof. intros. apply ok_dead. left. apply minus_nan_r. Qed.
Lemma stuck_posinf : forall b g, mh_ok (A := B64 L) (B754_infinity false) b g = false.
Proof. intros. apply ok_dead. destruct b as [s|s| |s m e H]; try destruct s; cbn; unfold dead; auto. Qed.

(** the difference is positive exactly when the proposed value is the greater one *)
Lemma better_b64 : forall a b : b64, mh_better (A := B64 L) a b = Bltb a b.
Proof.
  intros a b. unfold mh_better. rewrite log_one. cbn [nltb nsub B64].
  destruct (is_nan a) eqn:Na; [rewrite (nan_only _ Na), minus_nan_r, bltb_nan_r, bltb_nan_l; auto|].
  destruct (is_nan b) eqn:Nb; [rewrite (nan_only _ Nb), minus_nan_l, !bltb_nan_r; auto|].
  pose proof (bpow_gt_0 radix2 emax) as P.
  destruct (is_finite a) eqn:Fa, (is_finite b) eqn:Fb.
  - destruct (bminus_bx b a Fb Fa) as [N HV].
    assert (K : Bltb (B754_zero false) (Bminus mode_NE b a) = true <-> Bltb a b = true).
    { rewrite (bltb_bx (B754_zero false) _) by auto. rewrite (bltb_bx a b) by auto.
      rewrite (bx_finite a), (bx_finite b) by auto. change (bx (B754_zero false)) with 0%R.
      assert (R0 : (B2R a < B2R b)%R -> (0 < rnd (B2R b - B2R a))%R).
      { intros H. assert (rnd (B2R b - B2R a) <> 0)%R.
        { unfold Rminus. apply (round_plus_neq_0 radix2 fexp64 ZnearestE).
          - apply (fmt_B2R b).
          - apply generic_format_opp. apply (fmt_B2R a).
          - lra. }
        assert (0 <= rnd (B2R b - B2R a))%R by (rewrite <- rnd_0; apply rnd_le; lra). lra. }
      assert (R1 : (B2R b <= B2R a)%R -> (rnd (B2R b - B2R a) <= 0)%R) by (intros; rewrite <- rnd_0; apply rnd_le; lra).
      destruct (Rlt_le_dec (B2R a) (B2R b)) as [H|H].
      - split; auto. intros _. destruct HV as [->|[[-> _]|[-> [H1 H2]]]]; auto. lra.
      - split; intros K; [|lra]. destruct HV as [E|[[E [H1 H2]]|[E _]]]; rewrite E in K; [specialize (R1 H); lra| |lra].
        exfalso. assert (EB : B2R b = B2R a) by lra. assert (B0 : B2R a = 0%R) by lra. 
        destruct (bminus_ok b a Fb Fa) as [EV _].
        { rewrite EB, B0, Rminus_0_r, rnd_0, Rabs_R0. exact P. }
        rewrite <- (bx_finite (Bminus mode_NE b a)) in EV.
        + rewrite E, EB, B0, Rminus_0_r, rnd_0 in EV. lra.
        + destruct (is_finite (Bminus mode_NE b a)) eqn:FF; auto. exfalso.
          destruct (bminus_ok b a Fb Fa) as [_ FF']; [rewrite EB, B0, Rminus_0_r, rnd_0, Rabs_R0; exact P|congruence]. }
    destruct (Bltb (B754_zero false) (Bminus mode_NE b a)), (Bltb a b); auto; exfalso; [apply diff_false_true, K; auto| ].
    apply diff_false_true. symmetry. symmetry. apply K. auto.
  - destruct (inf_case b Nb Fb) as [->| ->]; destruct a as [s|s| |s m e H]; try discriminate; try destruct s; reflexivity.
  - destruct (inf_case a Na Fa) as [->| ->]; destruct b as [s|s| |s m e H]; try discriminate; try destruct s; reflexivity.
  - destruct (inf_case a Na Fa) as [->| ->], (inf_case b Nb Fb) as [->| ->]; reflexivity.
Qed.

(** ** whole runs *)
Variable S : Setup (B64 L).
Hypothesis HL : Legal S.
Variable D : Data (B64 L).

Definition sound (x : b64) : Prop := x <> B754_nan /\ x <> B754_infinity true.
Lemma sound_dead : forall x, sound x \/ dead x.
Proof.
  intros x. unfold sound, dead. destruct x as [s|s| |s m e H]; auto; try (left; split; discriminate).
  destruct s; auto. left; split; discriminate.
Qed.
Lemma sound_not_dead : forall x, sound x -> ~ dead x.
Proof. unfold sound, dead. intros x [H1 H2] [H|H]; auto. Qed.

Definition soundP (_ : nat) (x : list b64) (lp b : b64) : Prop := sound lp.

Lemma sound_swap_refused : forall a b li lj g,
  swap_ok (A := B64 L) (Bminus mode_NE (Bminus mode_NE (Bplus mode_NE a b) li) lj) g = true -> sound a /\ sound b.
Proof.
  intros a b li lj g H.
  assert (K : ~ dead (Bplus mode_NE a b)).
  { intros K. rewrite swap_dead in H; [discriminate|]. do 2 apply dead_minus. auto. }
  destruct (sound_dead a) as [Sa|Da]; [|exfalso; apply K, dead_plus_l; auto].
  destruct (sound_dead b) as [Sb|Db]; [auto|exfalso; apply K, dead_plus_r; auto].
Qed.

Lemma sound_step : StepInv S D soundP.
Proof.
  constructor.
  - intros r sigma b s _ _ _ H. unfold soundP in *. destruct (mhstep_cases (s_user S) D sigma b s) as [[Hok ->]|[_ ->]]; cbn [ms_lp]; auto.
    destruct (sound_dead (logpost_at (s_user S) D (u_bound (s_user S) (fst (prop_list (ms_x s) sigma (ms_g s)))) b)) as [K|[K|K]]; auto;
      rewrite K in Hok; [rewrite refuse_nan in Hok|rewrite refuse_neginf in Hok]; discriminate.
  - intros i j xi li bi xj lj bj g _ _ Pi Pj _ H. unfold soundP in *. cbn [nsub nadd B64] in H.
    destruct (sound_swap_refused _ _ _ _ _ H) as [K1 K2]. auto.
Qed.

Lemma sound_rows : (forall r, (r < s_n S)%nat ->
    sound (logpost_at (s_user S) D (fst (u_init (s_user S) (seed_of (s_cfg S) (s_n S) (s_env S) r))) (nth r (Beta_Values (s_cfg S)) (nof 0)))) ->
  forall k tr X, execution S k tr X -> dataset S D -> forall r, (r < s_n S)%nat -> forall ev, In ev (file (FChain r) tr) ->
  exists q, ev = EvRow r q /\ sound (r_lp q).
Proof.
  intros HI k tr X HE HD r Hr ev He.
  assert (HC : ChainInv S D soundP).
  { constructor; [exact sound_step|exact HI|]. intros _ r0 x lp b b' _ H. exact H. }
  destruct (rows_hold S HL D soundP HC k tr X HE HD r Hr ev He) as [q [b [E P]]]. exists q. auto.
Qed.

(** a chain that starts with NaN or +inf *)
Definition stuck (x : b64) : Prop := x = B754_nan \/ x = B754_infinity false.
Definition stuckP (r0 : nat) (x0 : list b64) (lp0 : b64) (r : nat) (x : list b64) (lp b : b64) : Prop :=
  r = r0 -> x = x0 /\ lp = lp0.

Lemma minus_stuck : forall x y : b64, stuck y -> dead (Bminus mode_NE x y).
Proof.
  intros x y [-> | ->]; [left; apply minus_nan_r|].
  destruct x as [s|s| |s m e H]; try destruct s; cbn; unfold dead; auto.
Qed.

Lemma stuck_ok : forall a b g, stuck a -> mh_ok (A := B64 L) a b g = false.
Proof. intros a b g [-> | ->]; [apply stuck_nan|apply stuck_posinf]. Qed.

Lemma stuck_step : forall r0 x0 lp0, stuck lp0 -> StepInv S D (stuckP r0 x0 lp0).
Proof.
  intros r0 x0 lp0 HK. constructor.
  - intros r sigma b s _ _ _ H E. destruct (H E) as [H1 H2].
    destruct (mhstep_cases (s_user S) D sigma b s) as [[Hok ->]|[_ ->]]; cbn [ms_lp ms_x]; auto.
    rewrite stuck_ok in Hok; [discriminate|]. rewrite H2. exact HK.
  - intros i j xi li bi xj lj bj g _ _ Pi Pj _ H. cbn [nsub nadd B64] in H. split; intros E; exfalso.
    + destruct (Pi E) as [_ ->]. rewrite swap_dead in H; [discriminate|]. apply dead_minus, minus_stuck, HK.
    + destruct (Pj E) as [_ ->]. rewrite swap_dead in H; [discriminate|]. apply minus_stuck, HK.
Qed.

Lemma stuck_rows : forall r, (r < s_n S)%nat ->
  let x0 := fst (u_init (s_user S) (seed_of (s_cfg S) (s_n S) (s_env S) r)) in
  let lp0 := logpost_at (s_user S) D x0 (nth r (Beta_Values (s_cfg S)) (nof 0)) in
  stuck lp0 ->
  (forall k tr X, execution S k tr X -> dataset S D -> forall ev, In ev (file (FChain r) tr) ->
     exists q, ev = EvRow r q /\ r_parm q = x0 /\ r_lp q = lp0) /\
  (forall G0 h Gf, history S D G0 h Gf -> x_at Gf r = x0 /\ lp_at Gf r = lp0).
Proof.
  intros r Hr x0 lp0 HK.
  assert (HC : ChainInv S D (stuckP r x0 lp0)).
  { constructor; [apply stuck_step; auto| |].
    - intros r' _ x b E. subst r'. auto.
    - intros _ r' x lp b b' _ H. exact H. }
  split.
  - intros k tr X HE HD ev He.
    destruct (rows_hold S HL D _ HC k tr X HE HD r Hr ev He) as [q [b [E P]]]. exists q. destruct (P eq_refl). auto.
  - intros G0 h Gf HH. destruct (holds_always S HL D _ HC _ _ _ HH) as [_ [_ [_ H]]]. apply (H r Hr eq_refl).
Qed.

End Bin.
