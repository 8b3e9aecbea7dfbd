(** The two random decisions of the sampler (mpi_batch.c:209-233, mpi_tune.c:419-443, mpi_stack.c:290-312) in binary64 beside the same
    decisions over the reals: for which draws they differ. *)
From Coq Require Import ZArith Arith List Bool Reals Lia Lra Psatz.
From Flocq Require Import Core Relative IEEE754.BinarySingleNaN.
From Verif Require Import Base Arith B64 Rand Mh Ladder Tune Mpi MpiMeta Spmd Prog Seq ListAux MhSpec SeqWf Refine
  SeqTotal System B64Facts RandRange Seeds UserModels Boundary Demo Runs SeqFiles History Views RunHist HistCount HistRows
  SwapLemmas SwapReal ChainInv Stale SwapMore Metro Kepler Kepler64.
Import ListNotations.
Open Scope R_scope.

(** the library's exp is off by no more than 2^-50 at arguments that are not positive *)
Definition exp_near (L : Libm) : Prop := forall x : b64, is_finite x = true -> B2R x <= 0 ->
  is_finite (l_exp L x) = true /\ Rabs (B2R (l_exp L x) - exp (B2R x)) <= / 2 ^ 50.

(** ** two thresholds that are close together *)
Lemma between : forall P Q : R, Rabs (P - Q) * IZR RMOD < 1 ->
  forall z : Z, z <> Zceil (Rmin P Q * IZR RMOD) -> (IZR z / IZR RMOD < P <-> IZR z / IZR RMOD < Q).
Proof.
  intros P Q H. assert (M : 0 < IZR RMOD) by (apply IZR_lt; reflexivity).
  assert (T : forall z x, IZR z / IZR RMOD < x <-> IZR z < x * IZR RMOD).
  { intros z x. split; intros K.
    - apply (Rmult_lt_compat_r _ _ _ M) in K. unfold Rdiv in K. rewrite Rmult_assoc, Rinv_l in K by lra. lra.
    - apply (Rmult_lt_reg_r _ _ _ M). unfold Rdiv. rewrite Rmult_assoc, Rinv_l by lra. lra. }
  intros z N. rewrite !T.
  pose proof (Zceil_ub (Rmin P Q * IZR RMOD)) as U. set (k := Zceil (Rmin P Q * IZR RMOD)) in *.
  assert (LT : (z < k)%Z -> IZR z < Rmin P Q * IZR RMOD).
  { intros K. pose proof (Zceil_lb (Rmin P Q * IZR RMOD)) as B. fold k in B. assert (IZR z <= IZR k - 1) by (rewrite <- minus_IZR; apply IZR_le; lia). lra. }
  assert (GT : (k < z)%Z -> Rmax P Q * IZR RMOD < IZR z).
  { intros K. assert (IZR k + 1 <= IZR z) by (rewrite <- plus_IZR; apply IZR_le; lia).
    assert (Rmax P Q - Rmin P Q = Rabs (P - Q)) by (unfold Rmax, Rmin, Rabs; destruct (Rle_dec P Q), (Rcase_abs (P - Q)); lra). nra. }
  assert (B1 := Rmin_l P Q). assert (B2 := Rmin_r P Q). assert (B3 := Rmax_l P Q). assert (B4 := Rmax_r P Q).
  destruct (Z_lt_le_dec z k) as [K|K].
  - specialize (LT K). split; intros _; nra.
  - specialize (GT ltac:(lia)). split; intros; exfalso; nra.
Qed.

(** the same with a gap of any width *)
Lemma between_wide : forall P Q w : R, Rabs (P - Q) * IZR RMOD <= w ->
  forall z : Z, (z < Zceil (Rmin P Q * IZR RMOD))%Z \/ IZR (Zceil (Rmin P Q * IZR RMOD)) + w <= IZR z -> (IZR z / IZR RMOD < P <-> IZR z / IZR RMOD < Q).
Proof.
  intros P Q w H. assert (M : 0 < IZR RMOD) by (apply IZR_lt; reflexivity).
  assert (T : forall z x, IZR z / IZR RMOD < x <-> IZR z < x * IZR RMOD).
  { intros z x. split; intros K.
    - apply (Rmult_lt_compat_r _ _ _ M) in K. unfold Rdiv in K. rewrite Rmult_assoc, Rinv_l in K by lra. lra.
    - apply (Rmult_lt_reg_r _ _ _ M). unfold Rdiv. rewrite Rmult_assoc, Rinv_l by lra. lra. }
  intros z N. rewrite !T.
  pose proof (Zceil_ub (Rmin P Q * IZR RMOD)) as U. set (k := Zceil (Rmin P Q * IZR RMOD)) in *.
  assert (B1 := Rmin_l P Q). assert (B2 := Rmin_r P Q). assert (B3 := Rmax_l P Q). assert (B4 := Rmax_r P Q).
  destruct N as [K|K].
  - pose proof (Zceil_lb (Rmin P Q * IZR RMOD)) as B. fold k in B. assert (IZR z <= IZR k - 1) by (rewrite <- minus_IZR; apply IZR_le; lia).
    split; intros _; nra.
  - assert (Rmax P Q - Rmin P Q = Rabs (P - Q)) by (unfold Rmax, Rmin, Rabs; destruct (Rle_dec P Q), (Rcase_abs (P - Q)); lra).
    split; intros; exfalso; nra.
Qed.

(** ** exp at rounded arguments *)
Lemma exp_le_1 : forall x, x <= 0 -> exp x <= 1.
Proof. intros x [H|H]; [left; rewrite <- exp_0; apply exp_increasing; lra|rewrite H, exp_0; lra]. Qed.
Lemma exp_mono : forall x y, x <= y -> exp x <= exp y.
Proof. intros x y [H|H]; [left; apply exp_increasing; auto|rewrite H; lra]. Qed.
Lemma exp_lip : forall x y m, x <= m -> y <= m -> Rabs (exp x - exp y) <= exp m * Rabs (x - y).
Proof.
  assert (K : forall x y m, x < y -> y <= m -> Rabs (exp x - exp y) <= exp m * Rabs (x - y)).
  { intros x y m H Hm. destruct (MVT_cor2 exp exp x y H) as [c [E [C1 C2]]]; [intros; apply derivable_pt_lim_exp|].
    rewrite (Rabs_minus_sym (exp x)), E, (Rabs_minus_sym x), Rabs_mult, (Rabs_pos_eq (exp c)) by (left; apply exp_pos).
    apply Rmult_le_compat_r; [apply Rabs_pos|]. apply exp_mono. lra. }
  intros x y m H1 H2. destruct (Rtotal_order x y) as [H|[->|H]].
  - apply K; auto.
  - rewrite !Rminus_diag_eq, Rabs_R0 by auto. lra.
  - rewrite Rabs_minus_sym, (Rabs_minus_sym x). apply K; auto.
Qed.
Lemma twice_exp : forall s, 2 * s <= exp s.
Proof.
  intros s. destruct (Rle_dec s 0) as [H|H]; [pose proof (exp_pos s); lra|].
  pose proof (exp_ineq1_le (s - 1)). pose proof (exp_ineq1_le 1). replace s with (1 + (s - 1)) at 2 by ring. rewrite exp_plus.
  pose proof (exp_pos (s - 1)). nra.
Qed.
Lemma exp_nat : forall n, 2 ^ n <= exp (INR n).
Proof.
  induction n as [|n IH]; [change (INR 0) with 0; rewrite exp_0; simpl; lra|]. rewrite S_INR, exp_plus. pose proof (exp_ineq1_le 1). cbn [pow].
  assert (0 < 2 ^ n) by (apply pow_lt; lra). nra.
Qed.

Lemma rnd_cases : forall x, (exists e, Rabs e <= / 2 ^ 53 /\ rnd x = x * (1 + e)) \/ Rabs (rnd x - x) <= / 2 ^ 53 * / 2 ^ 53.
Proof.
  intros x. destruct (error_N_FLT radix2 (-1074) 53 ltac:(lia) (fun z => negb (Z.even z)) x) as [e [t [He [Ht [Z E]]]]].
  assert (V1 : / 2 * bpow radix2 (- (53) + 1) = / 2 ^ 53).
  { replace (- (53) + 1)%Z with (- (52))%Z by lia. rewrite bpow_opp. change (bpow radix2 52) with (IZR (2 ^ 52)).
    change (2 ^ 52)%Z with (Z.pow 2 (Z.of_nat 52)). rewrite <- pow_IZR. change (2 ^ 53) with (2 * 2 ^ 52). field. }
  change (rnd x) with (round radix2 (FLT_exp (-1074) 53) ZnearestE x). rewrite E.
  rewrite V1 in He. apply Rmult_integral in Z. destruct Z as [Z|Z]; rewrite Z in *.
  - right. rewrite Rplus_0_r, Rmult_1_r. replace (x + t - x) with t by ring.
    eapply Rle_trans; [exact Ht|]. rewrite <- V1. 
    assert (bpow radix2 (-1074) <= bpow radix2 (- (53) + 1) * (/ 2 * bpow radix2 (- (53) + 1))).
    { assert (bpow radix2 (-1074) <= bpow radix2 (-105)) by (apply bpow_le; lia).
      replace (bpow radix2 (- (53) + 1) * (/ 2 * bpow radix2 (- (53) + 1))) with (bpow radix2 (-105)); [lra|].
      replace (-105)%Z with ((- (53) + 1) + (-1 + (- (53) + 1)))%Z by lia. rewrite !bpow_plus. reflexivity. }
    pose proof (bpow_gt_0 radix2 (- (53) + 1)). lra.
  - left. exists e. split; auto. ring.
Qed.

Lemma exp_rnd : forall d, d <= 0 -> Rabs (exp (rnd d) - exp d) <= / 2 ^ 53.
Proof.
  intros d Hd. assert (I : 0 < / 2 ^ 53 <= / 2) by (split; [apply Rinv_0_lt_compat, pow_lt; lra|apply Rinv_le_contravar; lra]).
  assert (N : rnd d <= 0) by (rewrite <- rnd_0; apply rnd_le; lra).
  destruct (rnd_cases d) as [[e [He E]]|E].
  - apply Rabs_le_inv in He. rewrite E in *. assert (M : d * (1 + e) <= d / 2) by nra.
    eapply Rle_trans; [apply (exp_lip _ _ (d / 2)); [exact M|lra]|].
    replace (d * (1 + e) - d) with (e * d) by ring. rewrite Rabs_mult, (Rabs_left1 d) by lra.
    pose proof (twice_exp (- d / 2)) as T. pose proof (exp_pos (d / 2)) as P.
    assert (X : exp (d / 2) * exp (- d / 2) = 1) by (rewrite <- exp_plus; replace (d / 2 + - d / 2) with 0 by field; apply exp_0).
    assert (Y : exp (d / 2) * - d <= 1) by (assert (exp (d/2) * (2 * (- d / 2)) <= exp (d/2) * exp (- d / 2)) by (apply Rmult_le_compat_l; lra); lra).
    apply Rabs_le in He. assert (Q : 0 <= exp (d / 2) * - d) by nra. pose proof (Rabs_pos e). nra.
  - eapply Rle_trans; [apply (exp_lip _ _ 0); auto|]. rewrite exp_0. nra.
Qed.

Lemma rmod_pow : IZR RMOD = 2 ^ 48.
Proof. change RMOD with (Z.pow 2 (Z.of_nat 48)). rewrite <- pow_IZR. reflexivity. Qed.

Lemma btimes_one : forall x : b64, Bmult mode_NE x (bof 1) = x.
Proof.
  intros x. destruct (bof_ok 1) as [V F]; [lia|].
  destruct x as [s|s| |s m e He]; try (destruct s; reflexivity); [reflexivity|].
  set (x := B754_finite s m e He). assert (Fx : is_finite x = true) by reflexivity.
  pose proof (Bmult_correct prec emax _ _ mode_NE x (bof 1)) as C. rewrite V, Rmult_1_r in C.
  change (round radix2 (SpecFloat.fexp prec emax) (round_mode mode_NE) (B2R x)) with (rnd (B2R x)) in C. rewrite (rnd_id (B2R x)) in C by apply fmt_B2R.
  rewrite Rlt_bool_true in C by apply abs_B2R_lt_emax. destruct C as [C1 [C2 C3]].
  apply B2R_Bsign_inj; [rewrite C2, Fx, F; reflexivity|auto|auto|].
  rewrite C3; [|destruct (Bmult mode_NE x (bof 1)); try discriminate; auto; rewrite C2, Fx, F in *; discriminate].
  rewrite (bof_sign 1) by lia. apply xorb_false_r.
Qed.

Section Dec.
Variable L : Libm.
Hypothesis HS : LibmSpecial L.
Hypothesis HE : exp_near L.

Lemma draw_64 : forall g (x : b64), is_finite x = true -> (Bltb (fst (drand48 (A := B64 L) g)) x = true <-> unif g < B2R x).
Proof.
  intros g x F. destruct (drand48_b64 L g) as [V Fu]. rewrite (Bltb_correct _ _ _ _ Fu F), V. fold (unif g).
  destruct (Rlt_bool_spec (unif g) (B2R x)); split; auto; intros; try discriminate; lra.
Qed.

(** ** the decision about a proposal *)
(** the number below which the draw has to be *)
Definition mh_num (a b : b64) : R := if Bltb a b then 1 else B2R (l_exp L (Bminus mode_NE b a)).
Lemma mh_level : forall a b : b64, is_finite a = true -> is_finite b = true ->
  Rabs (mh_num a b - Rmin 1 (exp (B2R b - B2R a))) <= / 2 ^ 49 /\
  forall g, mh_ok (A := B64 L) a b g = true <-> unif g < mh_num a b.
Proof.
  intros a b Fa Fb. unfold mh_ok, mh_num. rewrite (better_b64 L HS).
  assert (I49 : 0 < / 2 ^ 49) by (apply Rinv_0_lt_compat, pow_lt; lra).
  assert (CL : Bltb a b = true <-> B2R a < B2R b).
  { rewrite (Bltb_correct _ _ _ _ Fa Fb). destruct (Rlt_bool_spec (B2R a) (B2R b)); split; auto; intros; try discriminate; lra. }
  destruct (Bltb a b) eqn:EB.
  { split.
    - assert (1 < exp (B2R b - B2R a)) by (rewrite <- exp_0; apply exp_increasing; assert (B2R a < B2R b) by (apply CL; auto); lra).
      rewrite Rmin_left, Rminus_diag_eq, Rabs_R0; lra.
    - intros g. pose proof (unit_range_lt g) as U1. fold (unif g) in U1. split; auto. lra. }
  assert (D0 : B2R b - B2R a <= 0).
  { destruct (Rle_dec (B2R b - B2R a) 0) as [K|K]; auto. assert (false = true) by (apply CL; lra). discriminate. }
  set (d := B2R b - B2R a) in *. pose proof (exp_le_1 _ D0) as E1. pose proof (exp_pos d) as E0.
  rewrite Rmin_right by lra. cbn [nltb nmul nexp nsub nof B64]. rewrite btimes_one.
  destruct (Rlt_dec (Rabs (rnd d)) (bpow radix2 emax)) as [S|S].
  - destruct (bminus_ok b a Fb Fa S) as [V F]. fold d in V.
    assert (N : rnd d <= 0) by (rewrite <- rnd_0; apply rnd_le; lra).
    destruct (HE (Bminus mode_NE b a) F ltac:(rewrite V; exact N)) as [Fe Ee]. rewrite V in Ee.
    pose proof (exp_rnd d D0) as X. split; [|intros g; apply draw_64; exact Fe].
    replace (B2R (l_exp L (Bminus mode_NE b a)) - exp d) with ((B2R (l_exp L (Bminus mode_NE b a)) - exp (rnd d)) + (exp (rnd d) - exp d)) by ring.
    eapply Rle_trans; [apply Rabs_triang|]. lra.
  - assert (I : Bminus mode_NE b a = B754_infinity true).
    { destruct (bminus_bx b a Fb Fa) as [Nn B]. fold d in B.
      assert (N : rnd d <= 0) by (rewrite <- rnd_0; apply rnd_le; lra). rewrite (Rabs_left1 _ N) in S.
      pose proof (bpow_gt_0 radix2 emax) as P.
      assert (W : bx (Bminus mode_NE b a) <= - bpow radix2 emax).
      { destruct B as [B|[[B [B1 B2]]|[B _]]]; [lra| |lra]. exfalso. assert (d = 0) by (unfold d in *; lra).
        rewrite H, rnd_0 in S. lra. }
      destruct (is_finite (Bminus mode_NE b a)) eqn:Fm; [pose proof (bx_bound _ Fm); lra|].
      destruct (Bminus mode_NE b a) as [s|s| |s m e' H']; try discriminate. destruct s; auto. cbn [bx] in W. lra. }
    rewrite I. destruct HS as [_ [_ Hinf]]. rewrite Hinf. cbn [B2R].
    assert (B : 64 <= - d).
    { destruct (Rle_dec 64 (- d)) as [Q|Q]; auto. exfalso. apply S. apply (rnd_small d 6); [lia|].
      change (bp 6) with 64. rewrite Rabs_left1 by lra. lra. }
    assert (X : exp d * 2 ^ 64 <= 1).
    { replace 1 with (exp d * exp (- d)) by (rewrite <- exp_plus; replace (d + - d) with 0 by ring; apply exp_0).
      apply Rmult_le_compat_l; [lra|]. eapply Rle_trans; [apply exp_nat|]. apply exp_mono. replace (INR 64) with 64 by (rewrite INR_IZR_INZ; reflexivity). lra. }
    split; [rewrite Rabs_left1; lra|].
    intros g. pose proof (draw_not_below_zero L g) as DZ. cbn [nltb B64] in DZ. rewrite DZ.
    pose proof (unit_range_lt g) as U1. fold (unif g) in U1. split; [discriminate|lra].
Qed.

(** the one draw that may be judged differently *)
Definition odd_draw (a b : b64) : Z := Zceil (Rmin (mh_num a b) (Rmin 1 (exp (B2R b - B2R a))) * IZR RMOD).
Lemma mh_64 : forall a b : b64, is_finite a = true -> is_finite b = true ->
  forall g, lcg g <> odd_draw a b ->
    (mh_ok (A := B64 L) a b g = true <-> unif g < Rmin 1 (exp (B2R b - B2R a))).
Proof.
  intros a b Fa Fb g Ng. destruct (mh_level a b Fa Fb) as [H1 H2]. rewrite H2. apply between; auto.
  rewrite rmod_pow. apply Rle_lt_trans with (/ 2 ^ 49 * 2 ^ 48); [apply Rmult_le_compat_r; [apply pow_le; lra|auto]|lra].
Qed.

(** ** the decision about an exchange *)
Lemma rnd_rel : forall x B, Rabs x <= B -> 1 <= B -> Rabs (rnd x - x) <= B * / 2 ^ 53.
Proof.
  intros x B H HB. assert (I : 0 < / 2 ^ 53 <= 1) by (split; [apply Rinv_0_lt_compat, pow_lt; lra|rewrite <- Rinv_1; apply Rinv_le_contravar; lra]).
  destruct (rnd_cases x) as [[e [He E]]|E].
  - rewrite E. replace (x * (1 + e) - x) with (x * e) by ring. rewrite Rabs_mult. apply Rmult_le_compat; auto using Rabs_pos.
  - eapply Rle_trans; [exact E|]. nra.
Qed.
Lemma bsub_near : forall (x y : b64) B, is_finite x = true -> is_finite y = true -> 1 <= B <= bpow radix2 1000 -> Rabs (B2R x - B2R y) <= B ->
  is_finite (Bminus mode_NE x y) = true /\ Rabs (B2R (Bminus mode_NE x y) - (B2R x - B2R y)) <= B * / 2 ^ 53.
Proof.
  intros x y B Fx Fy HB H. destruct (bminus_ok x y Fx Fy) as [V F]; [apply (rnd_small _ 1000); [lia|lra]|].
  split; auto. rewrite V. apply rnd_rel; auto. lra.
Qed.
Lemma badd_near : forall (x y : b64) B, is_finite x = true -> is_finite y = true -> 1 <= B <= bpow radix2 1000 -> Rabs (B2R x + B2R y) <= B ->
  is_finite (Bplus mode_NE x y) = true /\ Rabs (B2R (Bplus mode_NE x y) - (B2R x + B2R y)) <= B * / 2 ^ 53.
Proof.
  intros x y B Fx Fy HB H. destruct (bplus_ok x y Fx Fy) as [V F]; [apply (rnd_small _ 1000); [lia|lra]|].
  split; auto. rewrite V. apply rnd_rel; auto. lra.
Qed.

Lemma sum_64 : forall (a b c d : b64) B, is_finite a = true -> is_finite b = true -> is_finite c = true -> is_finite d = true ->
  1 <= B <= bpow radix2 990 -> Rabs (B2R a) <= B -> Rabs (B2R b) <= B -> Rabs (B2R c) <= B -> Rabs (B2R d) <= B ->
  let s := Bminus mode_NE (Bminus mode_NE (Bplus mode_NE a b) c) d in
  is_finite s = true /\ Rabs (B2R s - (B2R a + B2R b - B2R c - B2R d)) <= B * (10 * / 2 ^ 53).
Proof.
  intros a b c d B Fa Fb Fc Fd HB Ha Hb Hc Hd. cbv zeta.
  apply Rabs_le_inv in Ha. apply Rabs_le_inv in Hb. apply Rabs_le_inv in Hc. apply Rabs_le_inv in Hd.
  set (u := / 2 ^ 53). assert (I : 0 < u <= / 100) by (split; [apply Rinv_0_lt_compat, pow_lt; lra|apply Rinv_le_contravar; lra]).
  assert (P : 8 * bpow radix2 990 <= bpow radix2 1000).
  { change 8 with (bpow radix2 3). rewrite <- bpow_plus. apply bpow_le. lia. }
  destruct (badd_near a b (2 * B) Fa Fb ltac:(lra) ltac:(apply Rabs_le; lra)) as [F1 E1]. fold u in E1. apply Rabs_le_inv in E1.
  assert (Bu : 0 < B * u <= B / 100) by nra.
  destruct (bsub_near (Bplus mode_NE a b) c (3 * B + 2 * (B * u)) F1 Fc ltac:(lra) ltac:(apply Rabs_le; lra)) as [F2 E2]. fold u in E2. apply Rabs_le_inv in E2.
  assert (Buu : 0 < B * u * u <= B * u / 100) by nra.
  destruct (bsub_near (Bminus mode_NE (Bplus mode_NE a b) c) d (4 * B + 6 * (B * u)) F2 Fd ltac:(lra) ltac:(apply Rabs_le; lra)) as [F3 E3]. fold u in E3. apply Rabs_le_inv in E3.
  split; [exact F3|]. apply Rabs_le. lra.
Qed.

Lemma min_lip : forall x y, Rabs (Rmin 1 (exp x) - Rmin 1 (exp y)) <= Rabs (x - y).
Proof.
  assert (T : forall x, Rmin 1 (exp x) = exp (Rmin 0 x)).
  { intros x. unfold Rmin. destruct (Rle_dec 1 (exp x)), (Rle_dec 0 x); auto; rewrite ?exp_0; auto.
    - pose proof (exp_increasing x 0 ltac:(lra)). rewrite exp_0 in *. lra.
    - pose proof (exp_ineq1_le x). lra. }
  intros x y. rewrite !T. eapply Rle_trans; [apply (exp_lip _ _ 0); apply Rmin_l|]. rewrite exp_0, Rmult_1_l.
  unfold Rmin, Rabs. destruct (Rle_dec 0 x), (Rle_dec 0 y); repeat destruct (Rcase_abs _); lra.
Qed.

(** the number below which and the first draw for which the code judges differently *)
Definition swap_level (a b c d : b64) : R :=
  let s := Bminus mode_NE (Bminus mode_NE (Bplus mode_NE a b) c) d in if Rlt_bool 0 (B2R s) then 1 else B2R (l_exp L s).
Definition swap_edge (a b c d : b64) : Z :=
  Zceil (Rmin (swap_level a b c d) (Rmin 1 (exp (B2R a + B2R b - B2R c - B2R d))) * IZR RMOD).
Lemma swap_64 : forall (a b c d : b64) B, is_finite a = true -> is_finite b = true -> is_finite c = true -> is_finite d = true ->
  1 <= B <= bpow radix2 990 -> Rabs (B2R a) <= B -> Rabs (B2R b) <= B -> Rabs (B2R c) <= B -> Rabs (B2R d) <= B ->
  forall g, (lcg g < swap_edge a b c d)%Z \/ IZR (swap_edge a b c d) + 1 + B / 3 <= IZR (lcg g) ->
    (swap_ok (A := B64 L) (@nsub (B64 L) (@nsub (B64 L) (@nadd (B64 L) a b) c) d) g = true <-> unif g < Rmin 1 (exp (B2R a + B2R b - B2R c - B2R d))).
Proof.
  intros a b c d B Fa Fb Fc Fd HB Ha Hb Hc Hd. unfold swap_edge, swap_level.
  destruct (sum_64 a b c d B Fa Fb Fc Fd HB Ha Hb Hc Hd) as [F E]. cbn [nsub nadd B64]. cbv zeta in *.
  set (s := Bminus mode_NE (Bminus mode_NE (Bplus mode_NE a b) c) d) in *. set (t := B2R a + B2R b - B2R c - B2R d) in *.
  destruct (bof_ok 0 ltac:(cbn; lia)) as [Z0 F0].
  set (T := if Rlt_bool 0 (B2R s) then 1 else B2R (l_exp L s)).
  assert (TH : Rabs (T - Rmin 1 (exp (B2R s))) <= / 2 ^ 50 /\ forall g, swap_ok (A := B64 L) s g = true <-> unif g < T).
  { unfold T, swap_ok. cbn [nltb nof nexp B64]. rewrite (Bltb_correct _ _ _ _ F0 F), Z0.
    destruct (Rlt_bool_spec 0 (B2R s)) as [K|K].
    - split.
      + assert (1 < exp (B2R s)) by (rewrite <- exp_0; apply exp_increasing; lra). rewrite Rmin_left, Rminus_diag_eq, Rabs_R0 by lra.
        left. apply Rinv_0_lt_compat, pow_lt; lra.
      + intros g. pose proof (unit_range_lt g) as R1. fold (unif g) in R1. split; auto. lra.
    - destruct (HE s F K) as [Fe Ee]. split.
      + rewrite Rmin_right by (apply exp_le_1; auto). exact Ee.
      + intros g. apply draw_64. exact Fe. }
  destruct TH as [HT HD]. pose proof (min_lip (B2R s) t) as ML.
  assert (G : Rabs (T - Rmin 1 (exp t)) * IZR RMOD <= 1 + B / 3).
  { assert (Rabs (T - Rmin 1 (exp t)) <= / 2 ^ 50 + B * (10 * / 2 ^ 53)).
    { replace (T - Rmin 1 (exp t)) with ((T - Rmin 1 (exp (B2R s))) + (Rmin 1 (exp (B2R s)) - Rmin 1 (exp t))) by ring.
      eapply Rle_trans; [apply Rabs_triang|]. lra. }
    rewrite rmod_pow. eapply Rle_trans; [apply Rmult_le_compat_r; [apply pow_le; lra|exact H]|]. lra. }
  intros g Ng. rewrite HD. apply (between_wide _ _ _ G). rewrite Rplus_assoc in Ng. exact Ng.
Qed.

(** ** walks *)
(** A walk in binary64 with the decision written out over the reals: between finite log-posteriors the
    proposal is taken exactly when the uniform number is below min(1, exp(L'-L)), unless the draw is the one
    exceptional number [K] gives for the two log-posteriors. *)
Inductive metro64 (K : b64 -> b64 -> Z) (U : User (B64 L)) (D : Data (B64 L)) (np : Z) (sigma : list b64) (beta : b64)
  : Z -> crow (B64 L) -> list (crow (B64 L)) -> list bool -> Z -> Prop :=
| metro64_nil : forall g p, metro64 K U D np sigma beta g p [] [] g
| metro64_cons : forall g (p : crow (B64 L)) new0 g1 (q : crow (B64 L)) rows bs (b : bool) g2 g',
    do_gaussian_propose (A := B64 L) np (r_parm p) sigma g = OK (new0, bof 1, g1) ->
    let l := r_lp p : b64 in let l' := logpost_at U D (u_bound U new0) beta : b64 in
    (is_finite l = true -> is_finite l' = true -> lcg g1 <> K l l' -> (b = true <-> unif g1 < Rmin 1 (exp (B2R l' - B2R l)))) ->
    (is_finite l = true -> is_finite l' = true -> g2 = if Rlt_dec (B2R l) (B2R l') then g1 else lcg g1) ->
    r_parm q = (if b then u_bound U new0 else r_parm p) ->
    r_lp q = (if b then l' else l) ->
    r_it q = (r_it p + 1)%Z ->
    r_acc q = (r_acc p + (if b then 1 else 0))%Z ->
    metro64 K U D np sigma beta g2 q rows bs g' ->
    metro64 K U D np sigma beta g p (q :: rows) (b :: bs) g'.

Lemma drand_snd : forall g, snd (drand48 (A := B64 L) g) = lcg g.
Proof. reflexivity. Qed.
Lemma better_dec : forall l l' : b64, is_finite l = true -> is_finite l' = true ->
  mh_better (A := B64 L) l l' = if Rlt_dec (B2R l) (B2R l') then true else false.
Proof.
  intros l l' F F'. rewrite (better_b64 L HS), (Bltb_correct _ _ _ _ F F').
  destruct (Rlt_bool_spec (B2R l) (B2R l')), (Rlt_dec (B2R l) (B2R l')); auto; lra.
Qed.
Lemma ok_worse : forall l l' g, mh_ok (A := B64 L) l l' g = false -> mh_better (A := B64 L) l l' = false.
Proof. intros l l' g H. unfold mh_ok in H. destruct (mh_better (A := B64 L) l l'); [discriminate|auto]. Qed.

Lemma walk_metro64 : forall K, (forall a b : b64, is_finite a = true -> is_finite b = true -> forall g, lcg g <> K a b ->
    (mh_ok (A := B64 L) a b g = true <-> unif g < Rmin 1 (exp (B2R b - B2R a)))) ->
  forall (U : User (B64 L)) D np sigma beta g p rows bs g',
  mhwalk U D np sigma beta g p rows bs g' -> metro64 K U D np sigma beta g p rows bs g'.
Proof.
  intros K HK U D np sigma beta.
  induction 1 as [|g p new0 g1 g2 q rows bs g' H Hok Hg H1 H2 H3 H4 Hw IH|g p new0 g1 q rows bs g' H Hok H1 H2 H3 H4 Hw IH].
  - constructor.
  - apply metro64_cons with (new0 := new0) (g1 := g1) (g2 := g2); auto.
    + intros F F' N. rewrite <- (HK _ _ F F' _ N). split; auto.
    + intros F F'. rewrite (better_dec _ _ F F'), drand_snd in Hg. rewrite Hg. destruct (Rlt_dec _ _); reflexivity.
  - apply metro64_cons with (new0 := new0) (g1 := g1) (g2 := snd (drand48 (A := B64 L) g1)); auto.
    + intros F F' N. rewrite <- (HK _ _ F F' _ N). rewrite Hok. split; auto.
    + intros F F'. apply ok_worse in Hok. rewrite (better_dec _ _ F F') in Hok. destruct (Rlt_dec _ _); [discriminate|reflexivity].
    + rewrite H4. lia.
Qed.

End Dec.
