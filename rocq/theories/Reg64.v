(** The log-posterior of the regression model (models/regression/user_logll.c:13-50, user_prior.c:134-182) in binary64: how far it
    is from the one over the reals. *)
From Coq Require Import ZArith Arith List Bool Reals Lia Lra Psatz.
From Flocq Require Import Core IEEE754.BinarySingleNaN.
From Verif Require Import Base Arith B64 B64Facts Rand RandRange Mh Views UserModels MhSpec HistRows SwapLemmas SwapReal SwapMore Metro Kepler Kepler64 OrbFacts Orb64 Cycle64 Decide64.
Import ListNotations.
Open Scope R_scope.

Notation u53 := (/ 2 ^ 53).
Lemma u53_pos : 0 < u53 <= / 1000000000000000.
Proof. split; [apply Rinv_0_lt_compat, pow_lt; lra|apply Rinv_le_contravar; lra]. Qed.

(** ** what is asked of the library: log and squares within two units of the last place *)
Definition log_near (L : Libm) : Prop := forall x : b64, is_finite x = true -> 0 < B2R x ->
  is_finite (l_log L x) = true /\ Rabs (B2R (l_log L x) - ln (B2R x)) <= 2 * u53 * Rabs (ln (B2R x)) + / 2 ^ 100.
Definition sq_near (L : Libm) : Prop := forall x : b64, is_finite x = true -> Rabs (B2R x) <= bp 300 ->
  is_finite (l_pow L x (bof 2)) = true /\ Rabs (B2R (l_pow L x (bof 2)) - B2R x * B2R x) <= 2 * u53 * (B2R x * B2R x) + bp (-1000).

(** ** operations *)
Lemma bmul_near : forall (x y : b64) B, is_finite x = true -> is_finite y = true -> 1 <= B <= bpow radix2 1000 -> Rabs (B2R x * B2R y) <= B ->
  is_finite (Bmult mode_NE x y) = true /\ Rabs (B2R (Bmult mode_NE x y) - B2R x * B2R y) <= B * u53.
Proof.
  intros x y B Fx Fy HB H. destruct (bmult_ok x y Fx Fy) as [V F]; [apply (rnd_small _ 1000); [lia|lra]|].
  split; auto. rewrite V. apply rnd_rel; auto. lra.
Qed.
Lemma bdiv_near : forall (x y : b64) B, is_finite x = true -> B2R y <> 0 -> 1 <= B <= bpow radix2 1000 -> Rabs (B2R x / B2R y) <= B ->
  is_finite (Bdiv mode_NE x y) = true /\ Rabs (B2R (Bdiv mode_NE x y) - B2R x / B2R y) <= B * u53.
Proof.
  intros x y B Fx Ny HB H. destruct (bdiv_ok x y Fx Ny) as [V F]; [apply (rnd_small _ 1000); [lia|lra]|].
  split; auto. rewrite V. apply rnd_rel; auto. lra.
Qed.

(** ** logarithms at values that are a little off *)
Lemma ln_rel : forall X e, 0 < X -> Rabs e <= / 2 -> Rabs (ln (X * (1 + e)) - ln X) <= 2 * Rabs e.
Proof.
  intros X e HX He. apply Rabs_le_inv in He. rewrite ln_mult by lra. replace (ln X + ln (1 + e) - ln X) with (ln (1 + e)) by ring.
  assert (U : ln (1 + e) <= e) by (pose proof (exp_ineq1_le e); rewrite <- (ln_exp e) at 2; destruct (Req_dec (1 + e) (exp e)) as [->|]; [lra|left; apply ln_increasing; lra]).
  assert (Lw : e / (1 + e) <= ln (1 + e)).
  { assert (ln (/ (1 + e)) <= / (1 + e) - 1).
    { set (z := / (1 + e)). assert (0 < z) by (apply Rinv_0_lt_compat; lra). pose proof (exp_ineq1_le (z - 1)).
      rewrite <- (ln_exp (z - 1)). replace (1 + (z - 1)) with z in * by ring. destruct (Req_dec z (exp (z - 1))) as [<-|]; [lra|left; apply ln_increasing; lra]. }
    rewrite ln_Rinv in H by lra. replace (e / (1 + e)) with (- (/ (1 + e) - 1)) by (field; lra). lra. }
  assert (M : - (2 * Rabs e) <= e / (1 + e)).
  { apply (Rmult_le_reg_r (1 + e)); [lra|]. unfold Rdiv. rewrite Rmult_assoc, Rinv_l by lra. unfold Rabs. destruct (Rcase_abs e); nra. }
  apply Rabs_le. split; [lra|]. eapply Rle_trans; [exact U|]. unfold Rabs. destruct (Rcase_abs e); lra.
Qed.

Section Reg.
Variable L : Libm.
Hypothesis HL : log_near L.
Hypothesis HQ : sq_near L.

Lemma log_64 : forall (x : b64) X e, is_finite x = true -> 0 < X -> B2R x = X * (1 + e) -> Rabs e <= 100 * u53 ->
  is_finite (l_log L x) = true /\ Rabs (B2R (l_log L x) - ln X) <= 2 * Rabs e + u53 * (2 * Rabs (ln X) + 1).
Proof.
  intros x X e F HX V He. pose proof u53_pos as U. pose proof (Rabs_pos e) as E0.
  assert (He2 : Rabs e <= / 2) by lra. assert (P : 0 < B2R x) by (rewrite V; apply Rabs_le_inv in He2; nra).
  destruct (HL x F P) as [Fl El]. split; auto. rewrite V in El. pose proof (ln_rel X e HX He2) as R.
  set (y := ln (X * (1 + e))) in *. assert (A : Rabs y <= Rabs (ln X) + 2 * Rabs e).
  { replace y with (ln X + (y - ln X)) by ring. eapply Rle_trans; [apply Rabs_triang|]. lra. }
  replace (B2R (l_log L x) - ln X) with ((B2R (l_log L x) - y) + (y - ln X)) by ring. eapply Rle_trans; [apply Rabs_triang|].
  assert (H100 : / 2 ^ 100 <= u53 * / 2) by lra. pose proof (Rabs_pos (ln X)).
  assert (2 * u53 * Rabs y <= 2 * u53 * (Rabs (ln X) + 2 * Rabs e)) by (apply Rmult_le_compat_l; lra).
  assert (2 * u53 * (2 * Rabs e) <= u53 * / 4) by nra. lra.
Qed.

(** the residual (user_logll.c:41) *)
Lemma res_64 : forall (x a b y : b64) W, is_finite x = true -> is_finite a = true -> is_finite b = true -> is_finite y = true ->
  1 <= W <= bp 100 -> Rabs (B2R x * B2R a) + Rabs (B2R b) + Rabs (B2R y) <= W ->
  let r := Bminus mode_NE (Bplus mode_NE (Bmult mode_NE x a) b) y in
  is_finite r = true /\ Rabs (B2R r - (B2R x * B2R a + B2R b - B2R y)) <= 5 * (W * u53).
Proof.
  intros x a b y W Fx Fa Fb Fy HW H. cbv zeta. pose proof u53_pos as U.
  assert (P : 8 * bp 100 <= bp 1000) by (change 8 with (bp 3); rewrite <- bpow_plus; apply bpow_le; lia).
  pose proof (Rabs_pos (B2R x * B2R a)). pose proof (Rabs_pos (B2R b)). pose proof (Rabs_pos (B2R y)).
  assert (Wu : 0 < W * u53 <= W / 100) by nra.
  destruct (bmul_near x a W Fx Fa ltac:(lra) ltac:(lra)) as [F1 E1].
  assert (S1 : Rabs (B2R (Bmult mode_NE x a) + B2R b) <= 2 * W).
  { replace (B2R (Bmult mode_NE x a) + B2R b) with ((B2R (Bmult mode_NE x a) - B2R x * B2R a) + (B2R x * B2R a + B2R b)) by ring.
    eapply Rle_trans; [apply Rabs_triang|]. pose proof (Rabs_triang (B2R x * B2R a) (B2R b)). lra. }
  destruct (badd_near (Bmult mode_NE x a) b (2 * W) F1 Fb ltac:(lra) S1) as [F2 E2].
  set (p := Bmult mode_NE x a) in *. set (q := Bplus mode_NE p b) in *.
  assert (S2 : Rabs (B2R q - B2R y) <= 2 * W).
  { replace (B2R q - B2R y) with ((B2R q - (B2R p + B2R b)) + ((B2R p - B2R x * B2R a) + (B2R x * B2R a + (B2R b - B2R y)))) by ring.
    eapply Rle_trans; [apply Rabs_triang|]. pose proof (Rabs_triang (B2R p - B2R x * B2R a) (B2R x * B2R a + (B2R b - B2R y))).
    pose proof (Rabs_triang (B2R x * B2R a) (B2R b - B2R y)). pose proof (Rabs_triang (B2R b) (- B2R y)). rewrite Rabs_Ropp in *. unfold Rminus at 2 in H4. unfold Rminus in *. lra. }
  destruct (bsub_near q y (2 * W) F2 Fy ltac:(lra) S2) as [F3 E3].
  split; [exact F3|]. apply Rabs_le_inv in E1. apply Rabs_le_inv in E2. apply Rabs_le_inv in E3. apply Rabs_le. lra.
Qed.

(** the square of d *)
Lemma var_64 : forall d : b64, is_finite d = true -> bp (-100) <= B2R d <= bp 100 ->
  is_finite (l_pow L d (bof 2)) = true /\ exists e, B2R (l_pow L d (bof 2)) = B2R d * B2R d * (1 + e) /\ Rabs e <= 4 * u53.
Proof.
  intros d F H. pose proof (bpow_gt_0 radix2 (-100)) as P. pose proof u53_pos as U.
  destruct (HQ d F) as [Fs Es]. { rewrite Rabs_pos_eq by lra. eapply Rle_trans; [apply H|]. apply bpow_le. lia. }
  split; auto. set (D := B2R d * B2R d) in *. set (s := B2R (l_pow L d (bof 2))) in *.
  assert (D0 : bp (-200) <= D) by (unfold D; replace (-200)%Z with (-100 + -100)%Z by lia; rewrite bpow_plus; nra).
  pose proof (bpow_gt_0 radix2 (-200)) as P2.
  assert (T : bp (-1000) <= 2 * u53 * D).
  { apply Rle_trans with (bp (-60) * bp (-200)); [rewrite <- bpow_plus; apply bpow_le; lia|].
    apply Rmult_le_compat; [apply bpow_ge_0|apply bpow_ge_0| |exact D0]. apply Rle_trans with (bp (-53)); [apply bpow_le; lia|].
    change (-53)%Z with (- (53))%Z. rewrite bpow_opp. change (bp 53) with (IZR (2 ^ 53)). change (2 ^ 53)%Z with (Z.pow 2 (Z.of_nat 53)). rewrite <- pow_IZR. lra. }
  exists ((s - D) / D). split; [field; lra|]. unfold Rdiv. rewrite Rabs_mult, (Rabs_pos_eq (/ D)) by (left; apply Rinv_0_lt_compat; lra).
  apply (Rmult_le_reg_r D); [lra|]. rewrite Rmult_assoc, Rinv_l, Rmult_1_r by lra. lra.
Qed.

(** r*r/2/s (user_logll.c:41) *)
Lemma quad_64 : forall (r s : b64) r0 D e W, is_finite r = true -> is_finite s = true -> 1 <= W <= bp 100 -> Rabs r0 <= W ->
  Rabs (B2R r - r0) <= 5 * (W * u53) -> bp (-200) <= D -> B2R s = D * (1 + e) -> Rabs e <= 4 * u53 ->
  let q := Bdiv mode_NE (Bdiv mode_NE (l_pow L r (bof 2)) (bof 2)) s in
  is_finite q = true /\ Rabs (B2R q - r0 * r0 / 2 / D) <= u53 * (1 + 40 * (W * W / D)).
Proof.
  intros r s r0 D e W Fr Fs HW H0 Hr HD Vs He. cbv zeta. pose proof u53_pos as U. pose proof (bpow_gt_0 radix2 (-200)) as P2.
  assert (Wu : 0 < W * u53 <= W / 1000) by nra.
  apply Rabs_le_inv in H0. apply Rabs_le_inv in Hr. assert (R1 : - (2 * W) <= B2R r <= 2 * W) by lra.
  assert (B300 : 2 * W <= bp 300). { apply Rle_trans with (bp 1 * bp 100); [change (bp 1) with 2; lra|]. rewrite <- bpow_plus. apply bpow_le. lia. }
  destruct (HQ r Fr) as [Fp Ep]; [apply Rabs_le; lra|]. set (p := l_pow L r (bof 2)) in *.
  assert (WW : 1 <= W * W) by nra. assert (WWu : 0 < W * W * u53 <= W * W / 1000) by nra.
  assert (T : bp (-1000) <= W * W * u53).
  { apply Rle_trans with (bp (-53)); [apply bpow_le; lia|]. change (-53)%Z with (- (53))%Z. rewrite bpow_opp. change (bp 53) with (IZR (2 ^ 53)).
    change (2 ^ 53)%Z with (Z.pow 2 (Z.of_nat 53)). rewrite <- pow_IZR. rewrite <- (Rmult_1_l (/ 2 ^ 53)) at 1. apply Rmult_le_compat_r; lra. }
  assert (Sq : B2R r * B2R r <= 4 * (W * W)) by nra.
  assert (E1 : Rabs (B2R p - r0 * r0) <= 24 * (W * W * u53)).
  { replace (B2R p - r0 * r0) with ((B2R p - B2R r * B2R r) + (B2R r - r0) * (B2R r + r0)) by ring. eapply Rle_trans; [apply Rabs_triang|].
    rewrite (Rabs_mult (B2R r - r0)).
    assert (Rabs (B2R r - r0) * Rabs (B2R r + r0) <= 5 * (W * u53) * (3 * W)) by (apply Rmult_le_compat; auto using Rabs_pos; apply Rabs_le; lra).
    assert (2 * u53 * (B2R r * B2R r) <= 2 * u53 * (4 * (W * W))) by (apply Rmult_le_compat_l; lra). lra. }
  apply Rabs_le_inv in E1. assert (R00 : 0 <= r0 * r0 <= W * W) by nra.
  assert (WB : 2 * (W * W) <= bp 1000). { apply Rle_trans with (bp 1 * (bp 100 * bp 100)); [change (bp 1) with 2; nra|]. rewrite <- !bpow_plus. apply bpow_le. lia. }
  destruct (bof_ok 2 ltac:(lia)) as [V2 F2].
  destruct (bdiv_near p (bof 2) (W * W) Fp) as [Fh Eh]; [rewrite V2; lra|lra|rewrite V2; apply Rabs_le; lra|]. rewrite V2 in Eh.
  set (h := Bdiv mode_NE p (bof 2)) in *. apply Rabs_le_inv in Eh. assert (E2 : Rabs (B2R h - r0 * r0 / 2) <= 13 * (W * W * u53)) by (apply Rabs_le; lra).
  assert (H2 : Rabs (B2R h) <= W * W) by (apply Rabs_le_inv in E2; apply Rabs_le; lra).
  assert (He2 := He). apply Rabs_le_inv in He2. assert (Ps : D / 2 <= B2R s) by (rewrite Vs; nra). assert (P0 : 0 < B2R s) by lra.
  assert (Is : 0 < / B2R s <= 2 * / D).
  { split; [apply Rinv_0_lt_compat; lra|]. replace (2 * / D) with (/ (D / 2)) by (field; lra). apply Rinv_le_contravar; lra. }
  assert (Id : 0 < / D) by (apply Rinv_0_lt_compat; lra).
  set (Q := W * W / D). assert (Q0 : 0 < Q) by (unfold Q, Rdiv; nra).
  assert (E3 : Rabs (B2R h / B2R s - r0 * r0 / 2 / D) <= 30 * (Q * u53)).
  { replace (B2R h / B2R s - r0 * r0 / 2 / D) with ((B2R h - r0 * r0 / 2) * / B2R s + r0 * r0 / 2 * (/ B2R s - / D)) by (field; lra).
    eapply Rle_trans; [apply Rabs_triang|]. rewrite !Rabs_mult, (Rabs_pos_eq (/ B2R s)) by lra.
    assert (A1 : Rabs (B2R h - r0 * r0 / 2) * / B2R s <= 13 * (W * W * u53) * (2 * / D)) by (apply Rmult_le_compat; auto using Rabs_pos; lra).
    assert (A2 : Rabs (/ B2R s - / D) <= 8 * u53 * / D).
    { replace (/ B2R s - / D) with (- e * (/ B2R s)) by (rewrite Vs; field; split; nra). rewrite Rabs_mult, Rabs_Ropp, (Rabs_pos_eq (/ B2R s)) by lra.
      apply Rle_trans with (4 * u53 * (2 * / D)); [apply Rmult_le_compat; auto using Rabs_pos; lra|lra]. }
    assert (A3 : Rabs (r0 * r0 / 2) * Rabs (/ B2R s - / D) <= W * W / 2 * (8 * u53 * / D)) by (apply Rmult_le_compat; [apply Rabs_pos|apply Rabs_pos|rewrite Rabs_pos_eq by lra; lra|exact A2]).
    unfold Q, Rdiv in *. nra. }
  assert (M : Rabs (B2R h / B2R s) <= 1 + 4 * Q).
  { unfold Rdiv. rewrite Rabs_mult, (Rabs_pos_eq (/ B2R s)) by lra. apply Rle_trans with (W * W * (2 * / D)); [apply Rmult_le_compat; auto using Rabs_pos; lra|]. replace (W * W * (2 * / D)) with (2 * Q) by (unfold Q, Rdiv; ring). lra. }
  assert (QB : 1 + 4 * Q <= bp 1000).
  { assert (IB : / D <= bp 200) by (change 200%Z with (- - (200))%Z; rewrite bpow_opp; apply Rinv_le_contravar; auto).
    assert (Q <= bp 400). { unfold Q, Rdiv. apply Rle_trans with (bp 100 * bp 100 * bp 200); [apply Rmult_le_compat; try nra; apply Rmult_le_pos; lra|]. rewrite <- !bpow_plus. apply bpow_le. lia. }
    assert (1 + 4 * Q <= bp 3 * bp 400) by (change (bp 3) with 8; assert (1 <= bp 400) by (change 1 with (bp 0); apply bpow_le; lia); lra).
    rewrite <- bpow_plus in H1. eapply Rle_trans; [exact H1|]. apply bpow_le. lia. }
  destruct (bdiv_near h s (1 + 4 * Q) Fh ltac:(lra) ltac:(lra) M) as [Fq Eq]. split; [exact Fq|].
  replace (B2R (Bdiv mode_NE h s) - r0 * r0 / 2 / D) with ((B2R (Bdiv mode_NE h s) - B2R h / B2R s) + (B2R h / B2R s - r0 * r0 / 2 / D)) by ring.
  eapply Rle_trans; [apply Rabs_triang|]. assert (0 < Q * u53) by nra. lra.
Qed.

(** -0.5*log(2*PI) *)
Lemma half_64 : is_finite (@half (B64 L)) = true /\ B2R (@half (B64 L)) = / 2.
Proof.
  unfold half, nlit. cbn [ndiv nof B64].
  replace (Bdiv mode_NE (bof 5) (bof (10 ^ 1))) with (@B754_finite prec emax false 4503599627370496 (-53) eq_refl) by (apply B2SF_inj; vm_compute; reflexivity).
  split; [reflexivity|]. unfold B2R, F2R. cbn [cond_Zopp Fnum Fexp]. change (-53)%Z with (- (53))%Z. rewrite bpow_opp.
  change (bp 53) with (IZR (2 ^ 53)). change (IZR 4503599627370496) with (IZR (2 ^ 52)). change (2 ^ 53)%Z with (2 ^ 52 * 2)%Z. rewrite mult_IZR. field.
  apply IZR_neq. discriminate.
Qed.
Lemma ln_2pi : 0 <= ln (2 * PI) <= 3.
Proof.
  pose proof PI_18. split.
  - rewrite <- ln_1. left. apply ln_increasing; lra.
  - rewrite <- (ln_exp 3). left. apply ln_increasing; [lra|]. pose proof (exp_nat 3) as E. replace (INR 3) with 3 in E by (rewrite INR_IZR_INZ; reflexivity). lra.
Qed.
Lemma const_64 : let c := @nmul (B64 L) (nopp half) (@nlog (B64 L) (@nmul (B64 L) (nof 2) PI15)) in
  is_finite c = true /\ Rabs (B2R c - - (/ 2) * ln (2 * PI)) <= 20 * u53.
Proof.
  cbv zeta. cbn [nmul nopp nlog nof B64]. pose proof u53_pos as U. pose proof PI_18 as P. pose proof ln_2pi as LN.
  destruct half_64 as [FH VH]. destruct (bof_ok 2 ltac:(lia)) as [V2 F2].
  change (@PI15 (B64 L)) with (@nlit (B64 L) 3141592653589793 15).
  destruct (nlit_near L 3141592653589793 15 2) as [FP HP]; [lia|lia|lia|change (bp 2) with 4; change (10 ^ 15)%Z with 1000000000000000%Z; lra|].
  change (10 ^ 15)%Z with 1000000000000000%Z in HP. replace (bp (2 - 54)) with (2 * u53) in HP.
  2:{ change (bp (2 - 54)) with (/ IZR (2 ^ 52)). change (2 ^ 52)%Z with (Z.pow 2 (Z.of_nat 52)). rewrite <- pow_IZR. change (2 ^ 53) with (2 * 2 ^ 52). field. }
  apply Rabs_le_inv in HP. set (p := @nlit (B64 L) 3141592653589793 15) in *.
  assert (U2 : / 1000000000000000 <= 10 * u53) by lra.
  destruct (bmul_near (bof 2) p 8 F2 FP) as [F3 E3]; [split; [lra|]; change 8 with (bp 3); apply bpow_le; lia|rewrite V2; apply Rabs_le; lra|].
  rewrite V2 in E3. apply Rabs_le_inv in E3. set (t := Bmult mode_NE (bof 2) p) in *.
  assert (E4 : Rabs (B2R t - 2 * PI) <= 17 * u53) by (apply Rabs_le; lra).
  destruct (log_64 t (2 * PI) ((B2R t - 2 * PI) / (2 * PI)) F3) as [Fl El]; [lra|field; lra| |].
  { unfold Rdiv. rewrite Rabs_mult, (Rabs_pos_eq (/ (2 * PI))) by (left; apply Rinv_0_lt_compat; lra).
    assert (/ (2 * PI) <= 1) by (rewrite <- Rinv_1; apply Rinv_le_contravar; lra).
    assert (0 < / (2 * PI)) by (apply Rinv_0_lt_compat; lra). pose proof (Rabs_pos (B2R t - 2 * PI)). nra. }
  assert (E5 : Rabs ((B2R t - 2 * PI) / (2 * PI)) <= 3 * u53).
  { unfold Rdiv. rewrite Rabs_mult, (Rabs_pos_eq (/ (2 * PI))) by (left; apply Rinv_0_lt_compat; lra).
    assert (/ (2 * PI) <= / 6) by (apply Rinv_le_contravar; lra). assert (0 < / (2 * PI)) by (apply Rinv_0_lt_compat; lra). pose proof (Rabs_pos (B2R t - 2 * PI)).
    apply Rle_trans with (17 * u53 * / 6); [apply Rmult_le_compat; lra|lra]. }
  rewrite (Rabs_pos_eq (ln (2 * PI))) in El by lra.
  assert (E6 : Rabs (B2R (l_log L t) - ln (2 * PI)) <= 13 * u53).
  { eapply Rle_trans; [exact El|]. assert (u53 * (2 * ln (2 * PI) + 1) <= u53 * 7) by (apply Rmult_le_compat_l; lra). lra. }
  apply Rabs_le_inv in E6. assert (FO : is_finite (Bopp (@half (B64 L))) = true) by (rewrite is_finite_Bopp; auto).
  assert (VO : B2R (Bopp (@half (B64 L))) = - / 2) by (rewrite B2R_Bopp, VH; reflexivity).
  destruct (bmul_near (Bopp (@half (B64 L))) (l_log L t) 2 FO Fl) as [F7 E7]; [split; [lra|]; change 2 with (bp 1); apply bpow_le; lia|rewrite VO; apply Rabs_le; lra|].
  split; [exact F7|]. rewrite VO in E7. apply Rabs_le_inv in E7. apply Rabs_le. lra.
Qed.

(** ** one line of the data *)
(** the log of the normal density of one line, over the reals *)
Definition line_R (a b d x y : R) : R := - (/ 2) * ln (2 * PI) - / 2 * ln (d * d) - (x * a + b - y) * (x * a + b - y) / 2 / (d * d).
(** the size of a term: 1 + |ln d^2| + W^2/d^2 *)
Definition line_size (d W : R) : R := 1 + Rabs (ln (d * d)) + W * W / (d * d).
Lemma size_ge : forall d W, 0 < d -> 1 <= W -> 1 <= line_size d W /\ 0 < W * W / (d * d).
Proof.
  intros d W Hd HW. unfold line_size. pose proof (Rabs_pos (ln (d * d))). assert (0 < / (d * d)) by (apply Rinv_0_lt_compat; nra).
  assert (0 < W * W / (d * d)) by (unfold Rdiv; apply Rmult_lt_0_compat; nra). lra.
Qed.
Lemma size_le : forall d W, bp (-100) <= d <= bp 100 -> 1 <= W <= bp 100 -> line_size d W <= bp 500.
Proof.
  intros d W Hd HW. unfold line_size. pose proof (bpow_gt_0 radix2 (-100)) as P.
  assert (D1 : bp (-200) <= d * d) by (replace (-200)%Z with (-100 + -100)%Z by lia; rewrite bpow_plus; nra).
  assert (D2 : d * d <= bp 200) by (replace 200%Z with (100 + 100)%Z by lia; rewrite bpow_plus; nra).
  pose proof (bpow_gt_0 radix2 (-200)) as P2.
  assert (I1 : / (d * d) <= bp 200) by (change 200%Z with (- - (200))%Z; rewrite bpow_opp; apply Rinv_le_contravar; auto).
  assert (W2 : W * W / (d * d) <= bp 400).
  { unfold Rdiv. apply Rle_trans with (bp 100 * bp 100 * bp 200); [apply Rmult_le_compat; try nra; left; apply Rinv_0_lt_compat; lra|]. rewrite <- !bpow_plus. apply bpow_le. lia. }
  assert (LL : Rabs (ln (d * d)) <= bp 400).
  { assert (Z : forall z, 0 < z -> ln z <= z).
    { intros z Hz. pose proof (exp_ineq1_le (ln z)) as E. rewrite exp_ln in E by auto. lra. }
    assert (bp 200 <= bp 400) by (apply bpow_le; lia). pose proof (Z (d * d) ltac:(lra)). pose proof (Z (/ (d * d)) ltac:(apply Rinv_0_lt_compat; lra)) as Z2.
    rewrite ln_Rinv in Z2 by lra. apply Rabs_le. lra. }
  assert (1 <= bp 400) by (change 1 with (bp 0); apply bpow_le; lia).
  assert (bp 2 * bp 400 <= bp 500) by (rewrite <- bpow_plus; apply bpow_le; lia). change (bp 2) with 4 in *. lra.
Qed.
Lemma line_abs : forall a b d x y W, 0 < d -> 1 <= W -> Rabs (x * a) + Rabs b + Rabs y <= W -> Rabs (line_R a b d x y) <= 2 * line_size d W.
Proof.
  intros a b d x y W Hd HW H. destruct (size_ge d W Hd HW) as [_ S]. pose proof ln_2pi as LN. unfold line_R, line_size in *.
  set (r := x * a + b - y). assert (R0 : Rabs r <= W).
  { unfold r, Rminus. pose proof (Rabs_triang (x * a + b) (- y)). pose proof (Rabs_triang (x * a) b). rewrite Rabs_Ropp in *. lra. }
  assert (R1 : 0 <= r * r / 2 / (d * d) <= W * W / (d * d)).
  { apply Rabs_le_inv in R0. assert (0 < / (d * d)) by (apply Rinv_0_lt_compat; nra). unfold Rdiv. split; [apply Rmult_le_pos; [nra|lra]|].
    apply Rmult_le_compat_r; nra. }
  pose proof (Rle_abs (ln (d * d))). pose proof (Rle_abs (- ln (d * d))) as A2. rewrite Rabs_Ropp in A2. apply Rabs_le. lra.
Qed.

Lemma term_64 : forall (a b d x y : b64) W, is_finite a = true -> is_finite b = true -> is_finite d = true -> is_finite x = true -> is_finite y = true ->
  bp (-100) <= B2R d <= bp 100 -> 1 <= W <= bp 100 -> Rabs (B2R x * B2R a) + Rabs (B2R b) + Rabs (B2R y) <= W ->
  let A := B64 L in
  let t := @nsub A (@nsub A (@nmul A (nopp half) (@nlog A (@nmul A (nof 2) PI15))) (@nmul A half (@nlog A (@sq A d))))
             (@ndiv A (@ndiv A (@sq A (@nsub A (@nadd A (@nmul A x a) b) y)) two) (@sq A d)) in
  is_finite t = true /\ Rabs (B2R t - line_R (B2R a) (B2R b) (B2R d) (B2R x) (B2R y)) <= u53 * (60 * line_size (B2R d) W).
Proof.
  intros a b d x y W Fa Fb Fd Fx Fy Hd HW H. cbv zeta.
  pose proof (bpow_gt_0 radix2 (-100)) as P. destruct (size_ge (B2R d) W ltac:(lra) ltac:(lra)) as [S1 S2]. pose proof (size_le (B2R d) W Hd HW) as S3.
  assert (SB : 20 * line_size (B2R d) W <= bp 1000).
  { apply Rle_trans with (bp 5 * bp 500); [change (bp 5) with 32; lra|]. rewrite <- bpow_plus. apply bpow_le. lia. }
  pose proof u53_pos as U. pose proof ln_2pi as LN.
  destruct const_64 as [Fc Ec]. cbv zeta in Fc, Ec. set (c := @nmul (B64 L) (nopp half) (@nlog (B64 L) (@nmul (B64 L) (nof 2) PI15))) in *.
  destruct (res_64 x a b y W Fx Fa Fb Fy HW H) as [Fr Er]. cbv zeta in Fr, Er.
  destruct (var_64 d Fd Hd) as [Fs [e [Vs He]]].
  change (@sq (B64 L) d) with (l_pow L d (bof 2)). set (s := l_pow L d (bof 2)) in *.
  set (D := B2R d * B2R d) in *.
  assert (D1 : bp (-200) <= D) by (unfold D; replace (-200)%Z with (-100 + -100)%Z by lia; rewrite bpow_plus; nra).
  pose proof (bpow_gt_0 radix2 (-200)) as P2.
  destruct (log_64 s D e Fs ltac:(lra) Vs ltac:(lra)) as [Fl El].
  change (@nlog (B64 L) s) with (l_log L s). set (Lm := Rabs (ln D)) in *. assert (L0 : 0 <= Lm) by apply Rabs_pos.
  assert (El2 : Rabs (B2R (l_log L s) - ln D) <= u53 * (9 + 2 * Lm)) by lra. clear El.
  assert (LA := Rle_abs (ln D)). pose proof (Rle_abs (- ln D)) as LB. rewrite Rabs_Ropp in LB. fold Lm in LA, LB.
  unfold line_size in *. fold D in S1, S2, S3, SB |- *. fold Lm in S1, S3, SB |- *. set (Q := W * W / D) in *.
  assert (uL : 0 <= u53 * Lm <= Lm / 1000) by nra. assert (uQ : 0 < u53 * Q <= Q / 1000) by nra.
  destruct half_64 as [FH VH]. apply Rabs_le_inv in El2.
  destruct (bmul_near (@half (B64 L)) (l_log L s) (1 + Lm) FH Fl) as [Fh Eh]; [lra|rewrite VH; apply Rabs_le; lra|]. rewrite VH in Eh. apply Rabs_le_inv in Eh.
  change (@nmul (B64 L) half (l_log L s)) with (Bmult mode_NE (@half (B64 L)) (l_log L s)). set (h := Bmult mode_NE (@half (B64 L)) (l_log L s)) in *.
  apply Rabs_le_inv in Ec.
  destruct (bsub_near c h (3 + 2 * Lm) Fc Fh) as [Fm Em]; [lra|apply Rabs_le; lra|]. apply Rabs_le_inv in Em.
  change (@nsub (B64 L) c h) with (Bminus mode_NE c h). set (m := Bminus mode_NE c h) in *.
  set (r0 := B2R x * B2R a + B2R b - B2R y) in *.
  assert (R0 : Rabs r0 <= W).
  { unfold r0, Rminus. pose proof (Rabs_triang (B2R x * B2R a + B2R b) (- B2R y)). pose proof (Rabs_triang (B2R x * B2R a) (B2R b)). rewrite Rabs_Ropp in *. lra. }
  destruct (quad_64 (Bminus mode_NE (Bplus mode_NE (Bmult mode_NE x a) b) y) s r0 D e W Fr Fs HW R0 Er D1 Vs He) as [Fq Eq]. cbv zeta in Fq, Eq.
  change (@ndiv (B64 L) (@ndiv (B64 L) (@sq (B64 L) (@nsub (B64 L) (@nadd (B64 L) (@nmul (B64 L) x a) b) y)) two) s)
    with (Bdiv mode_NE (Bdiv mode_NE (l_pow L (Bminus mode_NE (Bplus mode_NE (Bmult mode_NE x a) b) y) (bof 2)) (bof 2)) s).
  set (q := Bdiv mode_NE (Bdiv mode_NE (l_pow L (Bminus mode_NE (Bplus mode_NE (Bmult mode_NE x a) b) y) (bof 2)) (bof 2)) s) in *.
  fold Q in Eq. apply Rabs_le_inv in Eq.
  assert (R1 : 0 <= r0 * r0 / 2 / D <= Q).
  { apply Rabs_le_inv in R0. assert (0 < / D) by (apply Rinv_0_lt_compat; lra). unfold Q, Rdiv. split; [apply Rmult_le_pos; [nra|lra]|].
    apply Rmult_le_compat_r; nra. }
  destruct (bsub_near m q (5 + 2 * Lm + 2 * Q) Fm Fq) as [Ft Et]; [lra|apply Rabs_le; lra|]. apply Rabs_le_inv in Et.
  change (@nsub (B64 L) m q) with (Bminus mode_NE m q). split; [exact Ft|]. unfold line_R. fold r0 D. apply Rabs_le. lra.
Qed.

(** ** the sum over the lines *)
Definition lines_R (a b d : R) (x y : nat -> R) (n : nat) : R := fold_left (fun s i => s + line_R a b d (x i) (y i)) (seq 0 n) 0.
Lemma lines_S : forall a b d x y n, lines_R a b d x y (S n) = lines_R a b d x y n + line_R a b d (x n) (y n).
Proof. intros. unfold lines_R. rewrite seq_S, fold_left_app. reflexivity. Qed.

Lemma sum_reg : forall (xs : list b64) (nd : Z) (data : list b64) W n,
  let a := nth 0 xs (bof 0) in let b := nth 1 xs (bof 0) in let d := nth 2 xs (bof 0) in
  let x i := nth (Z.to_nat (Z.of_nat i * nd + 0)) data (bof 0) in let y i := nth (Z.to_nat (Z.of_nat i * nd + 1)) data (bof 0) in
  is_finite a = true -> is_finite b = true -> is_finite d = true -> bp (-100) <= B2R d <= bp 100 -> 1 <= W <= bp 100 -> INR n <= 2 ^ 20 ->
  (forall i, (i < n)%nat -> is_finite (x i) = true /\ is_finite (y i) = true /\ Rabs (B2R (x i) * B2R a) + Rabs (B2R b) + Rabs (B2R (y i)) <= W) ->
  let s := @reg_sum (B64 L) xs nd (Z.of_nat n) data in let T := line_size (B2R d) W in
  let r := lines_R (B2R a) (B2R b) (B2R d) (fun i => B2R (x i)) (fun i => B2R (y i)) n in
  is_finite s = true /\ Rabs (B2R s - r) <= u53 * T * (70 * INR n + INR n * INR n) /\ Rabs r <= 2 * INR n * T.
Proof.
  intros xs nd data W n a b d x y Fa Fb Fd Hd HW Hn HX. cbv zeta. unfold reg_sum. rewrite Nat2Z.id.
  pose proof (bpow_gt_0 radix2 (-100)) as P. destruct (size_ge (B2R d) W ltac:(lra) ltac:(lra)) as [S1 _]. pose proof (size_le (B2R d) W Hd HW) as S3.
  set (T := line_size (B2R d) W) in *. pose proof u53_pos as U.
  induction n as [|n IH].
  - cbn [seq fold_left]. unfold lines_R. cbn [seq fold_left]. change (@nof (B64 L) 0) with (bof 0). destruct (bof_ok 0 ltac:(lia)) as [V0 F0]. split; [exact F0|].
    rewrite V0. rewrite Rminus_0_r, Rabs_R0. simpl INR. lra.
  - rewrite S_INR in *. pose proof (pos_INR n) as N0.
    destruct IH as [Fs [Es Rs]]; [lra|intros; apply HX; lia|].
    rewrite seq_S, fold_left_app. cbn [fold_left plus]. rewrite lines_S.
    match type of Fs with is_finite ?z = true => set (s := z) in * end.
    set (r := lines_R (B2R a) (B2R b) (B2R d) (fun i => B2R (x i)) (fun i => B2R (y i)) n) in *.
    destruct (HX n ltac:(lia)) as [Fx [Fy HH]].
    destruct (term_64 a b d (x n) (y n) W Fa Fb Fd Fx Fy Hd HW HH) as [Ft Et]. cbv zeta in Ft, Et.
    match type of Ft with is_finite ?t = true => change (@reg_term (B64 L) xs nd data (Z.of_nat n)) with t; set (tm := t) in * end.
    pose proof (line_abs (B2R a) (B2R b) (B2R d) (B2R (x n)) (B2R (y n)) W ltac:(lra) ltac:(lra) HH) as At. fold T in Et, At.
    set (tr := line_R (B2R a) (B2R b) (B2R d) (B2R (x n)) (B2R (y n))) in *.
    assert (Tu : 0 < u53 * T <= T / 1000) by nra.
    assert (SM : u53 * T * (70 * INR n + INR n * INR n) <= T / 2).
    { assert (N2 : 70 * INR n + INR n * INR n <= 70 * 2 ^ 20 + 2 ^ 20 * 2 ^ 20) by nra.
      apply Rle_trans with (u53 * T * (70 * 2 ^ 20 + 2 ^ 20 * 2 ^ 20)); [apply Rmult_le_compat_l; lra|]. 
      replace (u53 * T * (70 * 2 ^ 20 + 2 ^ 20 * 2 ^ 20)) with (T * (u53 * (70 * 2 ^ 20 + 2 ^ 20 * 2 ^ 20))) by ring.
      replace (T / 2) with (T * / 2) by field. apply Rmult_le_compat_l; [lra|]. lra. }
    assert (NT : 0 <= INR n * T) by nra.
    apply Rabs_le_inv in Et. apply Rabs_le_inv in At. apply Rabs_le_inv in Rs. assert (Es2 := Es). apply Rabs_le_inv in Es2.
    destruct (badd_near s tm ((2 * INR n + 3) * T) Fs Ft) as [Fz Ez].
    + split; [nra|]. apply Rle_trans with (bp 22 * bp 500); [|rewrite <- bpow_plus; apply bpow_le; lia].
      apply Rmult_le_compat; [lra|lra| |exact S3]. change (bp 22) with 4194304. lra.
    + apply Rabs_le. lra.
    + change (@nadd (B64 L) s tm) with (Bplus mode_NE s tm). split; [exact Fz|]. apply Rabs_le_inv in Ez.
      replace (u53 * T * (70 * (INR n + 1) + (INR n + 1) * (INR n + 1))) with (u53 * T * (70 * INR n + INR n * INR n) + 71 * (u53 * T) + 2 * (INR n * (u53 * T))) by ring.
      replace ((2 * INR n + 3) * T * u53) with (2 * (INR n * (u53 * T)) + 3 * (u53 * T)) in Ez by ring.
      split; apply Rabs_le; lra.
Qed.
(** ** the prior *)
Lemma rnd_rel2 : forall x, bp (-50) <= x -> exists e, Rabs e <= u53 /\ rnd x = x * (1 + e).
Proof.
  intros x H. pose proof (bpow_gt_0 radix2 (-50)) as P. destruct (rnd_cases x) as [[e [E1 E2]]|E]; [exists e; auto|].
  exists ((rnd x - x) / x). split; [|field; lra]. unfold Rdiv. rewrite Rabs_mult, (Rabs_pos_eq (/ x)) by (left; apply Rinv_0_lt_compat; lra).
  apply (Rmult_le_reg_r x); [lra|]. rewrite Rmult_assoc, Rinv_l, Rmult_1_r by lra. eapply Rle_trans; [exact E|].
  pose proof u53_pos. apply Rmult_le_compat_l; [lra|]. eapply Rle_trans; [|exact H].
  change (-50)%Z with (- (50))%Z. rewrite bpow_opp. change (bp 50) with (IZR (2 ^ 50)). change (2 ^ 50)%Z with (Z.pow 2 (Z.of_nat 50)). rewrite <- pow_IZR.
  apply Rinv_le_contravar; [apply pow_lt; lra|apply Rle_pow; [lra|lia]].
Qed.
Lemma bp40 : bp 40 = 1099511627776 /\ bp (-40) = / 1099511627776.
Proof. split; reflexivity. Qed.
Lemma ln_40 : forall x, bp (-40) <= x <= bp 40 -> Rabs (ln x) <= 40.
Proof.
  destruct bp40 as [B1 B2]. intros x H. rewrite B1, B2 in H. assert (E : exp 40 >= 1099511627776).
  { pose proof (exp_nat 40) as E. replace (INR 40) with 40 in E by (rewrite INR_IZR_INZ; reflexivity). lra. }
  assert (0 < x) by lra. apply Rabs_le. split.
  - rewrite <- (ln_exp (- (40))). assert (exp (- (40)) <= x) by (rewrite exp_Ropp; assert (/ exp 40 <= / 1099511627776) by (apply Rinv_le_contravar; lra); lra).
    destruct H1 as [H1|H1]; [left; apply ln_increasing; [apply exp_pos|exact H1]|rewrite <- H1; lra].
  - rewrite <- (ln_exp 40). destruct (Req_dec x (exp 40)) as [->|N]; [lra|left]. apply ln_increasing; lra.
Qed.
Lemma prod_err : forall e f k m, Rabs e <= k * u53 -> Rabs f <= m * u53 -> 0 <= k <= 100 -> 0 <= m <= 100 ->
  exists h, (1 + e) * (1 + f) = 1 + h /\ Rabs h <= (k + m + / 2) * u53.
Proof.
  intros e f k m He Hf Hk Hm. pose proof u53_pos as U. exists (e + f + e * f). split; [ring|].
  assert (Rabs (e * f) <= / 2 * u53).
  { rewrite Rabs_mult. apply Rle_trans with (k * u53 * (m * u53)); [apply Rmult_le_compat; auto using Rabs_pos|].
    assert (k * m <= 10000) by nra. assert (k * u53 * (m * u53) = k * m * u53 * u53) by ring. assert (k * m * u53 * u53 <= 10000 * u53 * u53) by (apply Rmult_le_compat_r; [lra|apply Rmult_le_compat_r; lra]). nra. }
  eapply Rle_trans; [apply Rabs_triang|]. pose proof (Rabs_triang e f). lra.
Qed.
Lemma inv_err : forall e k, Rabs e <= k * u53 -> 0 <= k <= 100 -> exists h, / (1 + e) = 1 + h /\ Rabs h <= (k + / 2) * u53 /\ 1 + e > 0.
Proof.
  intros e k He Hk. pose proof u53_pos as U. assert (B : Rabs e <= / 1000) by nra. apply Rabs_le_inv in B. exists (- e / (1 + e)). split; [field; lra|]. split; [|lra].
  unfold Rdiv. rewrite Rabs_mult, Rabs_Ropp, (Rabs_pos_eq (/ (1 + e))) by (left; apply Rinv_0_lt_compat; lra).
  apply (Rmult_le_reg_r (1 + e)); [lra|]. rewrite Rmult_assoc, Rinv_l, Rmult_1_r by lra.
  assert ((k + / 2) * u53 * e >= - (101 * u53 * Rabs e)).
  { pose proof (Rle_abs (- e)) as A. rewrite Rabs_Ropp in A. pose proof (Rabs_pos e). assert ((k + / 2) * u53 <= 101 * u53) by nra. nra. }
  assert (101 * u53 * Rabs e <= / 4 * u53).
  { pose proof (Rabs_pos e). assert (Rabs e <= 100 * u53) by nra. nra. }
  lra.
Qed.

Lemma div_rel : forall (x y : b64), is_finite x = true -> B2R y <> 0 -> bp (-50) <= B2R x / B2R y <= bp 100 ->
  is_finite (Bdiv mode_NE x y) = true /\ exists e, Rabs e <= u53 /\ B2R (Bdiv mode_NE x y) = B2R x / B2R y * (1 + e).
Proof.
  intros x y Fx Ny H. pose proof (bpow_gt_0 radix2 (-50)) as P.
  destruct (bdiv_ok x y Fx Ny) as [V F]; [apply (rnd_small _ 100); [lia|rewrite Rabs_pos_eq; lra]|]. split; auto. rewrite V. apply rnd_rel2. lra.
Qed.

(** -log of the width of a range *)
Lemma unif_64 : forall p : b64 * b64, is_finite (fst p) = true -> is_finite (snd p) = true -> bp (-40) <= B2R (snd p) - B2R (fst p) <= bp 40 ->
  is_finite (l_log L (@prior_unif (B64 L) p)) = true /\
  Rabs (B2R (l_log L (@prior_unif (B64 L) p)) - - ln (B2R (snd p) - B2R (fst p))) <= 90 * u53 /\ Rabs (ln (B2R (snd p) - B2R (fst p))) <= 40.
Proof.
  intros p F1 F2 H. pose proof (ln_40 _ H) as LN. unfold prior_unif. cbn [ndiv nsub nof B64].
  set (w := B2R (snd p) - B2R (fst p)) in *. destruct bp40 as [B1 B2]. pose proof u53_pos as U.
  assert (P50 : bp (-50) <= / 1125899906842624) by (right; reflexivity). assert (P100 : bp 50 <= bp 100) by (apply bpow_le; lia). change (bp 50) with 1125899906842624 in P100.
  rewrite B1, B2 in H.
  destruct (bminus_ok (snd p) (fst p) F2 F1) as [V F]; [apply (rnd_small _ 100); [lia|fold w; rewrite Rabs_pos_eq by lra; lra]|]. fold w in V.
  destruct (rnd_rel2 w ltac:(lra)) as [e [He E]]. rewrite E in V.
  destruct (inv_err e 1 ltac:(lra) ltac:(lra)) as [h [Eh [Hh Ph]]].
  set (m := Bminus mode_NE (snd p) (fst p)) in *. destruct (bof_ok 1 ltac:(lia)) as [V1 F1'].
  assert (Q : B2R (bof 1) / B2R m = / w * (1 + h)) by (rewrite V1, V, <- Eh; field; lra).
  assert (Iw : / 1099511627776 <= / w <= 1099511627776).
  { split; [apply Rinv_le_contravar; lra|]. replace 1099511627776 with (/ / 1099511627776) by (field). apply Rinv_le_contravar; lra. }
  assert (Bh : Rabs h <= / 2) by lra. apply Rabs_le_inv in Bh.
  destruct (div_rel (bof 1) m F1') as [Fq [f [Hf Vf]]]; [rewrite V; apply Rmult_integral_contrapositive; lra|rewrite Q; nra|].
  destruct (prod_err h f (1 + / 2) 1 Hh ltac:(lra) ltac:(lra) ltac:(lra)) as [k [Ek Hk]].
  rewrite Q, Rmult_assoc, Ek in Vf.
  destruct (log_64 (Bdiv mode_NE (bof 1) m) (/ w) k Fq ltac:(lra) Vf ltac:(lra)) as [Fl El].
  split; [exact Fl|]. rewrite ln_Rinv in El by lra. rewrite Rabs_Ropp in El. split; [|exact LN].
  eapply Rle_trans; [exact El|]. assert (u53 * (2 * Rabs (ln w) + 1) <= u53 * 81) by (apply Rmult_le_compat_l; lra). lra.
Qed.

(** -log of d*log(dmax/dmin) *)
Lemma jeff_64 : forall (d : b64) (p : b64 * b64), is_finite d = true -> is_finite (fst p) = true -> is_finite (snd p) = true ->
  bp (-40) <= B2R d <= bp 40 -> bp (-40) <= B2R (fst p) -> B2R (snd p) <= bp 40 -> 2 * B2R (fst p) <= B2R (snd p) ->
  let J := - ln (B2R d * ln (B2R (snd p) / B2R (fst p))) in
  is_finite (l_log L (@prior_jeff (B64 L) d p)) = true /\ Rabs (B2R (l_log L (@prior_jeff (B64 L) d p)) - J) <= 300 * u53 /\ Rabs J <= 120.
Proof.
  intros d p Fd F1 F2 Hd H1 H2 H3. cbv zeta. unfold prior_jeff. cbn [ndiv nmul nlog nof B64]. pose proof u53_pos as U.
  pose proof (bpow_gt_0 radix2 (-40)) as P40. pose proof (ln_40 _ Hd) as LD. pose proof (ln_40 (B2R (fst p)) ltac:(lra)) as LF. pose proof (ln_40 (B2R (snd p)) ltac:(lra)) as LS.
  destruct bp40 as [B1 B2]. rewrite B1, B2 in *. set (lo := B2R (fst p)) in *. set (hi := B2R (snd p)) in *.
  assert (P50 : bp (-50) <= / 1125899906842624) by (right; reflexivity). 
  assert (P100 : 1099511627776 * 1099511627776 <= bp 100) by (apply Rle_trans with (bp 40 * bp 40); [rewrite B1; lra|rewrite <- bpow_plus; apply bpow_le; lia]).
  set (rho := hi / lo). assert (I0 : 0 < / lo <= 1099511627776).
  { split; [apply Rinv_0_lt_compat; lra|]. replace 1099511627776 with (/ / 1099511627776) by field. apply Rinv_le_contravar; lra. }
  assert (R1 : 2 <= rho) by (unfold rho; apply (Rmult_le_reg_r lo); [lra|]; unfold Rdiv; rewrite Rmult_assoc, Rinv_l by lra; lra).
  assert (R2 : rho <= 1099511627776 * 1099511627776) by (unfold rho, Rdiv; apply Rmult_le_compat; lra).
  assert (LR : ln rho = ln hi - ln lo) by (unfold rho, Rdiv; rewrite ln_mult, ln_Rinv by lra; ring).
  assert (K1 : / 2 <= ln rho).
  { assert (ln 2 <= ln rho) by (destruct R1 as [R1|<-]; [left; apply ln_increasing; lra|lra]). assert (/ 2 <= ln 2); [|lra].
    rewrite <- (ln_exp (/ 2)). left. apply ln_increasing; [apply exp_pos|]. 
    assert (E4 : exp (/ 2) * exp (/ 2) <= 3) by (rewrite <- exp_plus; replace (/ 2 + / 2) with 1 by field; apply exp_le_3). pose proof (exp_pos (/ 2)). nra. }
  assert (K2 : ln rho <= 80). { apply Rabs_le_inv in LF. apply Rabs_le_inv in LS. lra. }
  destruct (div_rel (snd p) (fst p) F2) as [Fq [e [He Ve]]]; [fold lo; lra|fold lo hi rho; lra|]. fold lo hi rho in Ve.
  destruct (log_64 (Bdiv mode_NE (snd p) (fst p)) rho e Fq ltac:(lra) Ve ltac:(lra)) as [Fl El].
  set (l := l_log L (Bdiv mode_NE (snd p) (fst p))) in *. rewrite (Rabs_pos_eq (ln rho)) in El by lra.
  set (e2 := (B2R l - ln rho) / ln rho). assert (Vl : B2R l = ln rho * (1 + e2)) by (unfold e2; field; lra).
  assert (He2 : Rabs e2 <= 8 * u53).
  { unfold e2, Rdiv. rewrite Rabs_mult, (Rabs_pos_eq (/ ln rho)) by (left; apply Rinv_0_lt_compat; lra). apply (Rmult_le_reg_r (ln rho)); [lra|].
    rewrite Rmult_assoc, Rinv_l, Rmult_1_r by lra. eapply Rle_trans; [exact El|]. assert (u53 * (2 * ln rho + 1) <= u53 * (4 * ln rho)) by (apply Rmult_le_compat_l; lra). nra. }
  assert (B2' : - / 1000 <= e2 <= / 1000) by (apply Rabs_le_inv; lra).
  set (w := B2R d * ln rho). assert (W1 : / 1099511627776 / 2 <= w <= 1099511627776 * 80) by (unfold w; split; nra).
  destruct (bmult_ok d l Fd Fl) as [Vm Fm].
  { apply (rnd_small _ 100); [lia|]. rewrite Vl. replace (B2R d * (ln rho * (1 + e2))) with (w * (1 + e2)) by (unfold w; ring). rewrite Rabs_pos_eq by nra. nra. }
  rewrite Vl in Vm. replace (B2R d * (ln rho * (1 + e2))) with (w * (1 + e2)) in Vm by (unfold w; ring).
  destruct (rnd_rel2 (w * (1 + e2)) ltac:(nra)) as [e3 [He3 E3]]. rewrite E3, Rmult_assoc in Vm.
  destruct (prod_err e2 e3 8 1 He2 ltac:(lra) ltac:(lra) ltac:(lra)) as [k [Ek Hk]]. rewrite Ek in Vm.
  destruct (inv_err k (8 + 1 + / 2) Hk ltac:(lra)) as [h [Eh [Hh Ph]]].
  set (m := Bmult mode_NE d l) in *. destruct (bof_ok 1 ltac:(lia)) as [V1 F1'].
  assert (Q : B2R (bof 1) / B2R m = / w * (1 + h)) by (rewrite V1, Vm, <- Eh; field; lra).
  assert (Iw : / (1099511627776 * 80) <= / w <= 1099511627776 * 2).
  { split; [apply Rinv_le_contravar; lra|]. replace (1099511627776 * 2) with (/ (/ 1099511627776 / 2)) by field. apply Rinv_le_contravar; lra. }
  assert (Bh : - / 1000 <= h <= / 1000) by (apply Rabs_le_inv; lra).
  destruct (div_rel (bof 1) m F1') as [Fz [f [Hf Vf]]]; [rewrite Vm; apply Rmult_integral_contrapositive; lra|rewrite Q; nra|].
  destruct (prod_err h f (8 + 1 + / 2 + / 2) 1 Hh ltac:(lra) ltac:(lra) ltac:(lra)) as [k2 [Ek2 Hk2]].
  rewrite Q, Rmult_assoc, Ek2 in Vf.
  destruct (log_64 (Bdiv mode_NE (bof 1) m) (/ w) k2 Fz ltac:(lra) Vf ltac:(lra)) as [Fy Ey].
  assert (LW : Rabs (- ln w) <= 120).
  { rewrite Rabs_Ropp. unfold w. rewrite ln_mult by lra. eapply Rle_trans; [apply Rabs_triang|]. assert (Rabs (ln (ln rho)) <= 80); [|lra].
    apply Rabs_le. split.
    - assert (ln (/ 2) <= ln (ln rho)) by (destruct K1 as [K|<-]; [left; apply ln_increasing; lra|lra]). rewrite ln_Rinv in H by lra.
      assert (ln 2 <= 2) by (pose proof (exp_ineq1_le (ln 2)) as E; rewrite exp_ln in E by lra; lra). lra.
    - pose proof (exp_ineq1_le (ln (ln rho))) as E. rewrite exp_ln in E by lra. lra. }
  split; [exact Fy|]. rewrite ln_Rinv in Ey by lra. split; [|exact LW].
  eapply Rle_trans; [exact Ey|]. assert (u53 * (2 * Rabs (- ln w) + 1) <= u53 * 241) by (apply Rmult_le_compat_l; lra). lra.
Qed.

(** ** the log posterior *)
(** of the model y = a x + b + N(0,d) with uniform priors on a and b and a Jeffreys prior on d *)
Definition post_R (beta a b d : R) (x y : nat -> R) (n : nat) (wa wb dmin dmax : R) : R :=
  beta * lines_R a b d x y n + (- ln wa - ln wb - ln (d * ln (dmax / dmin))).

Lemma reg_prior_64 : forall (ra rb rd : b64 * b64) (xs : list b64),
  (forall p, In p [ra; rb; rd] -> is_finite (fst p) = true /\ is_finite (snd p) = true) ->
  bp (-40) <= B2R (snd ra) - B2R (fst ra) <= bp 40 -> bp (-40) <= B2R (snd rb) - B2R (fst rb) <= bp 40 ->
  bp (-40) <= B2R (fst rd) -> B2R (snd rd) <= bp 40 -> 2 * B2R (fst rd) <= B2R (snd rd) ->
  let d := nth 2 xs (bof 0) in is_finite d = true -> bp (-40) <= B2R d <= bp 40 ->
  let v := @reg_log_prior (B64 L) ra rb rd xs in
  let r := - ln (B2R (snd ra) - B2R (fst ra)) - ln (B2R (snd rb) - B2R (fst rb)) - ln (B2R d * ln (B2R (snd rd) / B2R (fst rd))) in
  is_finite v = true /\ Rabs (B2R v - r) <= 770 * u53 /\ Rabs r <= 200.
Proof.
  intros ra rb rd xs HF HA HB H1 H2 H3 d Fd Hd. cbv zeta. pose proof u53_pos as U.
  destruct (HF ra ltac:(cbn; auto)) as [Fa1 Fa2]. destruct (HF rb ltac:(cbn; auto)) as [Fb1 Fb2]. destruct (HF rd ltac:(cbn; auto)) as [Fd1 Fd2].
  destruct (unif_64 ra Fa1 Fa2 HA) as [F1 [E1 B1]]. destruct (unif_64 rb Fb1 Fb2 HB) as [F2 [E2 B2]].
  destruct (jeff_64 d rd Fd Fd1 Fd2 Hd H1 H2 H3) as [F3 [E3 B3]]. cbv zeta in E3, B3.
  unfold reg_log_prior. cbn [nlog nadd B64]. change (@xi (B64 L) xs 2) with d.
  set (l1 := l_log L (@prior_unif (B64 L) ra)) in *. set (l2 := l_log L (@prior_unif (B64 L) rb)) in *. set (l3 := l_log L (@prior_jeff (B64 L) d rd)) in *.
  set (A1 := ln (B2R (snd ra) - B2R (fst ra))) in *. set (A2 := ln (B2R (snd rb) - B2R (fst rb))) in *. set (A3 := ln (B2R d * ln (B2R (snd rd) / B2R (fst rd)))) in *.
  apply Rabs_le_inv in E1. apply Rabs_le_inv in E2. apply Rabs_le_inv in E3. apply Rabs_le_inv in B1. apply Rabs_le_inv in B2. apply Rabs_le_inv in B3.
  assert (P8 : 256 <= bp 1000) by (change 256 with (bp 8); apply bpow_le; lia).
  destruct (badd_near l1 l2 82 F1 F2) as [F4 E4]; [lra|apply Rabs_le; lra|]. apply Rabs_le_inv in E4.
  destruct (badd_near (Bplus mode_NE l1 l2) l3 204 F4 F3) as [F5 E5]; [lra|apply Rabs_le; lra|]. apply Rabs_le_inv in E5.
  split; [exact F5|]. split; apply Rabs_le; lra.
Qed.

Lemma reg_64 : forall nd (ra rb rd : b64 * b64) gp smin smax (D : Data (B64 L)) n (xs : list b64) (beta : b64) W,
  (forall p, In p [ra; rb; rd] -> is_finite (fst p) = true /\ is_finite (snd p) = true) ->
  bp (-40) <= B2R (snd ra) - B2R (fst ra) <= bp 40 -> bp (-40) <= B2R (snd rb) - B2R (fst rb) <= bp 40 ->
  bp (-40) <= B2R (fst rd) -> B2R (snd rd) <= bp 40 -> 2 * B2R (fst rd) <= B2R (snd rd) ->
  d_nline D = Z.of_nat n -> INR n <= 2 ^ 20 -> is_finite beta = true -> 0 <= B2R beta <= 1 ->
  let a := nth 0 xs (bof 0) in let b := nth 1 xs (bof 0) in let d := nth 2 xs (bof 0) in
  let x i := nth (Z.to_nat (Z.of_nat i * nd + 0)) (d_arr D) (bof 0) : b64 in let y i := nth (Z.to_nat (Z.of_nat i * nd + 1)) (d_arr D) (bof 0) : b64 in
  is_finite a = true -> is_finite b = true -> is_finite d = true -> bp (-40) <= B2R d <= bp 40 -> 1 <= W <= bp 100 ->
  (forall i, (i < n)%nat -> is_finite (x i) = true /\ is_finite (y i) = true /\ Rabs (B2R (x i) * B2R a) + Rabs (B2R b) + Rabs (B2R (y i)) <= W) ->
  let v := logpost_at (@reg_user (B64 L) nd ra rb rd gp smin smax) D xs beta : b64 in
  is_finite v = true /\
  Rabs (B2R v - post_R (B2R beta) (B2R a) (B2R b) (B2R d) (fun i => B2R (x i)) (fun i => B2R (y i)) n
      (B2R (snd ra) - B2R (fst ra)) (B2R (snd rb) - B2R (fst rb)) (B2R (fst rd)) (B2R (snd rd))) <=
    (INR n + 37) * (INR n + 37) * line_size (B2R d) W * u53 /\
  Rabs (B2R v) <= (2 * INR n + 212) * line_size (B2R d) W.
Proof.
  intros nd ra rb rd gp smin smax D n xs beta W HF HA HB H1 H2 H3 Hn Hn2 Fbt Hbt a b d x y Fa Fb Fd Hd HW HX. cbv zeta.
  destruct (reg_prior_64 ra rb rd xs HF HA HB H1 H2 H3 Fd Hd) as [Fp [Ep Bp]]. cbv zeta in Ep, Bp. fold d in Ep, Bp.
  assert (Hd2 : bp (-100) <= B2R d <= bp 100).
  { assert (bp (-100) <= bp (-40)) by (apply bpow_le; lia). assert (bp 40 <= bp 100) by (apply bpow_le; lia). lra. }
  destruct (sum_reg xs nd (d_arr D) W n Fa Fb Fd Hd2 HW Hn2 HX) as [Fs [Es Bs]]. cbv zeta in Es, Bs. fold a b d in Es, Bs.
  unfold logpost_at, reg_user, post_R. cbn [u_logll u_logprior]. unfold reg_logll. cbn [nmul nadd B64]. rewrite Hn.
  match goal with |- context [ - ln ?p - ln ?q - ln ?z ] => set (pr := - ln p - ln q - ln z) in * end.
  set (pv := @reg_log_prior (B64 L) ra rb rd xs : b64) in *.
  pose proof (bpow_gt_0 radix2 (-100)) as P. destruct (size_ge (B2R d) W ltac:(lra) ltac:(lra)) as [S1 _]. pose proof (size_le (B2R d) W Hd2 HW) as S3.
  set (T := line_size (B2R d) W) in *.
  set (r := lines_R (B2R a) (B2R b) (B2R d) (fun i => B2R (x i)) (fun i => B2R (y i)) n) in *.
  match type of Fs with is_finite ?z = true => set (s := z : b64) in * end.
  pose proof (pos_INR n) as N0. pose proof u53_pos as U. assert (Tu : 0 < u53 * T <= T / 1000) by nra.
  set (N := INR n) in *. change (Rabs (B2R s - r) <= u53 * T * (70 * N + N * N)) in Es. change (Rabs r <= 2 * N * T) in Bs.
  assert (NT : 0 <= N * T) by nra. assert (NN : 0 <= N * N) by nra.
  assert (SM : u53 * T * (70 * N + N * N) <= T / 2).
  { assert (N2 : 70 * N + N * N <= 70 * 2 ^ 20 + 2 ^ 20 * 2 ^ 20) by nra.
    apply Rle_trans with (u53 * T * (70 * 2 ^ 20 + 2 ^ 20 * 2 ^ 20)); [apply Rmult_le_compat_l; lra|].
    replace (u53 * T * (70 * 2 ^ 20 + 2 ^ 20 * 2 ^ 20)) with (T * (u53 * (70 * 2 ^ 20 + 2 ^ 20 * 2 ^ 20))) by ring.
    replace (T / 2) with (T * / 2) by field. apply Rmult_le_compat_l; [lra|]. lra. }
  assert (As : Rabs (B2R s) <= (2 * N + 1) * T).
  { replace (B2R s) with ((B2R s - r) + r) by ring. eapply Rle_trans; [apply Rabs_triang|].
    replace (2 * N * T) with (2 * (N * T)) in Bs by ring. replace ((2 * N + 1) * T) with (2 * (N * T) + T) by ring. lra. }
  assert (BIG : (2 * N + 300) * T <= bp 1000).
  { apply Rle_trans with (bp 22 * bp 500); [|rewrite <- bpow_plus; apply bpow_le; lia].
    apply Rmult_le_compat; [lra|lra| |exact S3]. change (bp 22) with 4194304. lra. }
  assert (Ab : Rabs (B2R s * B2R beta) <= (2 * N + 1) * T).
  { rewrite Rabs_mult, (Rabs_pos_eq (B2R beta)) by lra. pose proof (Rabs_pos (B2R s)). nra. }
  destruct (bmul_near s beta ((2 * N + 1) * T) Fs Fbt) as [Fm Em]; [split; nra|exact Ab|].
  assert (Er : Rabs (B2R s * B2R beta - B2R beta * r) <= u53 * T * (70 * N + N * N)).
  { replace (B2R s * B2R beta - B2R beta * r) with ((B2R s - r) * B2R beta) by ring. rewrite Rabs_mult, (Rabs_pos_eq (B2R beta)) by lra. pose proof (Rabs_pos (B2R s - r)). nra. }
  set (m := Bmult mode_NE s beta) in *. apply Rabs_le_inv in Em. apply Rabs_le_inv in Ab. apply Rabs_le_inv in Er. apply Rabs_le_inv in Ep. apply Rabs_le_inv in Bp.
  assert (uNT : 0 <= u53 * (N * T) <= T / 1000).
  { split; [nra|]. replace (u53 * (N * T)) with ((u53 * N) * T) by ring. replace (T / 1000) with (/ 1000 * T) by field. apply Rmult_le_compat_r; [lra|].
    apply Rle_trans with (u53 * 2 ^ 20); [apply Rmult_le_compat_l; lra|lra]. }
  replace ((2 * N + 1) * T * u53) with (2 * (u53 * (N * T)) + u53 * T) in Em by ring.
  replace ((2 * N + 1) * T) with (2 * (N * T) + T) in * by ring. replace ((2 * N + 300) * T) with (2 * (N * T) + 300 * T) in * by ring.
  destruct (badd_near m pv (2 * (N * T) + 210 * T) Fm Fp) as [Fv Ev]; [split; lra|apply Rabs_le; lra|].
  split; [exact Fv|]. apply Rabs_le_inv in Ev. 
  replace ((2 * (N * T) + 210 * T) * u53) with (2 * (u53 * (N * T)) + 210 * (u53 * T)) in Ev by ring.
  replace (u53 * T * (70 * N + N * N)) with (70 * (u53 * (N * T)) + u53 * (N * N * T)) in * by ring.
  replace ((N + 37) * (N + 37) * T * u53) with (u53 * (N * N * T) + 74 * (u53 * (N * T)) + 1369 * (u53 * T)) by ring.
  assert (u53 <= u53 * T) by nra. replace ((2 * N + 212) * T) with (2 * (N * T) + 212 * T) by ring. split; apply Rabs_le; lra.
Qed.

(** ** the decision *)
Lemma ok_near : LibmSpecial L -> exp_near L -> forall (l l' : b64) p p' t t', is_finite l = true -> is_finite l' = true ->
  Rabs (B2R l - p) <= t -> Rabs (B2R l' - p') <= t' -> forall g,
  t + t' + / 2 ^ 49 < Rabs (unif g - Rmin 1 (exp (p' - p))) ->
  (mh_ok (A := B64 L) l l' g = true <-> unif g < Rmin 1 (exp (p' - p))).
Proof.
  intros HS HE l l' p p' t t' F F' H H' g Hg. destruct (mh_level L HS HE l l' F F') as [H1 H2]. rewrite H2.
  pose proof (min_lip (B2R l' - B2R l) (p' - p)) as ML.
  assert (D : Rabs (B2R l' - B2R l - (p' - p)) <= t + t').
  { replace (B2R l' - B2R l - (p' - p)) with ((B2R l' - p') - (B2R l - p)) by ring. unfold Rminus at 1. eapply Rle_trans; [apply Rabs_triang|]. rewrite Rabs_Ropp. lra. }
  assert (ML2 := Rle_trans _ _ _ ML D). apply Rabs_le_inv in ML2. apply Rabs_le_inv in H1.
  unfold Rabs in Hg. destruct (Rcase_abs _); split; intros; lra.
Qed.
Lemma swap_near : exp_near L -> forall (a b c d : b64) B pa pb pc pd t, is_finite a = true -> is_finite b = true -> is_finite c = true -> is_finite d = true ->
  1 <= B <= bpow radix2 990 -> Rabs (B2R a) <= B -> Rabs (B2R b) <= B -> Rabs (B2R c) <= B -> Rabs (B2R d) <= B ->
  Rabs (B2R a + B2R b - B2R c - B2R d - (pa + pb - pc - pd)) <= t -> forall g,
  t + 10 * B * u53 + / 2 ^ 50 < Rabs (unif g - Rmin 1 (exp (pa + pb - pc - pd))) ->
  (swap_ok (A := B64 L) (@nsub (B64 L) (@nsub (B64 L) (@nadd (B64 L) a b) c) d) g = true <-> unif g < Rmin 1 (exp (pa + pb - pc - pd))).
Proof.
  intros HE a b c d B pa pb pc pd t Fa Fb Fc Fd HB Ha Hb Hc Hd Ht g Hg.
  destruct (sum_64 a b c d B Fa Fb Fc Fd HB Ha Hb Hc Hd) as [F E]. cbn [nsub nadd B64]. cbv zeta in *.
  set (s := Bminus mode_NE (Bminus mode_NE (Bplus mode_NE a b) c) d) in *. set (e := pa + pb - pc - pd) in *.
  destruct (bof_ok 0 ltac:(cbn; lia)) as [Z0 F0].
  set (T := if Rlt_bool 0 (B2R s) then 1 else B2R (l_exp L s)).
  assert (TH : Rabs (T - Rmin 1 (exp (B2R s))) <= / 2 ^ 50 /\ forall g, swap_ok (A := B64 L) s g = true <-> unif g < T).
  { unfold T, swap_ok. cbn [nltb nof nexp B64]. rewrite (Bltb_correct _ _ _ _ F0 F), Z0.
    destruct (Rlt_bool_spec 0 (B2R s)) as [K|K].
    - split.
      + assert (1 < exp (B2R s)) by (rewrite <- exp_0; apply exp_increasing; lra). rewrite Rmin_left, Rminus_diag_eq, Rabs_R0 by lra.
        left. apply Rinv_0_lt_compat, pow_lt; lra.
      + intros g'. pose proof (unit_range_lt g') as R1. fold (unif g') in R1. split; auto. lra.
    - destruct (HE s F K) as [Fe Ee]. split.
      + rewrite Rmin_right by (apply exp_le_1; auto). exact Ee.
      + intros g'. apply draw_64. exact Fe. }
  destruct TH as [HT HD]. rewrite HD. pose proof (min_lip (B2R s) e) as ML.
  assert (D : Rabs (B2R s - e) <= t + 10 * B * u53).
  { replace (B2R s - e) with ((B2R s - (B2R a + B2R b - B2R c - B2R d)) + (B2R a + B2R b - B2R c - B2R d - e)) by ring. eapply Rle_trans; [apply Rabs_triang|]. lra. }
  assert (ML2 := Rle_trans _ _ _ ML D). apply Rabs_le_inv in ML2. apply Rabs_le_inv in HT.
  unfold Rabs in Hg. destruct (Rcase_abs _); split; intros; lra.
Qed.
End Reg.

(** ** walks *)
(** The walk of the code with the decision of exact arithmetic: [post] is a function of the parameter vector,
    and of the doubles only the vectors occur.  Between vectors that are [good] the proposal is taken exactly
    when the uniform number is below min(1, exp(post x' - post x)), unless it is nearer to that number than
    [tol x + tol x' + 2^-49]. *)
Inductive metro_real {L : Libm} (post tol : list b64 -> R) (good : list b64 -> Prop) (U : User (B64 L)) (np : Z) (sigma : list b64)
  : Z -> crow (B64 L) -> list (crow (B64 L)) -> list bool -> Z -> Prop :=
| metro_real_nil : forall g p, metro_real post tol good U np sigma g p [] [] g
| metro_real_cons : forall g (p : crow (B64 L)) new0 g1 (q : crow (B64 L)) rows bs (b : bool) g2 g',
    do_gaussian_propose (A := B64 L) np (r_parm p) sigma g = OK (new0, bof 1, g1) ->
    let x := r_parm p in let x' := u_bound U new0 in
    (good x -> good x' -> let m := Rmin 1 (exp (post x' - post x)) in
      tol x + tol x' + / 2 ^ 49 < Rabs (unif g1 - m) -> (b = true <-> unif g1 < m)) ->
    g2 = g1 \/ g2 = lcg g1 ->
    r_parm q = (if b then x' else x) ->
    r_it q = (r_it p + 1)%Z ->
    r_acc q = (r_acc p + (if b then 1 else 0))%Z ->
    metro_real post tol good U np sigma g2 q rows bs g' ->
    metro_real post tol good U np sigma g p (q :: rows) (b :: bs) g'.

Lemma walk_real : forall L (post tol : list b64 -> R) (good : list b64 -> Prop) (U : User (B64 L)) D np sigma (beta : b64), LibmSpecial L -> exp_near L ->
  (forall x, good x -> is_finite (logpost_at U D x beta : b64) = true /\ Rabs (B2R (logpost_at U D x beta : b64) - post x) <= tol x) ->
  forall g p rows bs g', mhwalk U D np sigma beta g p rows bs g' -> r_lp p = logpost_at U D (r_parm p) beta ->
  metro_real post tol good U np sigma g p rows bs g'.
Proof.
  intros L post tol good U D np sigma beta HS HE HG.
  induction 1 as [|g p new0 g1 g2 q rows bs g' H Hok Hg H1 H2 H3 H4 Hw IH|g p new0 g1 q rows bs g' H Hok H1 H2 H3 H4 Hw IH]; intros HR.
  - constructor.
  - apply metro_real_cons with (new0 := new0) (g1 := g1) (g2 := g2); auto.
    + intros G G'. cbv zeta. intros Hm. destruct (HG _ G) as [F E]. destruct (HG _ G') as [F' E'].
      rewrite <- (ok_near L HS HE _ _ _ _ _ _ F F' E E' g1 Hm). rewrite HR in Hok. split; auto.
    + rewrite Hg. destruct (mh_better (A := B64 L) _ _); auto.
    + apply IH. rewrite H1, H2. reflexivity.
  - apply metro_real_cons with (new0 := new0) (g1 := g1) (g2 := snd (drand48 (A := B64 L) g1)); auto.
    + intros G G'. cbv zeta. intros Hm. destruct (HG _ G) as [F E]. destruct (HG _ G') as [F' E'].
      rewrite <- (ok_near L HS HE _ _ _ _ _ _ F F' E E' g1 Hm). rewrite HR in Hok. rewrite Hok. split; auto.
    + rewrite H4. lia.
    + apply IH. rewrite H1, H2. exact HR.
Qed.
