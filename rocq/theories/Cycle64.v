(** Inputs for which the loop of newton_solver (fit_orbit/user_logll.c:216-222) goes on for ever. *)
From Coq Require Import ZArith Reals List Bool Lia Lra Psatz Machin.
From Flocq Require Import Core IEEE754.BinarySingleNaN.
From Verif Require Import Base Arith B64 B64Facts UserModels Kepler Kepler64 Digits.
Import ListNotations.
Open Scope R_scope.

(** ** binary64: a cycle of two neighbours *)
Lemma PI_18 : 3141592653589793238 / 1000000000000000000 <= PI <= 3141592653589793239 / 1000000000000000000.
Proof.
  destruct (PI_2_3_7_ineq 10) as [L U]. change (S (2 * 10)) with 21%nat in L. change (2 * 10)%nat with 20%nat in U.
  destruct (part_R 21) as [E1 P1]. destruct (part_R 20) as [E2 P2]. rewrite E1 in L. rewrite E2 in U.
  assert (L' : 3141592653589793238 / (4 * 1000000000000000000) <= IZR (fst (part 21)) / IZR (snd (part 21))).
  { rewrite <- mult_IZR. apply frac_le; [reflexivity|exact P1|]. vm_compute. discriminate. }
  assert (U' : IZR (fst (part 20)) / IZR (snd (part 20)) <= 3141592653589793239 / (4 * 1000000000000000000)).
  { rewrite <- mult_IZR. apply frac_le; [exact P2|reflexivity|]. vm_compute. discriminate. }
  lra.
Qed.

(** spacing of the doubles between 2^26 and 2^27 *)
Notation u := (/ 67108864).
Lemma rnd_grid : forall k x, (2 ^ 52 < k < 2 ^ 53)%Z -> Rabs (x - IZR k * u) < u / 2 -> rnd x = IZR k * u.
Proof.
  intros k x Hk H. apply Rabs_lt_inv in H.
  assert (K : 67108864 + u <= IZR k * u <= 134217728 - u).
  { assert (IZR (2 ^ 52 + 1) <= IZR k) by (apply IZR_le; lia). assert (IZR k <= IZR (2 ^ 53 - 1)) by (apply IZR_le; lia).
    change (IZR (2 ^ 52 + 1)) with 4503599627370497 in *. change (IZR (2 ^ 53 - 1)) with 9007199254740991 in *. lra. }
  assert (M : mag radix2 x = 27%Z :> Z).
  { apply mag_unique. change (bpow radix2 (27 - 1)) with 67108864. change (bpow radix2 27) with 134217728. rewrite Rabs_right; lra. }
  unfold round, scaled_mantissa, cexp. rewrite M. change (FLT_exp emin prec 27) with (-26)%Z.
  change (bpow radix2 (- (-26))) with 67108864. unfold F2R. cbn [Fnum Fexp]. change (bpow radix2 (-26)) with u.
  rewrite (Znearest_imp (fun n => negb (Z.even n)) (x * 67108864) k); [auto|].
  apply Rabs_lt. lra.
Qed.
Lemma fmt_grid : forall k, (Z.abs k < 2 ^ 53)%Z -> fmt (IZR k * u).
Proof. intros k H. apply (fmt_scaled k (-26)); lia. Qed.

Lemma sin_small : forall d, 0 <= d <= 4 * u -> d - d * u <= sin d <= d.
Proof.
  intros d H. destruct (Req_dec d 0) as [->|N]; [rewrite sin_0; lra|].
  split; [|left; apply sin_lt_x; lra].
  pose proof (SIN d ltac:(lra) ltac:(pose proof PI_18; lra)) as [S _]. unfold sin_lb, sin_approx, sin_term in S. cbn in S.
  assert (d * d <= 4 * u * (4 * u)) by nra. 
  assert (D3 : d * (d * d) <= d * (4 * u * (4 * u))) by nra.
  assert (D5 : 0 <= d * (d * d) * (d * d)) by (apply Rmult_le_pos; [|nra]; apply Rmult_le_pos; nra).
  assert (D7 : d * (d * d) * (d * d) * (d * d) <= d * (d * d) * (d * d) * (4 * u * (4 * u))) by (apply Rmult_le_compat_l; auto).
  nra.
Qed.
Lemma cos_small : forall d, 0 <= d <= 4 * u -> 99 / 100 <= cos d <= 1.
Proof.
  intros d H. split; [|apply COS_bound]. pose proof (sin_small d H) as S. pose proof (sin2_cos2 d) as SC. unfold Rsqr in SC.
  assert (0 <= cos d) by (apply cos_ge_0; pose proof PI_18; lra). nra.
Qed.

Section Pair.
Variable L : Libm.
Hypothesis TL : trig_near L (IZR (2 ^ 27)) (u / 16).
Variables e M : b64.
Hypothesis Fe : is_finite e = true.
Hypothesis He : B2R e = 1 / 2.
Hypothesis FM : is_finite M = true.
Variable m : Z.
Hypothesis HM : B2R M = IZR m * u.
Hypothesis Hm : (2 ^ 52 + 3 < m < 2 ^ 53 - 3)%Z.

Lemma rnd_tiny : forall x, Rabs x <= 2 * u -> Rabs (rnd x - x) <= u / 1000000.
Proof.
  intros x H. eapply Rle_trans; [apply (rnd_err x (-25)); [lia|change (bp (-25)) with (/ 33554432); lra]|].
  change (bp (-25 - 54)) with (/ IZR (2 ^ 79)). apply Rle_trans with (/ (67108864 * 1000000)); [|right; field].
  apply Rinv_le_contravar; [lra|]. rewrite <- mult_IZR. apply IZR_le. vm_compute. discriminate.
Qed.
Lemma mult_ok2 : forall x y : b64, is_finite x = true -> is_finite y = true -> Rabs (B2R x * B2R y) <= 4 ->
  B2R (Bmult mode_NE x y) = rnd (B2R x * B2R y) /\ is_finite (Bmult mode_NE x y) = true.
Proof. intros x y Fx Fy H. apply bmult_ok; auto. apply (rnd_small _ 2); [lia|]. exact H. Qed.
Lemma minus_ok2 : forall x y : b64, is_finite x = true -> is_finite y = true -> Rabs (B2R x - B2R y) <= 1000000000 ->
  B2R (Bminus mode_NE x y) = rnd (B2R x - B2R y) /\ is_finite (Bminus mode_NE x y) = true.
Proof. intros x y Fx Fy H. apply bminus_ok; auto. apply (rnd_small _ 30); [lia|]. change (bp 30) with 1073741824. lra. Qed.

Lemma pair_step : forall (E : b64) k j i, is_finite E = true -> B2R E = IZR k * u -> (Z.abs (k - m) <= 1)%Z ->
  (k - j - m = i)%Z -> (i = 1 \/ i = -1)%Z -> (j = 0 \/ j = 1)%Z ->
  Rabs (sin (B2R E) / 2 - IZR j * u) <= 42 / 100 * u -> -1 <= cos (B2R E) <= - (99 / 100) ->
  is_finite (@newton_step (B64 L) M e E) = true /\ B2R (@newton_step (B64 L) M e E) = IZR (k - i) * u /\
  Bltb (@nlit (B64 L) 1 8) (Babs (Bminus mode_NE (@newton_step (B64 L) M e E) E)) = true.
Proof.
  intros E k j i FE VE Hk Hi Hi1 Hj Hs Hc.
  assert (KR : 67108864 <= IZR k * u <= 134217728 - 2 * u).
  { assert (IZR (2 ^ 52) <= IZR k) by (apply IZR_le; lia). assert (IZR k <= IZR (2 ^ 53 - 2)) by (apply IZR_le; lia).
    change (IZR (2 ^ 52)) with 4503599627370496 in *. change (IZR (2 ^ 53 - 2)) with 9007199254740990 in *. lra. }
  assert (BE : Rabs (B2R E) <= IZR (2 ^ 27)) by (rewrite VE; change (IZR (2 ^ 27)) with 134217728; rewrite Rabs_right; lra).
  destruct (TL E FE BE) as [[Fs Vs] [Fc Vc]]. apply Rabs_le_inv in Vs, Vc. apply Rabs_le_inv in Hs.
  unfold newton_step. cbn [B64 nsub nmul ndiv nsin ncos nof].
  set (s := l_sin L E) in *. set (c0 := l_cos L E) in *.
  assert (J : 0 <= IZR j <= 1) by (destruct Hj as [W | W]; rewrite W; lra).
  assert (IR : (IZR i = 1 \/ IZR i = -1)) by (destruct Hi1 as [W | W]; rewrite W; [left|right]; lra).
  destruct (mult_ok2 e s Fe Fs) as [Vp Fp]; [rewrite He; apply Rabs_le; lra|]. set (p := Bmult mode_NE e s) in *.
  rewrite He in Vp. assert (Ep := rnd_tiny (1 / 2 * B2R s) ltac:(apply Rabs_le; lra)). rewrite <- Vp in Ep. apply Rabs_le_inv in Ep.
  assert (Pj : - (46 / 100 * u) <= B2R p - IZR j * u <= 46 / 100 * u) by lra.
  destruct (mult_ok2 e c0 Fe Fc) as [Vq Fq]; [rewrite He; apply Rabs_le; lra|].
  assert (Eq := rnd_err (B2R e * B2R c0) 0 ltac:(lia) ltac:(change (bp 0) with 1; rewrite He; apply Rabs_le; lra)).
  rewrite <- Vq in Eq. set (q := Bmult mode_NE e c0) in *. rewrite He in Eq. change (bp (0 - 54)) with (/ 18014398509481984) in Eq. apply Rabs_le_inv in Eq.
  destruct (minus_ok2 E p FE Fp) as [Va Fa]; [rewrite VE; apply Rabs_le; lra|]. set (a := Bminus mode_NE E p) in *.
  rewrite (rnd_grid (k - j)) in Va; [|lia|rewrite VE, minus_IZR; apply Rabs_lt; lra].
  destruct (minus_ok2 a M Fa FM) as [Vb Fb].
  { rewrite Va, HM, <- Rmult_minus_distr_r, <- minus_IZR, Hi. apply Rabs_le. destruct IR as [-> | ->]; lra. }
  set (b := Bminus mode_NE a M) in *. rewrite Va, HM, <- Rmult_minus_distr_r, <- minus_IZR, Hi, rnd_id in Vb by (apply fmt_grid; lia).
  destruct (bof_ok 1 ltac:(lia)) as [V1 F1].
  destruct (minus_ok2 (bof 1) q F1 Fq) as [Vd Fd]; [rewrite V1; apply Rabs_le; lra|].
  assert (Ed := rnd_err (B2R (bof 1) - B2R q) 1 ltac:(lia) ltac:(change (bp 1) with 2; rewrite V1; apply Rabs_le; lra)).
  rewrite <- Vd in Ed. set (d := Bminus mode_NE (bof 1) q) in *. rewrite V1 in Ed. change (bp (1 - 54)) with (/ 9007199254740992) in Ed. apply Rabs_le_inv in Ed.
  assert (D : 149 / 100 <= B2R d <= 151 / 100) by lra.
  assert (I1 : 66 / 100 <= / B2R d <= 68 / 100).
  { split; apply (Rmult_le_reg_r (B2R d)); try lra; rewrite ?Rinv_l by lra; lra. }
  assert (BD : B2R b / B2R d = IZR i * (u * / B2R d)) by (rewrite Vb; unfold Rdiv; ring).
  assert (Er := rnd_tiny (B2R b / B2R d) ltac:(rewrite BD; apply Rabs_le; destruct IR as [-> | ->]; lra)). apply Rabs_le_inv in Er.
  destruct (bdiv_ok b d Fb ltac:(lra)) as [Vr Fr].
  { apply Rabs_lt. assert (2 < bpow radix2 emax) by (change 2 with (bpow radix2 1); apply bpow_lt; unfold emax; lia).
    assert (-1 <= B2R b / B2R d <= 1) by (rewrite BD; destruct IR as [-> | ->]; lra). lra. }
  set (r := Bdiv mode_NE b d) in *. rewrite <- Vr in Er. rewrite BD in Er.
  assert (RI : Rabs (B2R r - IZR i * u) < u / 2) by (apply Rabs_lt; destruct IR as [W | W]; rewrite W in Er |- *; lra). apply Rabs_lt_inv in RI.
  destruct (minus_ok2 E r FE Fr) as [Vz Fz]; [rewrite VE; apply Rabs_le; destruct IR as [W | W]; rewrite W in RI; lra|].
  set (z := Bminus mode_NE E r) in *. rewrite (rnd_grid (k - i)) in Vz; [|lia|rewrite VE, minus_IZR; apply Rabs_lt; lra].
  split; [exact Fz|]. split; [exact Vz|].
  destruct (minus_ok2 z E Fz FE) as [Vw Fw].
  { rewrite Vz, VE, minus_IZR. apply Rabs_le. destruct IR as [-> | ->]; lra. }
  rewrite Vz, VE, <- Rmult_minus_distr_r, <- minus_IZR in Vw. replace (k - i - k)%Z with (- i)%Z in Vw by lia. rewrite rnd_id in Vw by (apply fmt_grid; lia).
  rewrite bltb_tol by auto. rewrite Vw. unfold Rltb. destruct (Rlt_dec _ _) as [C|C]; [auto|]. exfalso. apply C.
  destruct (tol_64 L) as (T1 & _ & _). rewrite Rabs_mult, (Rabs_right u) by lra. rewrite opp_IZR, Rabs_Ropp.
  replace (Rabs (IZR i)) with 1 by (destruct IR as [-> | ->]; unfold Rabs; destruct (Rcase_abs _); lra).
  assert (/ 2 ^ 70 <= / 10000000000) by (apply Rinv_le_contravar; [lra|]; rewrite pow_IZR; apply IZR_le; vm_compute; discriminate). lra.
Qed.

(** an odd multiple of pi one and a half steps above the mean anomaly *)
Variable K : Z.
Hypothesis K0 : (0 <= K)%Z.
Hypothesis HK : 12 / 10 * u <= IZR (2 * K + 1) * PI - B2R M <= 16 / 10 * u.

Lemma trig_odd : forall x d, IZR (2 * K + 1) * PI - x = d -> sin x = sin d /\ cos x = - cos d.
Proof.
  intros x d H. replace x with (PI - d + 2 * INR (Z.to_nat K) * PI) by (rewrite <- H, plus_IZR, mult_IZR, INR_IZR_INZ, Z2Nat.id by auto; ring).
  split.
  - rewrite sin_period. rewrite sin_PI_x. auto.
  - rewrite cos_period. replace (PI - d) with (- (d - PI)) by ring. rewrite cos_neg. rewrite <- (cos_period (d - PI) 1) at 1.
    replace (d - PI + 2 * INR 1 * PI) with (d + PI) by (simpl; ring). apply neg_cos.
Qed.
Lemma pair_for_ever : forall fuel (E : b64), is_finite E = true -> B2R E = IZR m * u \/ B2R E = IZR (m + 1) * u ->
  @newton_loop (B64 L) fuel (nlit 1 8) M e E = None.
Proof.
  induction fuel as [|f IH]; intros E FE V; [reflexivity|].
  assert (S : @newton_loop (B64 L) (S f) (nlit 1 8) M e E =
    if Bltb (@nlit (B64 L) 1 8) (Babs (Bminus mode_NE (@newton_step (B64 L) M e E) E)) then @newton_loop (B64 L) f (nlit 1 8) M e (@newton_step (B64 L) M e E)
    else Some (@newton_step (B64 L) M e E)) by reflexivity.
  rewrite S. clear S. destruct V as [V|V].
  - destruct (trig_odd (B2R E) _ eq_refl) as [Hs Hc]. rewrite V, <- HM in Hs, Hc.
    pose proof (sin_small (IZR (2 * K + 1) * PI - B2R M) ltac:(lra)) as S1. pose proof (cos_small (IZR (2 * K + 1) * PI - B2R M) ltac:(lra)) as C1.
    destruct (pair_step E m 1 (-1) FE V ltac:(lia) ltac:(lia) ltac:(lia) ltac:(lia)) as (F1 & V1 & T1).
    + rewrite V, <- HM, Hs. apply Rabs_le. lra.
    + rewrite V, <- HM, Hc. lra.
    + rewrite T1. apply IH; [auto|]. right. rewrite V1. replace (m - -1)%Z with (m + 1)%Z by lia. reflexivity.
  - assert (V' : B2R E = B2R M + u) by (rewrite V, HM, plus_IZR; ring).
    destruct (trig_odd (B2R E) _ eq_refl) as [Hs Hc]. rewrite V' in Hs, Hc.
    replace (IZR (2 * K + 1) * PI - (B2R M + u)) with (IZR (2 * K + 1) * PI - B2R M - u) in Hs, Hc by ring.
    pose proof (sin_small (IZR (2 * K + 1) * PI - B2R M - u) ltac:(lra)) as S1. pose proof (cos_small (IZR (2 * K + 1) * PI - B2R M - u) ltac:(lra)) as C1.
    destruct (pair_step E (m + 1) 0 1 FE V ltac:(lia) ltac:(lia) ltac:(lia) ltac:(lia)) as (F1 & V1 & T1).
    + rewrite V', Hs. apply Rabs_le. lra.
    + rewrite V', Hc. lra.
    + rewrite T1. apply IH; [auto|]. left. rewrite V1. replace (m + 1 - 1)%Z with m by lia. reflexivity.
Qed.
Lemma solver_for_ever : forall fuel, @newton_solver (B64 L) fuel M e = None.
Proof. intros fuel. apply pair_for_ever; auto. Qed.
End Pair.

(** the mean anomaly 4503612727894997 / 2^26, about 67109059.213 *)
Definition m_cycle : b64 := @B754_finite prec emax false 4503612727894997 (-26) eq_refl.
Definition e_half : b64 := @B754_finite prec emax false 4503599627370496 (-53) eq_refl.
Lemma e_half_R : B2R e_half = 1 / 2.
Proof. unfold e_half, B2R, F2R. cbn [cond_Zopp Fnum Fexp]. change (bpow radix2 (-53)) with (/ 9007199254740992). lra. Qed.
Lemma m_cycle_R : B2R m_cycle = 4503612727894997 * u.
Proof. reflexivity. Qed.
Lemma cycle_64 : forall L, trig_near L (IZR (2 ^ 27)) (u / 16) -> forall fuel, @newton_solver (B64 L) fuel m_cycle e_half = None.
Proof.
  intros L TL fuel. apply (solver_for_ever L TL e_half m_cycle eq_refl e_half_R eq_refl 4503612727894997 m_cycle_R ltac:(lia) 10680738 ltac:(lia)).
  rewrite m_cycle_R. change (2 * 10680738 + 1)%Z with 21361477%Z. pose proof PI_18. lra.
Qed.

(** ** exact reals: a cycle of two points for an eccentricity below 1 *)
Lemma cycle_angle : exists a, 0 < a < PI / 2 /\ sin a = (2 * a + PI / 2) * cos a.
Proof.
  set (f := fun a => (2 * a + PI / 2) * cos a - sin a).
  assert (C : continuity (fun a => - f a)).
  { unfold f. intros x. apply derivable_continuous_pt. reg. }
  pose proof PI_RGT_0 as P.
  destruct (IVT (fun a => - f a) 0 (PI / 2) C ltac:(lra)) as [a [Ha Za]].
  - unfold f. rewrite cos_0, sin_0. lra.
  - unfold f. rewrite cos_PI2, sin_PI2. lra.
  - assert (Z : f a = 0) by lra. unfold f in Z. exists a. split; [|lra].
    assert (a <> 0) by (intros ->; rewrite cos_0, sin_0 in Z; lra). assert (a <> PI / 2) by (intros ->; rewrite cos_PI2, sin_PI2 in Z; lra). lra.
Qed.
Lemma cycle_R : forall a, 0 < a < PI / 2 -> sin a = (2 * a + PI / 2) * cos a ->
  @newton_step RArith (PI / 2 - a) (sin a) (PI / 2 - a) = PI + a /\ @newton_step RArith (PI / 2 - a) (sin a) (PI + a) = PI / 2 - a.
Proof.
  intros a Ha H. pose proof (sin_gt_0 a ltac:(lra) ltac:(pose proof PI_RGT_0; lra)) as S. pose proof (cos_gt_0 a ltac:(lra) ltac:(lra)) as K.
  pose proof (sin2_cos2 a) as SC. unfold Rsqr in SC.
  unfold newton_step. cbn [nsub nmul ndiv nsin ncos nof RArith]. rewrite <- cos_shift with (x := PI / 2 - a), <- sin_shift with (x := PI / 2 - a).
  replace (PI / 2 - (PI / 2 - a)) with a by ring.
  split.
  - assert (D : 1 - sin a * sin a <> 0) by nra.
    change (PI / 2 - a - (PI / 2 - a - sin a * cos a - (PI / 2 - a)) / (1 - sin a * sin a) = PI + a).
    apply (Rmult_eq_reg_r (1 - sin a * sin a)); [|exact D].
    replace ((PI / 2 - a - (PI / 2 - a - sin a * cos a - (PI / 2 - a)) / (1 - sin a * sin a)) * (1 - sin a * sin a))
      with ((PI / 2 - a) * (1 - sin a * sin a) + sin a * cos a) by (field; auto).
    replace (1 - sin a * sin a) with (cos a * cos a) by lra. rewrite H at 1. ring_simplify. field.
  - replace (PI + a) with (a + PI) by ring. rewrite neg_sin, neg_cos.
    change (a + PI - (a + PI - sin a * - sin a - (PI / 2 - a)) / (1 - sin a * - cos a) = PI / 2 - a).
    assert (D : 0 < 1 - sin a * - cos a) by nra.
    apply (Rmult_eq_reg_r (1 - sin a * - cos a)); [|lra].
    replace ((a + PI - (a + PI - sin a * - sin a - (PI / 2 - a)) / (1 - sin a * - cos a)) * (1 - sin a * - cos a))
      with ((a + PI) * (1 - sin a * - cos a) - (2 * a + PI / 2 + sin a * sin a)) by (field; lra).
    assert (E : (2 * a + PI / 2) * (sin a * cos a) = sin a * sin a) by (rewrite H at 2; ring). nra.
Qed.
Lemma cycle_real : exists M e, 0 < e < 1 /\ forall fuel, @newton_solver RArith fuel M e = None.
Proof.
  destruct cycle_angle as [a [Ha H]]. exists (PI / 2 - a), (sin a). split.
  - split; [apply sin_gt_0; pose proof PI_RGT_0; lra|]. pose proof (cos_gt_0 a ltac:(lra) ltac:(lra)). pose proof (sin2_cos2 a) as SC. unfold Rsqr in SC. nra.
  - destruct (cycle_R a Ha H) as [S1 S2].
    assert (G : forall f, @newton_loop RArith f (1 / 100000000) (PI / 2 - a) (sin a) (PI / 2 - a) = None /\ @newton_loop RArith f (1 / 100000000) (PI / 2 - a) (sin a) (PI + a) = None).
    { assert (B : 1 < PI / 2) by (pose proof PI2_3_2; lra).
      induction f as [|f [IH1 IH2]]; [split; reflexivity|]. split; rewrite loop_S; [rewrite S1|rewrite S2]; unfold Rltb; destruct (Rlt_dec _ _) as [W|W]; auto; exfalso; apply W.
      - rewrite Rabs_right; lra.
      - rewrite Rabs_left; lra. }
    intros fuel. unfold newton_solver. rewrite tol_R. apply G.
Qed.
