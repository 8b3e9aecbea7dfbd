(** The log-uniform initial values in binary64. *)
From Coq Require Import ZArith Arith List Bool Reals Lia Lra Psatz.
From Flocq Require Import Core Relative IEEE754.BinarySingleNaN.
From Verif Require Import Base Arith B64 Rand B64Facts RandRange UserModels Seeds Boundary Kepler Kepler64 Orb64 Decide64 Reg64.
Import ListNotations.
Open Scope R_scope.

(** exp at arguments from 0 to 610: off by at most 2^-51 of its value, and exp 0 = 1 *)
Definition exp_up (L : Libm) : Prop := forall x : b64, is_finite x = true -> 0 <= B2R x <= 610 ->
  is_finite (l_exp L x) = true /\ Rabs (B2R (l_exp L x) - exp (B2R x)) <= exp (B2R x) / 2 ^ 51 /\
  (B2R x = 0 -> B2R (l_exp L x) = 1).

Lemma ln2_half : 1 / 2 <= ln 2.
Proof.
  apply Rnot_lt_le. intros H. apply exp_increasing in H. rewrite exp_ln in H by lra.
  pose proof exp_le_3 as E. replace 1 with (1 / 2 + 1 / 2) in E at 1 by lra. rewrite exp_plus in E. nra.
Qed.

Lemma exp_neg_le : forall t, 0 <= t -> exp (- t) <= / (1 + t).
Proof.
  intros t H. rewrite exp_Ropp. apply Rinv_le_contravar; [lra|]. destruct H as [H|<-]; [left; apply exp_ineq1; lra|rewrite exp_0; lra].
Qed.

(** the errors together, v = 2^-53 *)
Lemma upper_R : forall v A B q l y e, 0 < v <= / 1000 -> 0 < A -> 0 < B -> q <= B / A * (1 + v) -> 1 / 2 <= ln q -> 0 < q ->
  l <= ln q * (1 + 3 * v) -> 0 <= l -> y <= l * (1 - 32 * v) * (1 + v) -> e <= exp y * (1 + 4 * v) -> A * e < B.
Proof.
  intros v A B q l y e Hv HA HB Hq Hl Pq H1 H0 Hy He.
  assert (Y : y <= ln q - 8 * v).
  { eapply Rle_trans; [exact Hy|]. assert (l * (1 - 32 * v) * (1 + v) <= ln q * ((1 + 3 * v) * ((1 - 32 * v) * (1 + v)))).
    { replace (ln q * ((1 + 3 * v) * ((1 - 32 * v) * (1 + v)))) with (ln q * (1 + 3 * v) * ((1 - 32 * v) * (1 + v))) by ring.
      rewrite (Rmult_assoc l). apply Rmult_le_compat_r; [|exact H1]. apply Rmult_le_pos; lra. }
    assert ((1 + 3 * v) * ((1 - 32 * v) * (1 + v)) <= 1 - 16 * v) by nra. nra. }
  assert (E : exp y <= q * / (1 + 8 * v)).
  { apply Rle_trans with (exp (ln q + - (8 * v))).
    - destruct Y as [Y|Y]; [left; apply exp_increasing; lra|right; f_equal; lra].
    - rewrite exp_plus, exp_ln by exact Pq. apply Rmult_le_compat_l; [lra|]. apply exp_neg_le. lra. }
  assert (I : 0 < / (1 + 8 * v)) by (apply Rinv_0_lt_compat; lra).
  assert (E2 : e <= B / A * ((1 + v) * / (1 + 8 * v) * (1 + 4 * v))).
  { eapply Rle_trans; [exact He|]. rewrite <- !Rmult_assoc. apply Rmult_le_compat_r; [lra|].
    eapply Rle_trans; [exact E|]. apply Rmult_le_compat_r; [lra|exact Hq]. }
  assert (K : (1 + v) * / (1 + 8 * v) * (1 + 4 * v) < 1).
  { apply (Rmult_lt_reg_r (1 + 8 * v)); [lra|]. replace ((1 + v) * / (1 + 8 * v) * (1 + 4 * v) * (1 + 8 * v)) with ((1 + v) * (1 + 4 * v)) by (field; lra). nra. }
  apply Rle_lt_trans with (A * (B / A * ((1 + v) * / (1 + 8 * v) * (1 + 4 * v)))); [apply Rmult_le_compat_l; lra|].
  replace (A * (B / A * ((1 + v) * / (1 + 8 * v) * (1 + 4 * v)))) with (B * ((1 + v) * / (1 + 8 * v) * (1 + 4 * v))) by (field; lra). nra.
Qed.

Lemma lower_R : forall v l u y e, 0 < v <= / 1000 -> 2 / 5 <= l -> 32 * v <= u -> u * l * (1 - v) <= y -> exp y * (1 - 4 * v) <= e -> 1 <= e.
Proof.
  intros v l u y e Hv Hl Hu Hy He.
  assert (Y : 12 * v <= y). { eapply Rle_trans; [|exact Hy]. assert (64 / 5 * v <= u * l) by nra. nra. }
  assert (1 + 12 * v <= exp y). { left. apply Rlt_le_trans with (exp (12 * v)); [apply exp_ineq1; lra|]. destruct Y as [Y|<-]; [left; apply exp_increasing; exact Y|right; reflexivity]. }
  nra.
Qed.

Lemma logunif_64 : forall L, log_near L -> exp_up L -> forall (a b : b64) g, is_finite a = true -> is_finite b = true ->
  0 < B2R a -> 2 * B2R a <= B2R b <= 2 ^ 600 * B2R a ->
  is_finite (fst (r8_logunif_ab (A := B64 L) a b g)) = true /\ B2R a <= B2R (fst (r8_logunif_ab (A := B64 L) a b g)) <= B2R b.
Proof.
  intros L HL HE a b g Fa Fb Pa [H1 H2]. unfold r8_logunif_ab. destruct (drand48_b64 L g) as [Vu Fu].
  pose proof (unit_range g) as [U0 U1]. rewrite IZR_RMOD in U1.
  destruct (drand48 (A := B64 L) g) as [u g'] eqn:ED. cbn [fst] in *.
  change (@nmul (B64 L)) with (fun x y : b64 => Bmult mode_NE x y). change (@ndiv (B64 L)) with (fun x y : b64 => Bdiv mode_NE x y).
  change (@nlog (B64 L)) with (l_log L). change (@nexp (B64 L)) with (l_exp L). cbv beta.
  pose proof u53_pos as V. set (v := u53) in *.
  assert (Q0 : 2 <= B2R b / B2R a <= 2 ^ 600).
  { split; apply (Rmult_le_reg_r (B2R a)); try exact Pa; unfold Rdiv; rewrite Rmult_assoc, Rinv_l, Rmult_1_r by lra; lra. }
  assert (B600 : bp 600 = 2 ^ 600). { rewrite <- IZR_Zpower by lia. change (Zpower radix2 600) with (Z.pow 2 (Z.of_nat 600)). rewrite <- pow_IZR. reflexivity. }
  destruct (bdiv_ok b a Fb ltac:(lra)) as [Vq Fq].
  { apply (rnd_small _ 600); [lia|]. rewrite B600, Rabs_pos_eq; lra. }
  set (q := Bdiv mode_NE b a) in *.
  destruct (rnd_rel2 (B2R b / B2R a)) as [e1 [E1 R1]].
  { apply Rle_trans with (bp 0); [apply bpow_le; lia|change (bp 0) with 1; lra]. }
  rewrite R1 in Vq. fold v in E1. apply Rabs_le_inv in E1.
  assert (Hq2 : 2 <= B2R q). { rewrite Vq, <- R1. apply rnd_ge_fmt; [|lra]. destruct (bof_ok 2 ltac:(lia)) as [<- _]. apply fmt_B2R. }
  assert (Hq3 : B2R q <= B2R b / B2R a * (1 + v)) by (rewrite Vq; apply Rmult_le_compat_l; lra).
  assert (Hln : 1 / 2 <= ln (B2R q)). { eapply Rle_trans; [exact ln2_half|]. destruct Hq2 as [Q|<-]; [left; apply ln_increasing; lra|right; reflexivity]. }
  destruct (HL q Fq ltac:(lra)) as [Fl Nl]. rewrite (Rabs_pos_eq (ln (B2R q))) in Nl by lra. fold v in Nl.
  assert (S100 : / 2 ^ 100 <= v * (1 / 2)). { unfold v. replace (/ 2 ^ 100) with (u53 * / 2 ^ 47) by (rewrite <- Rinv_mult, <- pow_add; reflexivity). apply Rmult_le_compat_l; [left; apply Rinv_0_lt_compat, pow_lt; lra|]. replace (1 / 2) with (/ 2) by lra. apply Rinv_le_contravar; lra. }
  apply Rabs_le_inv in Nl. set (l := l_log L q) in *. set (lnq := ln (B2R q)) in *.
  assert (Hl1 : B2R l <= lnq * (1 + 3 * v)) by nra.
  assert (Hl2 : 2 / 5 <= B2R l) by nra.
  assert (Hlq : lnq <= 601).
  { unfold lnq. apply Rnot_lt_le. intros C. assert (B2R q < B2R q); [|lra].
    apply Rle_lt_trans with (2 ^ 600 * (1 + v)); [eapply Rle_trans; [exact Hq3|]; apply Rmult_le_compat_r; lra|].
    apply Rlt_le_trans with (2 ^ 601); [change (2 ^ 601) with (2 * 2 ^ 600); assert (0 < 2 ^ 600) by (apply pow_lt; lra); nra|].
    apply Rle_trans with (exp (INR 601)); [apply exp_nat|].
    rewrite <- (exp_ln (B2R q)) by lra. apply exp_mono. replace (INR 601) with 601 by (rewrite INR_IZR_INZ; reflexivity). lra. }
  assert (Hl602 : B2R l <= 602).
  { eapply Rle_trans; [exact Hl1|]. apply Rle_trans with (601 * (1 + 3 * v)); [apply Rmult_le_compat_r; lra|lra]. }
  assert (V48 : / IZR RMOD = 32 * v). { unfold v. change (IZR RMOD) with (IZR (2 ^ 48)). change (2 ^ 48)%Z with (Z.pow 2 (Z.of_nat 48)). rewrite <- pow_IZR. change (2 ^ 53) with (2 * (2 * (2 * (2 * (2 * 2 ^ 48))))). field. }
  assert (U1' : B2R u <= 1 - 32 * v) by (rewrite Vu, <- V48; pose proof (unit_range g); lra).
  assert (HM : Rabs (B2R u * B2R l) <= bp 10).
  { rewrite Rabs_pos_eq by (apply Rmult_le_pos; lra). change (bp 10) with 1024. apply Rle_trans with (1 * 602); [apply Rmult_le_compat; lra|lra]. }
  destruct (bmult_ok u l Fu Fl) as [Vy Fy]. { apply (rnd_small _ 10); [lia|exact HM]. }
  set (y := Bmult mode_NE u l) in *.
  assert (W : (B2R u = 0 /\ B2R y = 0) \/ (32 * v <= B2R u /\ B2R u * B2R l * (1 - v) <= B2R y <= B2R u * B2R l * (1 + v))).
  { destruct (Z.eq_dec (lcg g) 0) as [Z|N].
    - left. rewrite Z in Vu. replace (0 / IZR RMOD) with 0 in Vu by (unfold Rdiv; lra). split; [exact Vu|]. rewrite Vy, Vu, Rmult_0_l. apply rnd_0.
    - right. assert (K : 32 * v <= B2R u). { rewrite Vu, <- V48. unfold Rdiv. pose proof (lcg_range g). apply Rle_trans with (1 * / IZR RMOD); [lra|]. apply Rmult_le_compat_r; [lra|]. apply IZR_le; lia. }
      split; [exact K|]. rewrite Vy. destruct (rnd_rel2 (B2R u * B2R l)) as [e2 [E2 R2]].
      + apply Rle_trans with (32 * v * (2 / 5)); [apply Rle_trans with (8 * v); [|lra]|apply Rmult_le_compat; lra]. unfold v. change (2 ^ 53) with (2 * (2 * (2 * 2 ^ 50))). replace (bp (-50)) with (/ 2 ^ 50).
        * right. field.
        * change (-50)%Z with (- (50))%Z. rewrite bpow_opp. f_equal. change (bp 50) with (IZR (2 ^ 50)). change (2 ^ 50)%Z with (Z.pow 2 (Z.of_nat 50)). apply pow_IZR.
      + rewrite R2. fold v in E2. apply Rabs_le_inv in E2. assert (0 <= B2R u * B2R l) by (apply Rmult_le_pos; lra). split; apply Rmult_le_compat_l; lra. }
  assert (Y : 0 <= B2R y <= 610 /\ B2R y <= B2R l * (1 - 32 * v) * (1 + v)).
  { destruct W as [[W1 W2]|[W1 [W2 W3]]].
    - rewrite W2. split; [lra|]. apply Rmult_le_pos; [apply Rmult_le_pos|]; lra.
    - assert (T : B2R y <= B2R l * (1 - 32 * v) * (1 + v)). { eapply Rle_trans; [exact W3|]. apply Rmult_le_compat_r; [lra|]. rewrite Rmult_comm. apply Rmult_le_compat_l; lra. }
      split; [split|exact T].
      + eapply Rle_trans; [|exact W2]. apply Rmult_le_pos; [apply Rmult_le_pos|]; lra.
      + eapply Rle_trans; [exact T|]. assert (X : (1 - 32 * v) * (1 + v) <= 1) by nra. rewrite Rmult_assoc.
        apply Rle_trans with (B2R l * 1); [apply Rmult_le_compat_l; lra|lra]. }
  destruct Y as [Y0 Y1]. destruct (HE y Fy Y0) as [Fe [Ne E0]]. set (e := l_exp L y) in *.
  assert (V51 : / 2 ^ 51 = 4 * v). { unfold v. change (2 ^ 53) with (2 * (2 * 2 ^ 51)). field. }
  unfold Rdiv in Ne. rewrite V51 in Ne. apply Rabs_le_inv in Ne.
  assert (Up : B2R a * B2R e < B2R b).
  { apply (upper_R v (B2R a) (B2R b) (B2R q) (B2R l) (B2R y) (B2R e)); try (fold lnq); lra. }
  assert (Lo : 1 <= B2R e).
  { destruct W as [[W1 W2]|[W1 [W2 W3]]]; [rewrite E0 by exact W2; lra|].
    apply (lower_R v (B2R l) (B2R u) (B2R y) (B2R e)); lra. }
  assert (Lo' : B2R a <= B2R a * B2R e) by (apply Rle_trans with (B2R a * 1); [lra|apply Rmult_le_compat_l; lra]).
  assert (R : B2R a <= rnd (B2R a * B2R e) <= B2R b).
  { split; [apply rnd_ge_fmt; [apply fmt_B2R|exact Lo']|apply rnd_le_fmt; [apply fmt_B2R|lra]]. }
  destruct (bmult_ok a e Fa Fe) as [Vx Fx].
  { rewrite Rabs_pos_eq by lra. apply Rle_lt_trans with (B2R b); [lra|]. pose proof (abs_B2R_lt_emax prec emax b) as K. rewrite Rabs_pos_eq in K by lra. exact K. }
  split; [exact Fx|]. rewrite Vx. exact R.
Qed.

(** ** a very narrow range *)
Lemma fmt_one : forall x, fmt x -> 1 <= x < 2 -> exists m : Z, x = IZR m * bp (-52).
Proof.
  intros x F H. unfold generic_format in F. exists (Ztrunc (scaled_mantissa radix2 (SpecFloat.fexp prec emax) x)).
  rewrite F at 1. unfold F2R. cbn [Fnum Fexp]. f_equal. unfold cexp.
  replace (mag radix2 x : Z) with 1%Z; [reflexivity|]. symmetry. apply mag_unique_pos. change (bp (1 - 1)) with 1. change (bp 1) with 2. lra.
Qed.

Definition n_a : b64 := @B754_finite prec emax false 8444249301319680 (-52) eq_refl.   (* 15/8 *)
Definition n_b : b64 := @B754_finite prec emax false 8444249301319681 (-52) eq_refl.   (* the next double *)
Definition n_c : b64 := @B754_finite prec emax false 8444249301319682 (-52) eq_refl.   (* the one after it *)
Definition n_q : b64 := @B754_finite prec emax false 4503599627370497 (-52) eq_refl.   (* 1 + 2^-52 *)
Definition n_g : Z := 142368275371844.

Lemma narrow_64 : forall L, log_near L ->
  (forall x : b64, is_finite x = true -> 0 <= B2R x <= 610 ->
     is_finite (l_exp L x) = true /\ Rabs (B2R (l_exp L x) - exp (B2R x)) <= 6 / 10 * exp (B2R x) / 2 ^ 52) ->
  fst (r8_logunif_ab (A := B64 L) n_a n_b n_g) = n_c.
Proof.
  intros L HL HE. unfold r8_logunif_ab. destruct (drand48_b64 L n_g) as [Vu Fu].
  destruct (drand48 (A := B64 L) n_g) as [u g'] eqn:ED. cbn [fst] in *.
  change (@nmul (B64 L)) with (fun x y : b64 => Bmult mode_NE x y). change (@ndiv (B64 L)) with (fun x y : b64 => Bdiv mode_NE x y).
  change (@nlog (B64 L)) with (l_log L). change (@nexp (B64 L)) with (l_exp L). cbv beta.
  assert (EQ : Bdiv mode_NE n_b n_a = n_q) by (apply B2SF_inj; vm_compute; reflexivity).
  rewrite EQ.
  set (h := bp (-52)). assert (Hh : 0 < h <= / 1000000).
  { split; [apply bpow_gt_0|]. unfold h. change (-52)%Z with (- (52))%Z. rewrite bpow_opp. change (bp 52) with 4503599627370496. lra. }
  assert (Vq : B2R n_q = 1 + h). { unfold n_q, B2R, F2R. cbn [cond_Zopp Fnum Fexp]. fold h. change 4503599627370497%Z with (4503599627370496 + 1)%Z. rewrite plus_IZR, Rmult_plus_distr_r, Rmult_1_l. f_equal. change (IZR 4503599627370496) with (bp 52). unfold h. rewrite <- bpow_plus. reflexivity. }
  destruct (HL n_q eq_refl ltac:(rewrite Vq; lra)) as [Fl Nl]. set (l := l_log L n_q) in *. rewrite Vq in Nl.
  assert (L1 : ln (1 + h) <= h). { rewrite <- (ln_exp h) at 2. left. apply ln_increasing; [lra|]. apply exp_ineq1. lra. }
  assert (L2 : h * (1 - h) <= ln (1 + h)).
  { assert (P : 0 <= h * (1 - h)) by nra. rewrite <- (ln_exp (h * (1 - h))). assert (E : exp (h * (1 - h)) <= 1 + h).
    { pose proof (exp_neg_le (h * (1 - h)) P) as X. rewrite exp_Ropp in X.
      assert (Y : 1 - h * (1 - h) <= exp (- (h * (1 - h)))). { left. replace (1 - h * (1 - h)) with (1 + - (h * (1 - h))) by ring. apply exp_ineq1. nra. }
      rewrite exp_Ropp in Y. pose proof (exp_pos (h * (1 - h))) as Z. set (E := exp (h * (1 - h))) in *.
      assert (Y2 : (1 - h * (1 - h)) * E <= 1). { apply Rle_trans with (/ E * E); [apply Rmult_le_compat_r; lra|right; apply Rinv_l; lra]. }
      apply (Rmult_le_reg_l (1 - h * (1 - h))); nra. }
    destruct E as [E|E]; [left; apply ln_increasing; [apply exp_pos|exact E]|right; rewrite E; reflexivity]. }
  pose proof u53_pos as V. assert (V100 : / 2 ^ 100 <= h / 100).
  { unfold h. replace (bp (-52)) with (/ 2 ^ 52). 2:{ change (-52)%Z with (- (52))%Z. rewrite bpow_opp. f_equal. change (bp 52) with (IZR (2 ^ 52)). change (2 ^ 52)%Z with (Z.pow 2 (Z.of_nat 52)). apply pow_IZR. }
    change 100%nat with (52 + 48)%nat. rewrite pow_add, Rinv_mult. unfold Rdiv. apply Rmult_le_compat_l; [left; apply Rinv_0_lt_compat, pow_lt; lra|]. apply Rinv_le_contravar; lra. }
  rewrite (Rabs_pos_eq (ln (1 + h))) in Nl by nra. apply Rabs_le_inv in Nl.
  assert (Hl : 98 / 100 * h <= B2R l <= 102 / 100 * h) by (split; nra).
  assert (Hu : 99 / 100 <= B2R u <= 1). { rewrite Vu. change (lcg n_g) with 281474976710655%Z. change RMOD with 281474976710656%Z. lra. }
  assert (HM : 97 / 100 * h <= B2R u * B2R l <= 102 / 100 * h) by (split; nra).
  destruct (bmult_ok u l Fu Fl) as [Vy Fy]. { apply (rnd_small _ 0); [lia|]. change (bp 0) with 1. rewrite Rabs_pos_eq; lra. }
  set (y := Bmult mode_NE u l) in *.
  assert (RR : B2R u * B2R l * (1 - bp (-53)) <= rnd (B2R u * B2R l) <= B2R u * B2R l * (1 + bp (-53))).
  { apply B64Facts.rnd_rel. apply Rle_trans with (97 / 100 * h); [|lra]. apply Rle_trans with (bp (-53)); [apply bpow_le; lia|]. unfold h. change (-53)%Z with (-52 + -1)%Z. rewrite bpow_plus. fold h. change (bp (-1)) with (/ 2). lra. }
  assert (V53 : bp (-53) = h / 2). { change (-53)%Z with (-52 + -1)%Z. rewrite bpow_plus. fold h. change (bp (-1)) with (/ 2). lra. }
  rewrite V53 in RR.
  assert (Hy : 96 / 100 * h <= B2R y <= 103 / 100 * h) by (rewrite Vy; split; nra).
  destruct (HE y Fy ltac:(lra)) as [Fe Ne]. set (e := l_exp L y) in *.
  assert (X1 : 1 + B2R y <= exp (B2R y)) by (left; apply exp_ineq1; lra).
  assert (X2 : exp (B2R y) <= 1 + 104 / 100 * h).
  { pose proof (exp_ineq1 (- B2R y) ltac:(lra)) as X. rewrite exp_Ropp in X. pose proof (exp_pos (B2R y)) as Z. set (E := exp (B2R y)) in *.
    assert (Y2 : (1 - B2R y) * E <= 1). { apply Rle_trans with (/ E * E); [apply Rmult_le_compat_r; lra|right; apply Rinv_l; lra]. }
    apply (Rmult_le_reg_l (1 - B2R y)); [lra|]. eapply Rle_trans; [exact Y2|]. clear - Hy Hh. nra. }
  assert (V52 : / 2 ^ 52 = h). { unfold h. change (-52)%Z with (- (52))%Z. rewrite bpow_opp. f_equal. change (bp 52) with (IZR (2 ^ 52)). change (2 ^ 52)%Z with (Z.pow 2 (Z.of_nat 52)). apply pow_IZR. }
  unfold Rdiv in Ne. rewrite V52 in Ne. apply Rabs_le_inv in Ne.
  assert (He : 1 + 3 / 10 * h <= B2R e <= 1 + 17 / 10 * h) by (split; nra).
  destruct (fmt_one (B2R e) (fmt_B2R e) ltac:(lra)) as [m Em]. fold h in Em.
  assert (Sh : 1 = 4503599627370496 * h). { unfold h. change 4503599627370496 with (bp 52). rewrite <- bpow_plus. reflexivity. }
  assert (M : m = 4503599627370497%Z).
  { assert (4503599627370496 < m < 4503599627370498)%Z; [|lia]. split; apply lt_IZR; apply (Rmult_lt_reg_r h); try lra. }
  assert (EE : e = n_q). { apply B2R_inj; auto.
    - clearbody e. destruct e; try discriminate Fe; [cbn in He; lra|reflexivity].
    - rewrite Em, M, Vq. change 4503599627370497%Z with (4503599627370496 + 1)%Z. rewrite plus_IZR. lra. }
  rewrite EE. apply B2SF_inj. vm_compute. reflexivity.
Qed.
