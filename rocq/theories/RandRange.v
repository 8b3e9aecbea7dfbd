(** Ranges of the random draws, in binary64 and over the reals. *)
From Coq Require Import ZArith Bool Reals Lia Lra Psatz.
From Flocq Require Import Core IEEE754.BinarySingleNaN.
From Verif Require Import Base Arith B64 Rand B64Facts Mh Prog SeqTotal.
Open Scope R_scope.

Section B.
Variable L : Libm.

Lemma IZR_RMOD : / IZR RMOD = bpow radix2 (-48).
Proof. reflexivity. Qed.

(** u * m rounded stays strictly below m *)
Lemma scaled_lt : forall g m, (0 < m <= 2 ^ 53)%Z ->
  0 <= rnd (IZR (lcg g) / IZR RMOD * IZR m) < IZR m.
Proof.
  intros g m Hm. pose proof (unit_range g) as [U1 U2]. rewrite IZR_RMOD in U2.
  pose proof (lcg_range g) as Hg.
  set (u := IZR (lcg g) / IZR RMOD) in *. 
  assert (M1 : 1 <= IZR m) by (apply IZR_le; lia).
  assert (H0 : 0 <= u * IZR m) by (apply Rmult_le_pos; lra).
  split.
  - rewrite <- rnd_0. apply rnd_le; auto.
  - destruct (Z.eq_dec (lcg g) 0).
    + assert (u = 0) by (unfold u; rewrite e; unfold Rdiv; ring). rewrite H, Rmult_0_l, rnd_0. lra.
    + assert (Hu : bpow radix2 (-48) <= u).
      { unfold u, Rdiv. rewrite IZR_RMOD. rewrite <- (Rmult_1_l (bpow radix2 (-48))) at 1.
        apply Rmult_le_compat_r. apply bpow_ge_0. apply IZR_le; lia. }
      pose proof (bpow_gt_0 radix2 (-48)) as B48. pose proof (bpow_gt_0 radix2 (-53)) as B53.
      assert (B : bpow radix2 (-53) < bpow radix2 (-48)) by (apply bpow_lt; lia).
      destruct (rnd_rel (u * IZR m)) as [_ R].
      { apply Rle_trans with (bpow radix2 (-48)). apply bpow_le; lia.
        rewrite <- (Rmult_1_r (bpow radix2 (-48))). apply Rmult_le_compat; lra. }
      eapply Rle_lt_trans; [exact R|].
      apply Rle_lt_trans with ((1 - bpow radix2 (-48)) * IZR m * (1 + bpow radix2 (-53))).
      * apply Rmult_le_compat_r; [lra|]. apply Rmult_le_compat_r; lra.
      * replace ((1 - bpow radix2 (-48)) * IZR m * (1 + bpow radix2 (-53)))
          with (IZR m * ((1 - bpow radix2 (-48)) * (1 + bpow radix2 (-53)))) by ring.
        rewrite <- (Rmult_1_r (IZR m)) at 2. apply Rmult_lt_compat_l; [lra|]. nra.
Qed.

Lemma scaled_ok : forall g m, (0 <= m <= 2 ^ 53)%Z ->
  let p := Bmult mode_NE (fst (drand48 (A := B64 L) g)) (bof m) in
  is_finite p = true /\ B2R p = rnd (IZR (lcg g) / IZR RMOD * IZR m) /\ 0 <= B2R p <= IZR m /\
  ((0 < m)%Z -> B2R p < IZR m).
Proof.
  intros g m Hm p. destruct (drand48_b64 L g) as [V1 F1].
  destruct (bof_ok m) as [V2 F2]; [rewrite Z.abs_eq; lia|].
  assert (H : 0 <= rnd (IZR (lcg g) / IZR RMOD * IZR m) <= IZR m /\ ((0 < m)%Z -> rnd (IZR (lcg g) / IZR RMOD * IZR m) < IZR m)).
  { destruct (Z.eq_dec m 0).
    - subst. rewrite Rmult_0_r, rnd_0. split; [lra|lia].
    - pose proof (scaled_lt g m ltac:(lia)). split; [lra|intros _; lra]. }
  destruct (bmult_ok (fst (drand48 (A := B64 L) g)) (bof m)) as [V F]; auto.
  - rewrite V1, V2. apply Rabs_lt. 
    assert (IZR m < bpow radix2 emax).
    { rewrite bpow_emax. apply IZR_lt. apply Z.le_lt_trans with (2 ^ 53)%Z; [lia|]. reflexivity. }
    pose proof (bpow_gt_0 radix2 emax). lra.
  - unfold p. rewrite V1, V2 in V. rewrite V. repeat split; auto; apply H; auto.
Qed.

Lemma btrunc_int : forall (x : b64) z, is_finite x = true -> B2R x = IZR z -> btrunc x = Some z.
Proof.
  intros x z F V. pose proof (Btrunc_correct prec emax _ x) as T.
  rewrite V in T.
  assert (Btrunc x = z).
  { apply eq_IZR. rewrite T. apply round_generic. apply valid_rnd_ZR.
    apply generic_format_FIX. exists (Float radix2 z 0); auto. unfold F2R; simpl; ring. }
  destruct x; simpl in F; try discriminate; simpl.
  - simpl in V. apply eq_IZR in V. subst; auto.
  - f_equal. exact H.
Qed.

Lemma fix_round : forall rn, Valid_rnd rn -> forall x, round radix2 (FIX_exp 0) rn x = IZR (rn x).
Proof.
  intros. unfold round, scaled_mantissa, cexp, FIX_exp, F2R. simpl. rewrite !Rmult_1_r. auto.
Qed.

Lemma bint_ok : forall m (x : b64), is_finite x = true ->
  is_finite (bint m x) = true /\ B2R (bint m x) = IZR (round_mode m (B2R x)).
Proof.
  intros m x F. destruct (Bnearbyint_correct prec emax _ m x) as [V [F' _]]. fold (bint m x) in *.
  split; [rewrite F'; auto|]. rewrite V. apply fix_round. apply valid_rnd_round_mode.
Qed.

Theorem i4_unif_0a_b64 : forall a g, (0 < a <= INT_MAX)%Z ->
  exists v, i4_unif_0a (A := B64 L) a g = OK (v, lcg g) /\ (0 <= v < a)%Z.
Proof.
  intros a g Ha. unfold INT_MAX in Ha.
  destruct (scaled_ok g a) as [F [V [R RS]]]; [lia|]. specialize (RS ltac:(lia)).
  destruct (bint_ok mode_DN _ F) as [F2 V2].
  set (p := Bmult mode_NE (fst (drand48 (A := B64 L) g)) (bof a)) in *.
  exists (round_mode mode_DN (B2R p)).
  assert (RG : (0 <= round_mode mode_DN (B2R p) < a)%Z).
  { simpl. split.
    - apply Zfloor_lub. apply R.
    - apply lt_IZR. eapply Rle_lt_trans; [apply Zfloor_lb|]. auto. }
  split; auto.
  unfold i4_unif_0a. rewrite (surjective_pairing (drand48 (A := B64 L) g)).
  unfold n2i. cbn [ntrunc nfloor nmul nof B64]. fold p.
  rewrite (btrunc_int _ _ F2 V2). cbn [rbind].
  replace ((INT_MIN <=? _)%Z && _) with true; [reflexivity|].
  symmetry. apply andb_true_iff. unfold INT_MIN, INT_MAX. split; apply Z.leb_le; lia.
Qed.

Lemma i4_unif_ab_val : forall R g, (0 <= R)%Z -> (2 * R <= INT_MAX)%Z ->
  i4_unif_ab (A := B64 L) (- R) R g
    = OK ((Znearest (Z.leb 0) (rnd (IZR (lcg g) / IZR RMOD * IZR (2 * R))) - R)%Z, lcg g) /\
  (0 <= Znearest (Z.leb 0) (rnd (IZR (lcg g) / IZR RMOD * IZR (2 * R))) <= 2 * R)%Z.
Proof.
  intros R g H0 H2. unfold INT_MAX in H2.
  destruct (scaled_ok g (2 * R)) as [F [V [RR _]]]; [lia|].
  set (p := Bmult mode_NE (fst (drand48 (A := B64 L) g)) (bof (2 * R))) in *.
  destruct (bint_ok mode_NA p F) as [F2 V2].
  set (k := round_mode mode_NA (B2R p)) in *.
  assert (Hk : (0 <= k <= 2 * R)%Z).
  { unfold k. cbn [round_mode]. split.
    - rewrite <- (Znearest_imp (Z.leb 0) 0 0) at 1. 2:{ rewrite Rminus_0_r, Rabs_R0. lra. }
      apply Zrnd_le. apply valid_rnd_N. lra.
    - rewrite <- (Zrnd_IZR (Znearest (Z.leb 0)) (2 * R)). apply Zrnd_le. apply valid_rnd_N. lra. }
  destruct (bof_ok (- R)) as [V3 F3]; [lia|].
  assert (E : B2R (bint mode_NA p) + B2R (bof (- R)) = IZR (k - R)).
  { rewrite V2, V3, minus_IZR, opp_IZR. ring. }
  assert (Fk : fmt (IZR (k - R))) by (apply fmt_IZR; lia).
  destruct (bplus_ok (bint mode_NA p) (bof (- R))) as [V4 F4]; auto.
  { rewrite E, rnd_id by auto. rewrite <- abs_IZR, bpow_emax. apply IZR_lt.
    apply Z.le_lt_trans with (2 ^ 53)%Z; [lia|reflexivity]. }
  rewrite E, rnd_id in V4 by auto.
  rewrite <- V. change (Znearest (Z.leb 0) (B2R p)) with k. split; [|exact Hk].
  unfold i4_unif_ab. rewrite (surjective_pairing (drand48 (A := B64 L) g)).
  replace (R - - R)%Z with (2 * R)%Z by lia.
  unfold i32. replace ((INT_MIN <=? 2 * R)%Z && (2 * R <=? INT_MAX)%Z) with true.
  2:{ symmetry. apply andb_true_iff. unfold INT_MIN, INT_MAX. split; apply Z.leb_le; lia. }
  cbn [rbind]. unfold n2i. cbn [ntrunc nround nmul nadd nof B64]. fold p.
  rewrite (btrunc_int _ _ F4 V4).
  replace ((INT_MIN <=? _)%Z && _) with true; [reflexivity|].
  symmetry. apply andb_true_iff. unfold INT_MIN, INT_MAX. split; apply Z.leb_le; lia.
Qed.


Theorem i4_unif_ab_b64 : forall R g, (0 <= R)%Z -> (2 * R <= INT_MAX)%Z ->
  exists v, i4_unif_ab (A := B64 L) (- R) R g = OK (v, lcg g) /\ (- R <= v <= R)%Z.
Proof.
  intros R g H0 H2. destruct (i4_unif_ab_val R g H0 H2) as [E H]. eexists. split; [exact E|lia].
Qed.

(** both ends of the range are reached *)
Theorem i4_unif_ab_low : forall R g, (0 <= R)%Z -> (2 * R <= INT_MAX)%Z -> lcg g = 0%Z ->
  i4_unif_ab (A := B64 L) (- R) R g = OK ((- R)%Z, 0%Z).
Proof.
  intros R g H0 H2 Hg. destruct (i4_unif_ab_val R g H0 H2) as [E _]. rewrite E, Hg.
  unfold Rdiv. rewrite !Rmult_0_l, rnd_0. rewrite (Znearest_imp (Z.leb 0) 0 0) by (rewrite Rminus_0_r, Rabs_R0; lra).
  reflexivity.
Qed.

Theorem i4_unif_ab_high : forall R g, (0 <= R)%Z -> (2 * R <= INT_MAX)%Z -> lcg g = (RMOD - 1)%Z ->
  i4_unif_ab (A := B64 L) (- R) R g = OK (R, (RMOD - 1)%Z).
Proof.
  intros R g H0 H2 Hg. destruct (i4_unif_ab_val R g H0 H2) as [E _]. rewrite E, Hg.
  rewrite (Znearest_imp (Z.leb 0) _ (2 * R)).
  { do 2 f_equal. lia. }
  set (m := IZR (2 * R)). assert (M0 : 0 <= m) by (apply IZR_le; lia).
  assert (M1 : m <= bpow radix2 31). { change (bpow radix2 31) with (IZR (2 ^ 31)). apply IZR_le. unfold INT_MAX in H2. lia. }
  assert (U : IZR (RMOD - 1) / IZR RMOD = 1 - bpow radix2 (-48)).
  { rewrite <- IZR_RMOD, minus_IZR. field. apply IZR_neq. unfold RMOD. lia. }
  rewrite U. clear U.
  destruct (Req_dec m 0) as [->|Hm].
  { rewrite Rmult_0_r, rnd_0, Rminus_0_r, Rabs_R0. lra. }
  assert (1 <= m). { apply IZR_le. assert (R <> 0)%Z by (intros ->; apply Hm; reflexivity). lia. }
  assert (B1 : bpow radix2 (-48) = / 281474976710656) by reflexivity.
  assert (B2 : bpow radix2 (-53) = / 9007199254740992) by reflexivity.
  assert (B3 : bpow radix2 31 = 2147483648) by reflexivity.
  destruct (rnd_rel ((1 - bpow radix2 (-48)) * m)) as [R1 R2].
  { apply Rle_trans with (bpow radix2 (-1)); [apply bpow_le; lia|]. change (bpow radix2 (-1)) with (/ 2). rewrite B1. lra. }
  set (p := rnd _) in *. apply Rabs_lt. rewrite B1, B2 in *. rewrite B3 in M1. lra.
Qed.

Theorem RandOK_b64 : RandOK (B64 L).
Proof. split; [apply i4_unif_0a_b64 | apply i4_unif_ab_b64]. Qed.

(** ** Uniform reals *)
Lemma fmt_small : forall x y : b64, Rabs (B2R y - B2R x) < bpow radix2 (-1021) -> fmt (B2R y - B2R x).
Proof.
  intros x y H.
  assert (Q : forall z : b64, exists m, B2R z = IZR m * bpow radix2 (-1074)).
  { intros z. destruct (FLT_format_generic radix2 emin prec (B2R z) (fmt_B2R z)) as [[m e] Hv _ He].
    simpl in He. exists (m * 2 ^ (e + 1074))%Z. rewrite Hv. unfold F2R. cbn [Fnum Fexp].
    rewrite mult_IZR. change (2 ^ (e + 1074))%Z with (Zpower radix2 (e + 1074)).
    rewrite (IZR_Zpower radix2) by (unfold prec, emax in He; lia).
    rewrite Rmult_assoc, <- bpow_plus. f_equal. f_equal. lia. }
  destruct (Q x) as [m1 E1], (Q y) as [m2 E2]. rewrite E1, E2 in *.
  rewrite <- Rmult_minus_distr_r, <- minus_IZR in *. apply fmt_scaled; [|lia].
  rewrite Rabs_mult, <- abs_IZR in H. rewrite (Rabs_pos_eq (bpow _ _)) in H by apply bpow_ge_0.
  apply lt_IZR. apply Rmult_lt_reg_r with (bpow radix2 (-1074)). apply bpow_gt_0.
  eapply Rlt_le_trans; [exact H|]. change (IZR (2 ^ 53)) with (bpow radix2 53). rewrite <- bpow_plus.
  apply bpow_le. lia.
Qed.

Theorem r8_unif_ab_b64 : forall (lo hi : b64) g,
  is_finite lo = true -> is_finite hi = true -> B2R lo <= B2R hi ->
  is_finite (Bminus mode_NE hi lo) = true ->
  let x := fst (r8_unif_ab (A := B64 L) lo hi g) in
  is_finite x = true /\ B2R lo <= B2R x <= B2R hi.
Proof.
  intros lo hi g Fl Fh Hlh Fd x.
  pose proof (bminus_finite hi lo Fh Fl Fd) as Vd.
  destruct (drand48_b64 L g) as [Vu Fu].
  pose proof (unit_range g) as [U1 U2]. rewrite IZR_RMOD in U2.
  set (u := IZR (lcg g) / IZR RMOD) in *.
  set (bu := fst (drand48 (A := B64 L) g)) in *.
  set (d := Bminus mode_NE hi lo) in *.
  assert (D0 : 0 <= B2R d). { rewrite Vd. rewrite <- rnd_0. apply rnd_le. lra. }
  assert (P0 : 0 <= u * B2R d) by (apply Rmult_le_pos; lra).
  pose proof (bpow_gt_0 radix2 (-48)) as B48. pose proof (bpow_gt_0 radix2 (-53)) as B53.
  assert (Bl : bpow radix2 (-53) < bpow radix2 (-49)) by (apply bpow_lt; lia).
  assert (Bl2 : 2 * bpow radix2 (-49) = bpow radix2 (-48)).
  { change 2 with (bpow radix2 1). rewrite <- bpow_plus. reflexivity. }
  assert (Bs : bpow radix2 (-53) < 1). { change 1 with (bpow radix2 0). apply bpow_lt. lia. }
  assert (PU : rnd (u * B2R d) <= B2R d).
  { apply rnd_le_fmt. apply fmt_B2R. rewrite <- (Rmult_1_l (B2R d)) at 2. apply Rmult_le_compat_r; lra. }
  assert (PL : 0 <= rnd (u * B2R d)). { rewrite <- rnd_0. apply rnd_le; auto. }
  assert (PH : rnd (u * B2R d) <= B2R hi - B2R lo).
  { destruct (Rlt_or_le (B2R hi - B2R lo) (bpow radix2 (-1021))) as [S|S].
    - assert (Vd' : B2R d = B2R hi - B2R lo).
      { rewrite Vd. apply rnd_id. apply fmt_small. rewrite Rabs_pos_eq; lra. }
      lra.
    - assert (S' : bpow radix2 (-1022) <= B2R hi - B2R lo).
      { eapply Rle_trans; [|exact S]. apply bpow_le; lia. }
      destruct (Rlt_or_le (u * B2R d) (bpow radix2 (-1022))) as [T|T].
      + apply Rle_trans with (bpow radix2 (-1022)); auto.
        apply rnd_le_fmt; [|lra]. 
        rewrite <- (Rmult_1_l (bpow radix2 (-1022))). apply (fmt_scaled 1); lia.
      + destruct (rnd_rel _ T) as [_ R1]. destruct (rnd_rel _ S') as [_ R2]. rewrite <- Vd in R2.
        eapply Rle_trans; [exact R1|].
        set (w := B2R hi - B2R lo) in *. set (e := bpow radix2 (-53)) in *. 
        assert (0 <= w) by (unfold w; lra).
        apply Rle_trans with ((1 - bpow radix2 (-48)) * (w * (1 + e)) * (1 + e)).
        * apply Rmult_le_compat_r; [lra|]. apply Rmult_le_compat; lra.
        * replace ((1 - bpow radix2 (-48)) * (w * (1 + e)) * (1 + e))
            with (w * ((1 - bpow radix2 (-48)) * ((1 + e) * (1 + e)))) by ring.
          rewrite <- (Rmult_1_r w) at 2. apply Rmult_le_compat_l; auto. nra. }
  destruct (bmult_ok bu d) as [Vp Fp]; auto.
  { rewrite Vu. apply (between_finite (bof 0) d).
    destruct (bof_ok 0) as [V0 _]; [lia|]. rewrite V0. lra. }
  rewrite Vu in Vp.
  assert (S1 : B2R lo <= rnd (rnd (u * B2R d) + B2R lo)).
  { apply rnd_ge_fmt; [apply fmt_B2R|lra]. }
  assert (S2 : rnd (rnd (u * B2R d) + B2R lo) <= B2R hi).
  { apply rnd_le_fmt; [apply fmt_B2R|lra]. }
  destruct (bplus_ok (Bmult mode_NE bu d) lo) as [Vs Fs]; auto.
  { rewrite Vp. apply (between_finite lo hi). lra. }
  rewrite Vp in Vs.
  unfold x, r8_unif_ab. rewrite (surjective_pairing (drand48 (A := B64 L) g)).
  cbn [fst nadd nmul nsub B64]. fold bu. fold d. rewrite Vs. auto.
Qed.
End B.

(** ** The same over the reals *)
Lemma drand48_R : forall g, fst (drand48 (A := RArith) g) = IZR (lcg g) / IZR RMOD.
Proof. reflexivity. Qed.

Lemma unit_range_lt : forall g, 0 <= IZR (lcg g) / IZR RMOD < 1.
Proof.
  intros g. pose proof (unit_range g). pose proof RMOD_pos. pose proof (Rinv_0_lt_compat _ H0). lra.
Qed.

Lemma n2i_R : forall z, (INT_MIN <= z <= INT_MAX)%Z -> n2i (A := RArith) (IZR z) = OK z.
Proof.
  intros z H. unfold n2i. cbn [ntrunc RArith]. rewrite Rtrunc_IZR.
  replace ((INT_MIN <=? z)%Z && _) with true; auto.
  symmetry. apply andb_true_iff. split; apply Z.leb_le; lia.
Qed.

Theorem RandOK_R : RandOK RArith.
Proof.
  split.
  - intros a g Ha. pose proof (unit_range_lt g) as U. set (u := IZR (lcg g) / IZR RMOD) in *.
    exists (Rfloor (u * IZR a)).
    assert (0 < IZR a) by (apply IZR_lt; lia).
    assert (B : (0 <= Rfloor (u * IZR a) < a)%Z). { apply Int_part_bounds. nra. }
    split; auto. unfold i4_unif_0a. rewrite (surjective_pairing (drand48 (A := RArith) g)), drand48_R.
    cbn [nfloor nmul nof RArith]. fold u. rewrite n2i_R by (unfold INT_MIN, INT_MAX in *; lia). reflexivity.
  - intros R g H0 H2. pose proof (unit_range_lt g) as U. set (u := IZR (lcg g) / IZR RMOD) in *.
    assert (0 <= IZR (2 * R)) by (apply IZR_le; lia).
    exists (Rround_away (u * IZR (2 * R)) - R)%Z.
    assert (B : (0 <= Rround_away (u * IZR (2 * R)) < 2 * R + 1)%Z).
    { unfold Rround_away. replace (Rltb (u * IZR (2 * R)) 0) with false.
      - apply Int_part_bounds. rewrite plus_IZR. split; [nra|].
        assert (u * IZR (2 * R) <= IZR (2 * R)) by nra. lra.
      - symmetry. apply Rltb_false. nra. }
    split; [|lia]. unfold i4_unif_ab. rewrite (surjective_pairing (drand48 (A := RArith) g)), drand48_R.
    replace (R - - R)%Z with (2 * R)%Z by lia. unfold i32.
    replace ((INT_MIN <=? 2 * R)%Z && (2 * R <=? INT_MAX)%Z) with true.
    2:{ symmetry. apply andb_true_iff. unfold INT_MIN, INT_MAX in *. split; apply Z.leb_le; lia. }
    cbn [rbind nround nmul nadd nof RArith]. fold u. rewrite <- plus_IZR.
    rewrite n2i_R by (unfold INT_MIN, INT_MAX in *; lia). cbn [rbind].
    replace (Rround_away (u * IZR (2 * R)) + - R)%Z with (Rround_away (u * IZR (2 * R)) - R)%Z by lia. reflexivity.
Qed.

(** both ends of the range are reached *)
Theorem i4_unif_ab_low_R : forall R g, (0 <= R)%Z -> (2 * R <= INT_MAX)%Z -> lcg g = 0%Z ->
  i4_unif_ab (A := RArith) (- R) R g = OK ((- R)%Z, 0%Z).
Proof.
  intros R g H0 H2 Hg. unfold i4_unif_ab. rewrite (surjective_pairing (drand48 (A := RArith) g)), drand48_R.
  unfold drand48; cbn [snd]. rewrite Hg. replace (R - - R)%Z with (2 * R)%Z by lia.
  rewrite i32_ok by (unfold INT_MIN, INT_MAX in *; lia). cbn [rbind nround nmul nadd nof RArith].
  unfold Rdiv. rewrite !Rmult_0_l.
  assert (K : Rround_away 0 = 0%Z).
  { unfold Rround_away. replace (Rltb 0 0) with false by (symmetry; apply Rltb_false; lra).
    assert (0 <= Int_part (0 + / 2) < 1)%Z by (apply Int_part_bounds; lra). lia. }
  rewrite K, <- plus_IZR. rewrite n2i_R by (unfold INT_MIN, INT_MAX in *; lia). cbn [rbind]. rewrite Z.add_0_l. reflexivity.
Qed.

Theorem i4_unif_ab_high_R : forall R g, (0 <= R)%Z -> (2 * R <= INT_MAX)%Z -> lcg g = (RMOD - 1)%Z ->
  i4_unif_ab (A := RArith) (- R) R g = OK (R, (RMOD - 1)%Z).
Proof.
  intros R g H0 H2 Hg. unfold i4_unif_ab. rewrite (surjective_pairing (drand48 (A := RArith) g)), drand48_R.
  unfold drand48; cbn [snd]. rewrite Hg. replace (R - - R)%Z with (2 * R)%Z by lia.
  rewrite i32_ok by (unfold INT_MIN, INT_MAX in *; lia). cbn [rbind nround nmul nadd nof RArith].
  assert (M0 : 0 <= IZR (2 * R) <= 2147483647) by (unfold INT_MAX in *; split; apply IZR_le; lia).
  assert (U : IZR (RMOD - 1) / IZR RMOD = 1 - / 281474976710656).
  { rewrite minus_IZR. unfold RMOD. field. }
  rewrite U.
  assert (K : Rround_away ((1 - / 281474976710656) * IZR (2 * R)) = (2 * R)%Z).
  { unfold Rround_away. replace (Rltb _ 0) with false by (symmetry; apply Rltb_false; nra).
    assert (2 * R <= Int_part ((1 - / 281474976710656) * IZR (2 * R) + / 2) < 2 * R + 1)%Z; [|lia].
    apply Int_part_bounds. rewrite plus_IZR. split; lra. }
  rewrite K, <- plus_IZR. rewrite n2i_R by (unfold INT_MIN, INT_MAX in *; lia). cbn [rbind]. replace (2 * R + - R)%Z with R by lia. reflexivity.
Qed.

(** ** Log-uniform draws over the reals *)
Theorem r8_logunif_R : forall a b g, 0 < a < b ->
  let x := fst (r8_logunif_ab (A := RArith) a b g) in
  a <= x < b /\ (x = a <-> lcg g = 0%Z).
Proof.
  intros a b g [Ha Hb] x. pose proof (unit_range_lt g) as U.
  unfold x, r8_logunif_ab. rewrite (surjective_pairing (drand48 (A := RArith) g)), drand48_R.
  cbn [fst nmul nexp nlog ndiv RArith]. set (u := IZR (lcg g) / IZR RMOD) in *.
  assert (Lp : 0 < ln (b / a)).
  { rewrite <- ln_1. apply ln_increasing; [lra|]. apply Rmult_lt_reg_r with a; auto.
    unfold Rdiv. rewrite Rmult_assoc, Rinv_l by lra. lra. }
  assert (E1 : exp (ln (b / a)) = b / a). { apply exp_ln. apply Rdiv_lt_0_compat; lra. }
  assert (Hx : exp (u * ln (b / a)) < b / a).
  { rewrite <- E1 at 2. apply exp_increasing. nra. }
  assert (Hy : 1 <= exp (u * ln (b / a))).
  { rewrite <- exp_0. destruct (Req_dec u 0) as [->|N].
    - rewrite Rmult_0_l. lra.
    - left. apply exp_increasing. apply Rmult_lt_0_compat; lra. }
  assert (Eb : a * (b / a) = b) by (field; lra).
  split; [split|].
  - nra.
  - rewrite <- Eb at 2. apply Rmult_lt_compat_l; auto.
  - split; intros H.
    + assert (exp (u * ln (b / a)) = 1). { apply Rmult_eq_reg_l with a; lra. }
      rewrite <- exp_0 in H0. apply exp_inv in H0.
      assert (u = 0). { apply Rmult_integral in H0. destruct H0; lra. }
      unfold u, Rdiv in H1. pose proof RMOD_pos. pose proof (Rinv_0_lt_compat _ H2).
      apply Rmult_integral in H1. destruct H1 as [H1|H1]; [|lra].
      apply eq_IZR in H1. auto.
    + assert (u = 0). { unfold u. rewrite H. unfold Rdiv. ring. } rewrite H0, Rmult_0_l, exp_0. apply Rmult_1_r.
Qed.
