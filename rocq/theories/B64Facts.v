(** Facts about the binary64 instance: exact values of integers and of drand48, and the
    operations as roundings of the real ones. *)
From Coq Require Import ZArith Bool Reals Lia Lra Psatz.
From Flocq Require Import Core IEEE754.BinarySingleNaN Relative.
From Verif Require Import Base Arith B64 Rand.
Open Scope R_scope.

Notation emin := (3 - emax - prec)%Z.
Notation fexp64 := (FLT_exp emin prec).
Notation rnd := (round radix2 fexp64 ZnearestE).
Notation fmt := (generic_format radix2 fexp64).

Global Instance valid64 : Valid_exp fexp64.
Proof. apply (FLT_exp_valid emin prec). Qed.

Lemma rnd_le : forall x y, x <= y -> rnd x <= rnd y.
Proof. intros. apply round_le; auto. apply valid64. apply valid_rnd_N. Qed.
Lemma rnd_id : forall x, fmt x -> rnd x = x.
Proof. intros. apply round_generic; auto. apply valid_rnd_N. Qed.
Lemma rnd_0 : rnd 0 = 0.
Proof. apply round_0. apply valid_rnd_N. Qed.
Lemma rnd_le_fmt : forall x y, fmt y -> x <= y -> rnd x <= y.
Proof. intros x y F H. rewrite <- (rnd_id y F). apply rnd_le; auto. Qed.
Lemma rnd_ge_fmt : forall x y, fmt y -> y <= x -> y <= rnd x.
Proof. intros x y F H. rewrite <- (rnd_id y F). apply rnd_le; auto. Qed.

Lemma fmt_B2R : forall x : b64, fmt (B2R x).
Proof. intros. apply (generic_format_B2R prec emax). Qed.

(** an integer multiple of a power of two, with few enough bits, is representable *)
Lemma fmt_scaled : forall m e, (Z.abs m < 2 ^ 53)%Z -> (-1074 <= e)%Z -> fmt (IZR m * bpow radix2 e).
Proof.
  intros m e Hm He. apply generic_format_FLT.
  exists (Float radix2 m e); simpl; auto.
Qed.

Lemma fmt_IZR : forall m, (Z.abs m <= 2 ^ 53)%Z -> fmt (IZR m).
Proof.
  intros m Hm. destruct (Z.eq_dec (Z.abs m) (2 ^ 53)).
  - assert (IZR m = IZR (Z.sgn m) * bpow radix2 53).
    { change (bpow radix2 53) with (IZR (2 ^ 53)). rewrite <- mult_IZR. f_equal. lia. }
    rewrite H. apply fmt_scaled; lia.
  - replace (IZR m) with (IZR m * bpow radix2 0) by (simpl; ring). apply fmt_scaled; lia.
Qed.

Lemma bpow_emax : bpow radix2 emax = IZR (2 ^ 1024).
Proof. reflexivity. Qed.
Lemma small_lt_emax : forall x, Rabs x <= IZR (2 ^ 54) -> Rlt_bool (Rabs x) (bpow radix2 emax) = true.
Proof.
  intros. apply Rlt_bool_true. eapply Rle_lt_trans; eauto.
  change (IZR (2 ^ 54)) with (bpow radix2 54). apply bpow_lt. reflexivity.
Qed.

Lemma bof_ok : forall z, (Z.abs z <= 2 ^ 53)%Z -> B2R (bof z) = IZR z /\ is_finite (bof z) = true.
Proof.
  intros z Hz. unfold bof.
  pose proof (binary_normalize_correct prec emax _ _ mode_NE z 0 false) as H. cbv zeta in H.
  assert (EF : F2R (Float radix2 z 0) = IZR z) by (unfold F2R; simpl; ring).
  rewrite EF in H. change (round radix2 (SpecFloat.fexp prec emax) (round_mode mode_NE)) with rnd in H.
  rewrite rnd_id in H by (apply fmt_IZR; auto).
  rewrite small_lt_emax in H.
  - destruct H as [H1 [H2 _]]. auto.
  - rewrite <- abs_IZR. apply IZR_le. lia.
Qed.

Lemma bof_sign : forall z, (Z.abs z <= 2 ^ 53)%Z -> Bsign (bof z) = (z <? 0)%Z.
Proof.
  intros z Hz. unfold bof.
  pose proof (binary_normalize_correct prec emax _ _ mode_NE z 0 false) as H. cbv zeta in H.
  assert (EF : F2R (Float radix2 z 0) = IZR z) by (unfold F2R; simpl; ring).
  rewrite EF in H. change (round radix2 (SpecFloat.fexp prec emax) (round_mode mode_NE)) with rnd in H.
  rewrite rnd_id in H by (apply fmt_IZR; auto).
  rewrite small_lt_emax in H.
  - destruct H as [_ [_ H]]. rewrite H. destruct (Z.ltb_spec z 0).
    + rewrite Rcompare_Lt; auto. apply IZR_lt; auto.
    + destruct (Z.eq_dec z 0); [subst; rewrite Rcompare_Eq; auto|].
      rewrite Rcompare_Gt; auto. apply IZR_lt; lia.
  - rewrite <- abs_IZR. apply IZR_le. lia.
Qed.

Section Ops.
Implicit Types x y : b64.

Lemma bplus_ok : forall x y, is_finite x = true -> is_finite y = true ->
  Rabs (rnd (B2R x + B2R y)) < bpow radix2 emax ->
  B2R (Bplus mode_NE x y) = rnd (B2R x + B2R y) /\ is_finite (Bplus mode_NE x y) = true.
Proof.
  intros x y Fx Fy H. pose proof (Bplus_correct prec emax _ _ mode_NE x y Fx Fy) as P.
  change (round radix2 (SpecFloat.fexp prec emax) (round_mode mode_NE)) with rnd in P.
  rewrite Rlt_bool_true in P by auto. tauto.
Qed.
Lemma bminus_ok : forall x y, is_finite x = true -> is_finite y = true ->
  Rabs (rnd (B2R x - B2R y)) < bpow radix2 emax ->
  B2R (Bminus mode_NE x y) = rnd (B2R x - B2R y) /\ is_finite (Bminus mode_NE x y) = true.
Proof.
  intros x y Fx Fy H. pose proof (Bminus_correct prec emax _ _ mode_NE x y Fx Fy) as P.
  change (round radix2 (SpecFloat.fexp prec emax) (round_mode mode_NE)) with rnd in P.
  rewrite Rlt_bool_true in P by auto. tauto.
Qed.
Lemma bmult_ok : forall x y, is_finite x = true -> is_finite y = true ->
  Rabs (rnd (B2R x * B2R y)) < bpow radix2 emax ->
  B2R (Bmult mode_NE x y) = rnd (B2R x * B2R y) /\ is_finite (Bmult mode_NE x y) = true.
Proof.
  intros x y Fx Fy H. pose proof (Bmult_correct prec emax _ _ mode_NE x y) as P.
  change (round radix2 (SpecFloat.fexp prec emax) (round_mode mode_NE)) with rnd in P.
  rewrite Rlt_bool_true in P by auto. rewrite Fx, Fy in P. simpl in P. tauto.
Qed.
Lemma bdiv_ok : forall x y, is_finite x = true -> B2R y <> 0 ->
  Rabs (rnd (B2R x / B2R y)) < bpow radix2 emax ->
  B2R (Bdiv mode_NE x y) = rnd (B2R x / B2R y) /\ is_finite (Bdiv mode_NE x y) = true.
Proof.
  intros x y Fx Fy H. pose proof (Bdiv_correct prec emax _ _ mode_NE x y Fy) as P.
  change (round radix2 (SpecFloat.fexp prec emax) (round_mode mode_NE)) with rnd in P.
  rewrite Rlt_bool_true in P by auto. rewrite Fx in P. tauto.
Qed.

(** a rounding between two finite doubles does not overflow *)
Lemma between_finite : forall x y r, B2R x <= r <= B2R y -> Rabs r < bpow radix2 emax.
Proof.
  intros x y r H. pose proof (abs_B2R_lt_emax prec emax x) as H1.
  pose proof (abs_B2R_lt_emax prec emax y) as H2.
  apply Rabs_lt. apply Rabs_lt_inv in H1. apply Rabs_lt_inv in H2. lra.
Qed.

(** a difference that did not overflow is the rounded difference *)
Lemma bminus_finite : forall x y, is_finite x = true -> is_finite y = true ->
  is_finite (Bminus mode_NE x y) = true -> B2R (Bminus mode_NE x y) = rnd (B2R x - B2R y).
Proof.
  intros x y Fx Fy H. pose proof (Bminus_correct prec emax _ _ mode_NE x y Fx Fy) as P.
  change (round radix2 (SpecFloat.fexp prec emax) (round_mode mode_NE)) with rnd in P.
  destruct (Rlt_bool_spec (Rabs (rnd (B2R x - B2R y))) (bpow radix2 emax)).
  - tauto.
  - destruct P as [P _]. exfalso. destruct (Bminus mode_NE x y); simpl in H, P; try discriminate;
      unfold binary_overflow in P; simpl in P; discriminate.
Qed.
End Ops.

(** ** drand48 *)
Lemma lcg_range : forall g, (0 <= lcg g < RMOD)%Z.
Proof. intros. unfold lcg. apply Z.mod_pos_bound. reflexivity. Qed.

Lemma bpow_m48 : bpow radix2 (-48) = / IZR RMOD.
Proof. reflexivity. Qed.
Lemma RMOD_pos : 0 < IZR RMOD.
Proof. apply IZR_lt. reflexivity. Qed.

Lemma drand48_b64 : forall L g,
  let u := fst (drand48 (A := B64 L) g) in
  B2R u = IZR (lcg g) / IZR RMOD /\ is_finite u = true.
Proof.
  intros L g u. unfold u, drand48. cbn [fst ndiv nof B64].
  pose proof (lcg_range g) as Hg.
  destruct (bof_ok (lcg g)) as [V1 F1]. { rewrite Z.abs_eq by lia. unfold RMOD in Hg. lia. }
  destruct (bof_ok RMOD) as [V2 F2]. { unfold RMOD. lia. }
  pose proof RMOD_pos.
  assert (Fm : fmt (IZR (lcg g) / IZR RMOD)).
  { unfold Rdiv. rewrite <- bpow_m48. apply fmt_scaled; [|lia]. rewrite Z.abs_eq by lia. unfold RMOD in Hg. lia. }
  destruct (bdiv_ok (bof (lcg g)) (bof RMOD)) as [V3 F3]; auto.
  - rewrite V2. lra.
  - rewrite V1, V2, rnd_id by auto. apply Rabs_lt.
    assert (0 <= IZR (lcg g) / IZR RMOD).
    { apply Rmult_le_pos. apply IZR_le; lia. left. apply Rinv_0_lt_compat; auto. }
    assert (IZR (lcg g) / IZR RMOD < 1).
    { apply Rmult_lt_reg_r with (IZR RMOD); auto. unfold Rdiv. rewrite Rmult_assoc, Rinv_l, Rmult_1_r, Rmult_1_l by lra.
      apply IZR_lt; lia. }
    pose proof (bpow_gt_0 radix2 emax). assert (1 < bpow radix2 emax). { change 1 with (bpow radix2 0). apply bpow_lt. reflexivity. }
    lra.
  - rewrite V3, V1, V2, rnd_id by auto. auto.
Qed.

Lemma unit_range : forall g, 0 <= IZR (lcg g) / IZR RMOD <= 1 - / IZR RMOD.
Proof.
  intros g. pose proof (lcg_range g) as Hg. pose proof RMOD_pos. split.
  - apply Rmult_le_pos. apply IZR_le; lia. left. apply Rinv_0_lt_compat; auto.
  - apply Rmult_le_reg_r with (IZR RMOD); auto. unfold Rdiv.
    rewrite Rmult_assoc, Rinv_l, Rmult_1_r by lra.
    rewrite Rmult_minus_distr_r, Rinv_l, Rmult_1_l by lra.
    rewrite <- minus_IZR. apply IZR_le. lia.
Qed.

(** relative error of one rounding in the normal range *)
Lemma rnd_rel : forall x, bpow radix2 (-1022) <= x ->
  x * (1 - bpow radix2 (-53)) <= rnd x <= x * (1 + bpow radix2 (-53)).
Proof.
  intros x Hx. assert (P : 0 < x). { pose proof (bpow_gt_0 radix2 (-1022)). lra. }
  destruct (relative_error_N_FLT_ex radix2 emin prec ltac:(reflexivity) (fun n => negb (Z.even n)) x) as [eps [He Hr]].
  - rewrite Rabs_pos_eq by lra. exact Hx.
  - rewrite Hr. replace (/ 2 * bpow radix2 (- prec + 1)) with (bpow radix2 (-53)) in He.
    + apply Rabs_le_inv in He. split; apply Rmult_le_compat_l; lra.
    + change (/2) with (bpow radix2 (-1)). rewrite <- bpow_plus. reflexivity.
Qed.
