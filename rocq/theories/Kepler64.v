(** newton_solver of the orbit model (fit_orbit/user_logll.c:210-225) in binary64. *)
From Coq Require Import ZArith Reals List Bool Lia Lra Psatz.
From Flocq Require Import Core IEEE754.BinarySingleNaN.
From Verif Require Import Base Arith B64 B64Facts UserModels Kepler.
Import ListNotations.
Open Scope R_scope.

(** ** the rounding error of an operation with a result of bounded size *)
Notation bp := (bpow radix2).
Lemma rnd_err : forall x k, (-1021 <= k)%Z -> Rabs x <= bp k -> Rabs (rnd x - x) <= bp (k - 54).
Proof.
  intros x k Hk [H|H].
  - eapply Rle_trans; [apply error_le_half_ulp; apply valid64|].
    destruct (Req_dec x 0) as [->|N].
    + rewrite ulp_FLT_0 by reflexivity. replace (bp (k - 54)) with (/ 2 * bp (k - 53)).
      * apply Rmult_le_compat_l; [lra|]. apply bpow_le. unfold emax, prec. lia.
      * replace (k - 53)%Z with (1 + (k - 54))%Z by lia. rewrite bpow_plus. change (bp 1) with 2. field.
    + replace (bp (k - 54)) with (/ 2 * bp (k - 53)).
      * apply Rmult_le_compat_l; [lra|]. rewrite ulp_neq_0 by auto. apply bpow_le. unfold cexp, FLT_exp, emax, prec.
        assert (mag radix2 x <= k)%Z by (apply mag_le_bpow; auto). lia.
      * replace (k - 53)%Z with (1 + (k - 54))%Z by lia. rewrite bpow_plus. change (bp 1) with 2. field.
  - assert (F : fmt x).
    { assert (F1 : fmt (bp k)) by (rewrite <- (Rmult_1_l (bp k)); apply (fmt_scaled 1 k); [reflexivity|lia]).
      destruct (Rle_dec 0 x) as [P|P]; [rewrite Rabs_right in H by lra; rewrite H; auto|].
      rewrite Rabs_left in H by lra. replace x with (- bp k) by lra. apply generic_format_opp. auto. }
    rewrite rnd_id by auto. rewrite Rminus_diag_eq, Rabs_R0 by auto. apply bpow_ge_0.
Qed.
Lemma rnd_small : forall x k, (-1021 <= k <= 1000)%Z -> Rabs x <= bp k -> Rabs (rnd x) < bp emax.
Proof.
  intros x k Hk H. pose proof (rnd_err x k ltac:(lia) H) as E.
  apply Rle_lt_trans with (bp k + bp (k - 54)).
  - replace (rnd x) with (x + (rnd x - x)) by ring. eapply Rle_trans; [apply Rabs_triang|]. lra.
  - apply Rle_lt_trans with (bp (k + 1)); [|apply bpow_lt; unfold emax; lia].
    rewrite bpow_plus. change (bp 1) with 2. assert (bp (k - 54) <= bp k) by (apply bpow_le; lia). lra.
Qed.
Lemma bmult_err : forall (x y : b64) k, (-1021 <= k <= 1000)%Z -> is_finite x = true -> is_finite y = true -> Rabs (B2R x * B2R y) <= bp k ->
  is_finite (Bmult mode_NE x y) = true /\ Rabs (B2R (Bmult mode_NE x y) - B2R x * B2R y) <= bp (k - 54).
Proof.
  intros x y k Hk Fx Fy H. destruct (bmult_ok x y Fx Fy (rnd_small _ k Hk H)) as [V F]. split; [auto|]. rewrite V. apply rnd_err; auto; lia.
Qed.
Lemma bminus_err : forall (x y : b64) k, (-1021 <= k <= 1000)%Z -> is_finite x = true -> is_finite y = true -> Rabs (B2R x - B2R y) <= bp k ->
  is_finite (Bminus mode_NE x y) = true /\ Rabs (B2R (Bminus mode_NE x y) - (B2R x - B2R y)) <= bp (k - 54).
Proof.
  intros x y k Hk Fx Fy H. destruct (bminus_ok x y Fx Fy (rnd_small _ k Hk H)) as [V F]. split; [auto|]. rewrite V. apply rnd_err; auto; lia.
Qed.
Lemma bdiv_err : forall (x y : b64) k, (-1021 <= k <= 1000)%Z -> is_finite x = true -> B2R y <> 0 -> Rabs (B2R x / B2R y) <= bp k ->
  is_finite (Bdiv mode_NE x y) = true /\ Rabs (B2R (Bdiv mode_NE x y) - B2R x / B2R y) <= bp (k - 54).
Proof.
  intros x y k Hk Fx Fy H. destruct (bdiv_ok x y Fx Fy (rnd_small _ k Hk H)) as [V F]. split; [auto|]. rewrite V. apply rnd_err; auto; lia.
Qed.

(** ** the library: sine and cosine within [d] of the true ones up to [B] *)
Definition trig_near (L : Libm) (B d : R) : Prop :=
  forall x : b64, is_finite x = true -> Rabs (B2R x) <= B ->
    (is_finite (l_sin L x) = true /\ Rabs (B2R (l_sin L x) - sin (B2R x)) <= d) /\
    (is_finite (l_cos L x) = true /\ Rabs (B2R (l_cos L x) - cos (B2R x)) <= d).

Lemma tol_64 : forall L, B2R (@nlit (B64 L) 1 8) <= 1 / 100000000 + / 2 ^ 70 /\ 1 / 100000000 - / 2 ^ 70 <= B2R (@nlit (B64 L) 1 8) /\ is_finite (@nlit (B64 L) 1 8) = true.
Proof.
  intros L. unfold nlit. cbn [B64 ndiv nof]. destruct (bof_ok 1 ltac:(lia)) as [V1 F1]. destruct (bof_ok (10 ^ 8) ltac:(lia)) as [V2 F2].
  destruct (bdiv_err (bof 1) (bof (10 ^ 8)) (-26)) as [F E]; [lia|auto|rewrite V2; apply not_0_IZR; discriminate| |].
  - rewrite V1, V2. change (bp (-26)) with (/ 67108864). change (10 ^ 8)%Z with 100000000%Z. rewrite Rabs_right; lra.
  - rewrite V1, V2 in E. change (bp (-26 - 54)) with (/ IZR (2 ^ 80)) in E. change (IZR (10 ^ 8)) with 100000000 in E.
    assert (/ IZR (2 ^ 80) <= / 2 ^ 70) by (apply Rinv_le_contravar; [apply pow_lt; lra|]; rewrite pow_IZR; apply IZR_le; vm_compute; discriminate).
    apply Rabs_le_inv in E. split; [lra|]. split; [lra|auto].
Qed.

(** ** one turn *)
Section Turn.
Variable L : Libm.
Hypothesis TL : trig_near L (IZR (2 ^ 20 + 2)) (bp (-40)).
Variables e M : b64.
Hypothesis Fe : is_finite e = true.
Hypothesis He : 0 <= B2R e <= 1 / 2.
Hypothesis FM : is_finite M = true.
Hypothesis HM : Rabs (B2R M) <= IZR (2 ^ 20).

Local Notation m40 := (/ 1099511627776).
Local Notation m33 := (/ 8589934592).
Lemma step_64 : forall E : b64, is_finite E = true -> Rabs (B2R E - B2R M) <= 3 / 2 ->
  is_finite (@newton_step (B64 L) M e E) = true /\
  Rabs (B2R (@newton_step (B64 L) M e E) - @newton_step RArith (B2R M) (B2R e) (B2R E)) <= 4 * m33.
Proof.
  intros E FE HE. change (IZR (2 ^ 20)) with 1048576 in HM. change (IZR (2 ^ 20 + 2)) with 1048578 in TL.
  apply Rabs_le_inv in HE. pose proof (Rabs_le_inv _ _ HM) as HM'.
  assert (BE : Rabs (B2R E) <= 1048578) by (apply Rabs_le; lra).
  destruct (TL E FE BE) as [[Fs Hs] [Fc Hc]]. change (bp (-40)) with m40 in Hs, Hc. apply Rabs_le_inv in Hs. apply Rabs_le_inv in Hc.
  pose proof (SIN_bound (B2R E)) as SB. pose proof (COS_bound (B2R E)) as CB.
  unfold newton_step. cbn [B64 nsub nmul ndiv nsin ncos nof RArith].
  set (s := l_sin L E) in *. set (c0 := l_cos L E) in *. set (x := B2R E) in *. set (m := B2R M) in *. set (k := B2R e) in *.
  destruct (bmult_err e s 0) as [Fp Hp]; [lia|auto|auto| |]. { fold k. change (bp 0) with 1. apply Rabs_le. nra. }
  destruct (bmult_err e c0 0) as [Fq Hq]; [lia|auto|auto| |]. { fold k. change (bp 0) with 1. apply Rabs_le. nra. }
  fold k in Hp, Hq. change (bp (0 - 54)) with (/ 18014398509481984) in Hp, Hq. apply Rabs_le_inv in Hp. apply Rabs_le_inv in Hq.
  set (p := Bmult mode_NE e s) in *. set (q := Bmult mode_NE e c0) in *.
  assert (P1 : - m40 <= B2R p - k * sin x <= m40).
  { assert (- (1 / 2 * m40) <= k * (B2R s - sin x) <= 1 / 2 * m40) by nra. lra. }
  assert (Q1 : - m40 <= B2R q - k * cos x <= m40).
  { assert (- (1 / 2 * m40) <= k * (B2R c0 - cos x) <= 1 / 2 * m40) by nra. lra. }
  assert (KS : - (1 / 2) <= k * sin x <= 1 / 2) by nra. assert (KC : - (1 / 2) <= k * cos x <= 1 / 2) by nra.
  destruct (bminus_err E p 21) as [Fa Ha]; [lia|auto|auto| |]. { fold x. change (bp 21) with 2097152. apply Rabs_le. lra. }
  fold x in Ha. change (bp (21 - 54)) with m33 in Ha. apply Rabs_le_inv in Ha. set (a := Bminus mode_NE E p) in *.
  destruct (bminus_err a M 2) as [Fb Hb]; [lia|auto|auto| |]. { fold m. change (bp 2) with 4. apply Rabs_le. lra. }
  fold m in Hb. change (bp (2 - 54)) with (/ 4503599627370496) in Hb. apply Rabs_le_inv in Hb. set (b := Bminus mode_NE a M) in *.
  destruct (bof_ok 1 ltac:(lia)) as [V1 F1].
  destruct (bminus_err (bof 1) q 1) as [Fd Hd]; [lia|auto|auto| |]. { rewrite V1. change (bp 1) with 2. apply Rabs_le. lra. }
  rewrite V1 in Hd. change (bp (1 - 54)) with (/ 9007199254740992) in Hd. apply Rabs_le_inv in Hd. set (d := Bminus mode_NE (bof 1) q) in *.
  set (f := x - k * sin x - m). set (g := 1 - k * cos x).
  assert (B1 : - (m33 + 2 * m40) <= B2R b - f <= m33 + 2 * m40) by (unfold f; lra).
  assert (D1 : - (2 * m40) <= B2R d - g <= 2 * m40) by (unfold g; lra).
  assert (G0 : 1 / 2 <= g <= 3 / 2) by (unfold g; lra). assert (F0 : - 2 <= f <= 2) by (unfold f; lra).
  assert (D0 : 49 / 100 <= B2R d) by lra.
  assert (Q : Rabs (B2R b / B2R d - f / g) <= 5 / 2 * m33).
  { replace (B2R b / B2R d - f / g) with (((B2R b - f) * g - f * (B2R d - g)) / (B2R d * g)) by (field; lra).
    unfold Rdiv. rewrite Rabs_mult, (Rabs_right (/ (B2R d * g))) by (apply Rle_ge, Rlt_le, Rinv_0_lt_compat; nra).
    apply (Rmult_le_reg_r (B2R d * g)); [nra|]. rewrite Rmult_assoc, Rinv_l by nra. rewrite Rmult_1_r.
    apply Rle_trans with ((m33 + 2 * m40) * g + 4 * m40).
    - eapply Rle_trans; [apply Rabs_triang|]. rewrite Rabs_Ropp, !Rabs_mult. rewrite (Rabs_right g) by lra.
      apply Rplus_le_compat.
      + apply Rmult_le_compat_r; [lra|]. apply Rabs_le. lra.
      + replace (4 * m40) with (2 * (2 * m40)) by ring. apply Rmult_le_compat; try apply Rabs_pos; apply Rabs_le; lra.
    - nra. }
  assert (FG : Rabs (f / g) <= 4).
  { unfold Rdiv. rewrite Rabs_mult, (Rabs_right (/ g)) by (apply Rle_ge, Rlt_le, Rinv_0_lt_compat; lra).
    apply (Rmult_le_reg_r g); [lra|]. rewrite Rmult_assoc, Rinv_l by lra. rewrite Rmult_1_r. apply Rle_trans with 2; [apply Rabs_le; lra|lra]. }
  apply Rabs_le_inv in Q. apply Rabs_le_inv in FG.
  destruct (bdiv_err b d 3) as [Fr Hr]; [lia|auto|lra| |]. { change (bp 3) with 8. apply Rabs_le. lra. }
  change (bp (3 - 54)) with (/ 2251799813685248) in Hr. apply Rabs_le_inv in Hr. set (r := Bdiv mode_NE b d) in *.
  destruct (bminus_err E r 21) as [Fz Hz]; [lia|auto|auto| |]. { fold x. change (bp 21) with 2097152. apply Rabs_le. lra. }
  fold x in Hz. change (bp (21 - 54)) with m33 in Hz. apply Rabs_le_inv in Hz. split; [exact Fz|].
  fold f. fold g. apply Rabs_le. lra.
Qed.

Variable X : R.
Hypothesis HX : X - B2R e * sin X = B2R M.

Lemma bltb_tol : forall d : b64, is_finite d = true -> Bltb (@nlit (B64 L) 1 8) (Babs d) = Rltb (B2R (@nlit (B64 L) 1 8)) (Rabs (B2R d)).
Proof.
  intros d Fd. destruct (tol_64 L) as (_ & _ & FT). unfold Bltb, SpecFloat.SFltb. 
  pose proof (Bcompare_correct prec emax (@nlit (B64 L) 1 8) (Babs d) FT ltac:(rewrite is_finite_Babs; auto)) as C.
  unfold Bcompare in C. rewrite C. rewrite B2R_Babs.
  unfold Rltb. destruct (Rlt_dec (B2R (@nlit (B64 L) 1 8)) (Rabs (B2R d))) as [H|H].
  - rewrite Rcompare_Lt; auto.
  - destruct (Rtotal_order (B2R (@nlit (B64 L) 1 8)) (Rabs (B2R d))) as [H1|[H1|H1]]; [contradiction|rewrite Rcompare_Eq; auto|rewrite Rcompare_Gt; auto].
Qed.

Lemma turn_64 : forall (E : b64) d, is_finite E = true -> Rabs (B2R E - X) <= d -> d <= 1 / 2 ->
  exists E1 : b64, is_finite E1 = true /\ Rabs (B2R E1 - X) <= d * d / 2 + 4 * m33 /\
   ((forall f, @newton_loop (B64 L) (S f) (nlit 1 8) M e E = @newton_loop (B64 L) f (nlit 1 8) M e E1) \/
    ((forall f, @newton_loop (B64 L) (S f) (nlit 1 8) M e E = Some E1) /\ Rabs (B2R E1 - X) <= 5 * m33)) /\
   (d <= 16 * m33 -> forall f, @newton_loop (B64 L) (S f) (nlit 1 8) M e E = Some E1).
Proof.
  intros E d FE HE Hd. 
  assert (XM : Rabs (X - B2R M) <= 1 / 2).
  { rewrite <- HX. replace (X - (X - B2R e * sin X)) with (B2R e * sin X) by ring. pose proof (SIN_bound X). apply Rabs_le. nra. }
  assert (EM : Rabs (B2R E - B2R M) <= 3 / 2).
  { replace (B2R E - B2R M) with ((B2R E - X) + (X - B2R M)) by ring. eapply Rle_trans; [apply Rabs_triang|]. lra. }
  destruct (step_64 E FE EM) as [F1 H1]. set (E1 := @newton_step (B64 L) M e E) in *. exists E1. split; [auto|].
  assert (SE := step_error (B2R e) (B2R M) (B2R E) X ltac:(lra) ltac:(unfold kep; lra)).
  set (n := @newton_step RArith (B2R M) (B2R e) (B2R E)) in *.
  assert (K : 0 <= B2R e / (2 * (1 - B2R e)) <= 1 / 2).
  { split; [apply Rmult_le_pos; [lra|]; left; apply Rinv_0_lt_compat; lra|]. apply (Rmult_le_reg_r (2 * (1 - B2R e))); [lra|].
    replace (B2R e / (2 * (1 - B2R e)) * (2 * (1 - B2R e))) with (B2R e) by (field; lra). lra. }
  assert (SE2 : Rabs (n - X) <= 1 / 2 * (Rabs (B2R E - X) * Rabs (B2R E - X))).
  { eapply Rle_trans; [apply SE|]. rewrite Rmult_assoc, (abs_sq (B2R E - X)). apply Rmult_le_compat_r; [|lra]. pose proof (Rabs_pos (B2R E - X)). nra. }
  assert (T : Rabs (B2R E1 - X) <= 4 * m33 + Rabs (n - X)).
  { replace (B2R E1 - X) with ((B2R E1 - n) + (n - X)) by ring. eapply Rle_trans; [apply Rabs_triang|]. lra. }
  pose proof (Rabs_pos (B2R E - X)) as P0.
  assert (D1 : Rabs (B2R E1 - X) <= d * d / 2 + 4 * m33) by nra. split; [auto|].
  assert (DIST : Rabs (B2R E1 - B2R E) <= Rabs (B2R E1 - X) + Rabs (B2R E - X)).
  { replace (B2R E1 - B2R E) with ((B2R E1 - X) + - (B2R E - X)) by ring. eapply Rle_trans; [apply Rabs_triang|]. rewrite Rabs_Ropp. lra. }
  assert (DIST2 : Rabs (B2R E - X) <= Rabs (B2R E1 - X) + Rabs (B2R E1 - B2R E)).
  { replace (B2R E - X) with ((B2R E1 - X) + - (B2R E1 - B2R E)) by ring. eapply Rle_trans; [apply Rabs_triang|]. rewrite Rabs_Ropp. lra. }
  destruct (bminus_err E1 E 0) as [Fx Hx]; [lia|auto|auto| |]. { change (bp 0) with 1. nra. }
  change (bp (0 - 54)) with (/ 18014398509481984) in Hx.
  assert (LS : forall f, @newton_loop (B64 L) (S f) (nlit 1 8) M e E =
     if Rltb (B2R (@nlit (B64 L) 1 8)) (Rabs (B2R (Bminus mode_NE E1 E))) then @newton_loop (B64 L) f (nlit 1 8) M e E1 else Some E1).
  { intros f. rewrite <- bltb_tol by auto. reflexivity. }
  destruct (tol_64 L) as (T1 & T2 & _). 
  assert (SM : 0 < / 2 ^ 70 <= / 18014398509481984).
  { split; [apply Rinv_0_lt_compat, pow_lt; lra|]. apply Rinv_le_contravar; [lra|]. rewrite pow_IZR. apply IZR_le. vm_compute. discriminate. }
  assert (AX : Rabs (Rabs (B2R (Bminus mode_NE E1 E)) - Rabs (B2R E1 - B2R E)) <= / 18014398509481984).
  { eapply Rle_trans; [apply Rabs_triang_inv2|]. auto. }
  apply Rabs_le_inv in AX.
  split.
  - unfold Rltb in LS. destruct (Rlt_dec _ _) as [C|C]; [left; auto|right; split; [auto|]].
    assert (S1 : Rabs (B2R E1 - B2R E) <= 11 / 1000000000) by lra. pose proof (Rabs_pos (B2R E1 - X)).
    set (y := Rabs (B2R E1 - X)) in *. set (z := Rabs (B2R E - X)) in *.
    assert (z <= y + 11 / 1000000000) by lra. assert (y <= 1 / 2 * (z * z) + 4 * m33) by lra.
    assert (y <= 13 / 100) by nra.
    assert (y * (1 - 7 / 100) <= 4 * m33 + 1 / 1000000000000000) by nra. lra.
  - intros D8 f. rewrite LS. unfold Rltb. destruct (Rlt_dec _ _) as [C|C]; [exfalso|auto]. nra.
Qed.

Lemma solver_64 : exists r : b64, is_finite r = true /\ Rabs (B2R r - X) <= 5 * m33 /\ forall fuel, (5 <= fuel)%nat -> @newton_solver (B64 L) fuel M e = Some r.
Proof.
  assert (XM : Rabs (B2R M - X) <= 1 / 2).
  { rewrite <- HX. replace (X - B2R e * sin X - X) with (- (B2R e * sin X)) by ring. rewrite Rabs_Ropp. pose proof (SIN_bound X). apply Rabs_le. nra. }
  unfold newton_solver.
  assert (GO : forall k (E E1 : b64), is_finite E1 = true -> ((forall f, @newton_loop (B64 L) (S f) (nlit 1 8) M e E = @newton_loop (B64 L) f (nlit 1 8) M e E1) \/
    ((forall f, @newton_loop (B64 L) (S f) (nlit 1 8) M e E = Some E1) /\ Rabs (B2R E1 - X) <= 5 * m33)) ->
     (exists r : b64, is_finite r = true /\ Rabs (B2R r - X) <= 5 * m33 /\ forall f, (k <= f)%nat -> @newton_loop (B64 L) f (nlit 1 8) M e E1 = Some r) ->
     exists r : b64, is_finite r = true /\ Rabs (B2R r - X) <= 5 * m33 /\ forall f, (S k <= f)%nat -> @newton_loop (B64 L) f (nlit 1 8) M e E = Some r).
  { intros k E E1 F1 [A|[A B]] [r (Fr & Hr & R)].
    - exists r. split; [auto|]. split; [auto|]. intros f Hf. destruct f as [|f]; [lia|]. rewrite A. apply R. lia.
    - exists E1. split; [auto|]. split; [auto|]. intros f Hf. destruct f as [|f]; [lia|]. apply A. }
  destruct (turn_64 M (1 / 2) FM XM ltac:(lra)) as (E1 & F1 & D1 & A1 & _). apply (GO 4%nat M E1 F1 A1).
  assert (D1' : Rabs (B2R E1 - X) <= 126 / 1000) by lra.
  destruct (turn_64 E1 _ F1 D1' ltac:(lra)) as (E2 & F2 & D2 & A2 & _). apply (GO 3%nat E1 E2 F2 A2).
  assert (D2' : Rabs (B2R E2 - X) <= 8 / 1000) by lra.
  destruct (turn_64 E2 _ F2 D2' ltac:(lra)) as (E3 & F3 & D3 & A3 & _). apply (GO 2%nat E2 E3 F3 A3).
  assert (D3' : Rabs (B2R E3 - X) <= 33 / 1000000) by lra.
  destruct (turn_64 E3 _ F3 D3' ltac:(lra)) as (E4 & F4 & D4 & A4 & _). apply (GO 1%nat E3 E4 F4 A4).
  assert (D4' : Rabs (B2R E4 - X) <= 16 * m33).
  { eapply Rle_trans; [apply D4|]. lra. }
  destruct (turn_64 E4 _ F4 D4' ltac:(lra)) as (E5 & F5 & D5 & A5 & B5). exists E5. split; [auto|]. split.
  - eapply Rle_trans; [apply D5|]. lra.
  - intros f Hf. destruct f as [|f]; [lia|]. apply B5. lra.
Qed.
End Turn.
