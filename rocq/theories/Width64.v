(** The candidate widths of the tuning in binary64. *)
From Coq Require Import ZArith Arith List Bool Reals Lia Lra Psatz.
From Flocq Require Import Core Relative IEEE754.BinarySingleNaN.
From Verif Require Import Base Arith B64 Rand Mh Ladder Tune Mpi MpiMeta Spmd Prog Seq ListAux MhSpec SeqWf Refine SeqTotal System B64Facts RandRange
  Runs History Views RunHist HistCount HistRows CountLemmas LadderRuns TuneOpt TuneSteps TuneStacks TuneRuns Kepler Kepler64 Orb64 Decide64 Reg64 LogUnif64.
Import ListNotations.
Open Scope R_scope.

(** exp at arguments up to 100 in size *)
Definition exp_mid (L : Libm) : Prop := forall x : b64, is_finite x = true -> Rabs (B2R x) <= 100 ->
  is_finite (l_exp L x) = true /\ Rabs (B2R (l_exp L x) - exp (B2R x)) <= exp (B2R x) / 2 ^ 51.

(** ** over the reals *)
Lemma ln_le_pow : forall n x, 0 < x <= 2 ^ n -> ln x <= INR n.
Proof.
  intros n x [P H]. apply Rle_trans with (ln (2 ^ n)).
  - destruct H as [H| ->]; [left; apply ln_increasing; auto|right; reflexivity].
  - rewrite <- (ln_exp (INR n)). destruct (exp_nat n) as [E|E]; [left; apply ln_increasing; [apply pow_lt; lra|exact E]|right; rewrite E; reflexivity].
Qed.
Lemma ln_abs_pow : forall n x, / 2 ^ n <= x <= 2 ^ n -> Rabs (ln x) <= INR n.
Proof.
  intros n x [H1 H2]. assert (P : 0 < / 2 ^ n) by (apply Rinv_0_lt_compat, pow_lt; lra).
  apply Rabs_le. split; [|apply ln_le_pow; lra].
  assert (ln (/ x) <= INR n). { apply ln_le_pow. split; [apply Rinv_0_lt_compat; lra|]. rewrite <- (Rinv_inv (2 ^ n)). apply Rinv_le_contravar; auto. }
  rewrite ln_Rinv in H by lra. lra.
Qed.
Lemma ln_near : forall x e v, 0 < x -> Rabs e <= v -> 0 < v <= / 1000 -> Rabs (ln (x * (1 + e)) - ln x) <= 2 * v.
Proof.
  intros x e v Hx He Hv. apply Rabs_le_inv in He. rewrite ln_mult by lra. replace (ln x + ln (1 + e) - ln x) with (ln (1 + e)) by ring.
  apply Rabs_le. split.
  - rewrite <- (ln_exp (- (2 * v))). pose proof (exp_neg_le (2 * v) ltac:(lra)) as E. assert (exp (- (2 * v)) <= 1 + e).
    { eapply Rle_trans; [exact E|]. apply Rle_trans with (1 - v); [|lra]. apply (Rmult_le_reg_r (1 + 2 * v)); [lra|]. rewrite Rinv_l by lra. nra. }
    destruct H as [H|H]; [left; apply ln_increasing; [apply exp_pos|exact H]|right; rewrite H; reflexivity].
  - rewrite <- (ln_exp (2 * v)). left. apply ln_increasing; [lra|]. apply Rlt_trans with (1 + 2 * v); [lra|]. apply exp_ineq1. lra.
Qed.
Lemma exp_near_R : forall y l t v e, 0 < v <= / 1000000 -> 0 <= t <= / 1000000 -> Rabs (y - l) <= t -> Rabs (e - exp y) <= exp y * v ->
  exp l * (1 - (2 * t + 2 * v)) <= e <= exp l * (1 + (2 * t + 2 * v)).
Proof.
  intros y l t v e Hv Ht Hy He. apply Rabs_le_inv in Hy. apply Rabs_le_inv in He. pose proof (exp_pos l) as P.
  assert (E1 : exp l * (1 - t) <= exp y).
  { apply Rle_trans with (exp (l + - t)).
    - rewrite exp_plus. apply Rmult_le_compat_l; [lra|]. destruct (Req_dec t 0) as [->|N]; [rewrite Ropp_0, exp_0; lra|]. left. apply (exp_ineq1 (- t)). lra.
    - apply exp_mono. lra. }
  assert (E2 : exp y <= exp l * (1 + 11 / 10 * t)).
  { apply Rle_trans with (exp (l + t)); [apply exp_mono; lra|]. rewrite exp_plus. apply Rmult_le_compat_l; [lra|].
    assert (X : 1 - t <= exp (- t)). { destruct (Req_dec t 0) as [->|N]; [rewrite Ropp_0, exp_0; lra|]. left. apply (exp_ineq1 (- t)). lra. }
    rewrite exp_Ropp in X. pose proof (exp_pos t) as Z. assert (Y : (1 - t) * exp t <= 1). { apply Rle_trans with (/ exp t * exp t); [apply Rmult_le_compat_r; lra|right; apply Rinv_l; lra]. }
    apply (Rmult_le_reg_l (1 - t)); nra. }
  split.
  - apply Rle_trans with (exp y * (1 - v)); [|lra]. apply Rle_trans with (exp l * (1 - t) * (1 - v)); [|apply Rmult_le_compat_r; lra].
    rewrite Rmult_assoc. apply Rmult_le_compat_l; [lra|]. nra.
  - apply Rle_trans with (exp y * (1 + v)); [lra|]. apply Rle_trans with (exp l * (1 + 11 / 10 * t) * (1 + v)); [apply Rmult_le_compat_r; lra|].
    rewrite Rmult_assoc. apply Rmult_le_compat_l; [lra|]. nra.
Qed.

(** ** one entry of the array *)
Notation dl := (/ 2 ^ 40).
Lemma dl_v : dl = 8192 * u53.
Proof. change (2 ^ 53) with (2 ^ (40 + 13)). rewrite pow_add. replace (2 ^ 13) with 8192 by lra. field. Qed.

Lemma rnd_ex : forall x, bp (-1000) <= x -> exists e, Rabs e <= u53 /\ rnd x = x * (1 + e).
Proof.
  intros x H. pose proof (bpow_gt_0 radix2 (-1000)) as P. pose proof (B64Facts.rnd_rel x) as R.
  assert (V : bp (-53) = u53). { change (-53)%Z with (- (53))%Z. rewrite bpow_opp. f_equal. change (bp 53) with (IZR (2 ^ 53)). change (2 ^ 53)%Z with (Z.pow 2 (Z.of_nat 53)). symmetry. apply pow_IZR. }
  rewrite V in R. destruct R as [R1 R2]; [apply Rle_trans with (bp (-1000)); [apply bpow_le; lia|exact H]|].
  exists ((rnd x - x) / x). split; [|field; lra]. unfold Rdiv. rewrite Rabs_mult, (Rabs_pos_eq (/ x)) by (left; apply Rinv_0_lt_compat; lra).
  apply (Rmult_le_reg_r x); [lra|]. rewrite Rmult_assoc, Rinv_l, Rmult_1_r by lra. apply Rabs_le. lra.
Qed.

Lemma log_64n : forall L, log_near L -> forall (x : b64) X e, is_finite x = true -> B2R x = X * (1 + e) -> Rabs e <= u53 -> / 2 ^ 83 <= X <= 2 ^ 83 ->
  is_finite (l_log L x) = true /\ Rabs (B2R (l_log L x) - ln X) <= 171 * u53.
Proof.
  intros L HL x X e F V E H. pose proof u53_pos as U. assert (P : 0 < / 2 ^ 83) by (apply Rinv_0_lt_compat, pow_lt; lra).
  pose proof (Rabs_le_inv _ _ E) as E'. assert (Px : 0 < B2R x) by (rewrite V; apply Rmult_lt_0_compat; lra).
  destruct (HL x F Px) as [Fl N]. split; [exact Fl|]. pose proof (ln_near X e u53 ltac:(lra) E ltac:(lra)) as M. rewrite <- V in M.
  pose proof (ln_abs_pow 83 X H) as A. replace (INR 83) with 83 in A by (rewrite INR_IZR_INZ; reflexivity).
  assert (A2 : Rabs (ln (B2R x)) <= 84).
  { replace (ln (B2R x)) with ((ln (B2R x) - ln X) + ln X) by ring. eapply Rle_trans; [apply Rabs_triang|]. lra. }
  assert (S100 : / 2 ^ 100 <= u53). { apply Rinv_le_contravar; [apply pow_lt; lra|]. apply Rle_pow; [lra|lia]. }
  replace (B2R (l_log L x) - ln X) with ((B2R (l_log L x) - ln (B2R x)) + (ln (B2R x) - ln X)) by ring.
  eapply Rle_trans; [apply Rabs_triang|]. nra.
Qed.

Lemma Bltb_false : forall x y : b64, Bltb x y = false -> is_finite x = true -> is_finite y = true -> B2R y <= B2R x.
Proof. intros x y E Fx Fy. rewrite (Bltb_correct _ _ _ _ Fx Fy) in E. revert E. case Rlt_bool_spec; auto. discriminate. Qed.

Lemma near2 : forall x e, 0 <= x -> - u53 <= e <= u53 -> x / 2 <= x * (1 + e) <= 2 * x.
Proof. intros x e Hx He. pose proof u53_pos as V. split; [unfold Rdiv; apply Rmult_le_compat_l; lra|]. rewrite (Rmult_comm 2). apply Rmult_le_compat_l; lra. Qed.

Section Array.
Variable L : Libm.
Hypothesis HL : log_near L.
Hypothesis HE : exp_mid L.
Notation arr b h m := (create_logspace_array (A := B64 L) b h m).

Lemma arr_64 : forall (b h : b64) m i, is_finite b = true -> is_finite h = true -> / 2 ^ 62 <= B2R b <= 2 ^ 62 -> 1 <= B2R h <= 2 ^ 20 ->
  (2 <= m <= 2 ^ 31)%Z -> (Z.of_nat i < m)%Z ->
  let e := nth i (arr b h m) (bof 0) : b64 in let th := IZR (Z.of_nat i) / IZR (m - 1) in
  let lam := ln (B2R b / B2R h) + th * (ln (B2R b * B2R h) - ln (B2R b / B2R h)) in
  is_finite e = true /\ exp lam * (1 - dl) <= B2R e <= exp lam * (1 + dl).
Proof.
  intros b h m i Fb Fh Hb Hh Hm Hi e th lam. pose proof u53_pos as U. rewrite dl_v. set (v := u53) in *.
  assert (P62 : 0 < / 2 ^ 62) by (apply Rinv_0_lt_compat, pow_lt; lra).
  assert (Q20 : / 2 ^ 20 <= / B2R h <= 1). { split; [apply Rinv_le_contravar; lra|rewrite <- Rinv_1; apply Rinv_le_contravar; lra]. }
  assert (E82 : / 2 ^ 62 * / 2 ^ 20 = / 2 ^ 82) by (rewrite <- Rinv_mult, <- pow_add; reflexivity).
  assert (F82 : 2 ^ 62 * 2 ^ 20 = 2 ^ 82) by (rewrite <- pow_add; reflexivity).
  assert (R82 : / 2 ^ 83 <= / 2 ^ 82) by (apply Rinv_le_contravar; [apply pow_lt; lra|apply Rle_pow; [lra|lia]]).
  assert (S82 : 2 ^ 82 <= 2 ^ 83) by (apply Rle_pow; [lra|lia]).
  assert (S62 : 2 ^ 62 <= 2 ^ 82) by (apply Rle_pow; [lra|lia]).
  assert (R62 : / 2 ^ 82 <= / 2 ^ 62) by (apply Rinv_le_contravar; [apply pow_lt; lra|apply Rle_pow; [lra|lia]]).
  assert (D : / 2 ^ 82 <= B2R b / B2R h <= 2 ^ 82).
  { split; [rewrite <- E82; apply Rmult_le_compat; try lra; left; apply Rinv_0_lt_compat, pow_lt; lra|].
    apply Rle_trans with (B2R b * 1); [apply Rmult_le_compat_l; lra|lra]. }
  assert (M : / 2 ^ 82 <= B2R b * B2R h <= 2 ^ 82).
  { split; [apply Rle_trans with (B2R b * 1); [lra|apply Rmult_le_compat_l; lra]|]. rewrite <- F82. apply Rmult_le_compat; lra. }
  assert (B82 : bp 82 = 2 ^ 82). { rewrite <- IZR_Zpower by lia. change (Zpower radix2 82) with (Z.pow 2 (Z.of_nat 82)). rewrite <- pow_IZR. reflexivity. }
  assert (B83 : bp (-1000) <= / 2 ^ 82). { rewrite <- B82, <- bpow_opp. apply bpow_le. lia. }
  destruct (bdiv_ok b h Fb ltac:(lra)) as [V1 F1]. { apply (rnd_small _ 82); [lia|]. rewrite B82, Rabs_pos_eq; lra. }
  destruct (bmult_ok b h Fb Fh) as [V2 F2]. { apply (rnd_small _ 82); [lia|]. rewrite B82, Rabs_pos_eq; lra. }
  destruct (rnd_ex (B2R b / B2R h) ltac:(lra)) as [e1 [A1 R1]]. destruct (rnd_ex (B2R b * B2R h) ltac:(lra)) as [e2 [A2 R2]].
  rewrite R1 in V1. rewrite R2 in V2.
  destruct (log_64n L HL _ _ _ F1 V1 A1 ltac:(lra)) as [G1 N1]. destruct (log_64n L HL _ _ _ F2 V2 A2 ltac:(lra)) as [G2 N2].
  fold v in N1, N2. set (l1 := l_log L (Bdiv mode_NE b h)) in *. set (l2 := l_log L (Bmult mode_NE b h)) in *.
  pose proof (ln_abs_pow 82 _ D) as K0. pose proof (ln_abs_pow 82 _ M) as K1. replace (INR 82) with 82 in K0, K1 by (rewrite INR_IZR_INZ; reflexivity).
  set (a0 := ln (B2R b / B2R h)) in *. set (a1 := ln (B2R b * B2R h)) in *.
  assert (O : a0 <= a1).
  { assert (Y : B2R b / B2R h <= B2R b * B2R h). { apply Rmult_le_compat_l; lra. }
    unfold a0, a1. destruct Y as [Y| ->]; [left; apply ln_increasing; lra|right; reflexivity]. }
  apply Rabs_le_inv in N1. apply Rabs_le_inv in N2. apply Rabs_le_inv in K0. apply Rabs_le_inv in K1.
  assert (Th : 0 <= th <= 1).
  { assert (Pm : 0 < IZR (m - 1)) by (apply IZR_lt; lia). unfold th. split; [apply Rmult_le_pos; [apply IZR_le; lia|left; apply Rinv_0_lt_compat; lra]|].
    apply (Rmult_le_reg_r (IZR (m - 1))); [lra|]. unfold Rdiv. rewrite Rmult_assoc, Rinv_l, Rmult_1_r by lra. rewrite Rmult_1_l. apply IZR_le. lia. }
  assert (B1000 : 256 <= bp 1000) by (change 256 with (bp 8); apply bpow_le; lia).
  (* the interval *)
  destruct (bsub_near l2 l1 165 G2 G1 ltac:(lra)) as [Fd Nd]. { apply Rabs_le. lra. }
  fold v in Nd. set (d := Bminus mode_NE l2 l1) in *. apply Rabs_le_inv in Nd.
  assert (Dd : Rabs (B2R d - (a1 - a0)) <= 510 * v) by (apply Rabs_le; lra). apply Rabs_le_inv in Dd.
  destruct (bof_ok (m - 1)) as [Vm Fm]; [rewrite Z.abs_eq; lia|].
  destruct (bof_ok (Z.of_nat i)) as [Vi Fi]; [rewrite Z.abs_eq; lia|].
  assert (Pm : 1 <= IZR (m - 1)) by (apply IZR_le; lia).
  assert (Im : 0 < / IZR (m - 1) <= 1) by (split; [apply Rinv_0_lt_compat; lra|rewrite <- Rinv_1; apply Rinv_le_contravar; lra]).
  assert (Ad : Rabs (B2R d) <= 165) by (apply Rabs_le; lra).
  assert (Aq : Rabs (B2R d / IZR (m - 1)) <= 165).
  { unfold Rdiv. rewrite Rabs_mult, (Rabs_pos_eq (/ IZR (m - 1))) by lra. pose proof (Rabs_pos (B2R d)). nra. }
  destruct (bdiv_ok d (bof (m - 1)) Fd ltac:(rewrite Vm; lra)) as [Vq Fq].
  { rewrite Vm. apply (rnd_small _ 8); [lia|]. change (bp 8) with 256. lra. }
  rewrite Vm in Vq. set (t := Bdiv mode_NE d (bof (m - 1))) in *.
  assert (Pi : 0 <= IZR (Z.of_nat i) <= IZR (m - 1)) by (split; apply IZR_le; lia).
  assert (L31 : IZR (m - 1) <= 2 ^ 31). { replace (2 ^ 31) with (IZR (2 ^ 31)) by (change (2 ^ 31)%Z with (Z.pow 2 (Z.of_nat 31)); symmetry; apply pow_IZR). apply IZR_le. lia. }
  assert (Nt : Rabs (B2R t * IZR (Z.of_nat i) - th * B2R d) <= 167 * v).
  { replace (B2R t * IZR (Z.of_nat i) - th * B2R d) with ((B2R t - B2R d / IZR (m - 1)) * IZR (Z.of_nat i)) by (unfold th; field; lra).
    rewrite Rabs_mult, (Rabs_pos_eq (IZR (Z.of_nat i))) by lra. rewrite Vq. destruct (rnd_cases (B2R d / IZR (m - 1))) as [[e3 [A3 R3]]|R3].
    - rewrite R3. replace (B2R d / IZR (m - 1) * (1 + e3) - B2R d / IZR (m - 1)) with (e3 * B2R d * / IZR (m - 1)) by (field; lra).
      rewrite !Rabs_mult, (Rabs_pos_eq (/ IZR (m - 1))) by lra. fold v in A3.
      apply Rle_trans with (v * 165 * / IZR (m - 1) * IZR (m - 1)); [|rewrite Rmult_assoc, Rinv_l by lra; lra].
      apply Rmult_le_compat; try lra; [apply Rmult_le_pos; [apply Rmult_le_pos; apply Rabs_pos|lra]|].
      apply Rmult_le_compat_r; [lra|]. apply Rmult_le_compat; auto using Rabs_pos.
    - fold v in R3. apply Rle_trans with (v * v * 2 ^ 31); [apply Rmult_le_compat; try lra; apply Rabs_pos|].
      assert (v * 2 ^ 31 <= 1). { apply Rle_trans with (/ 1000000000000000 * 2 ^ 31); [apply Rmult_le_compat_r; lra|lra]. } nra. }
  apply Rabs_le_inv in Nt.
  assert (Td : Rabs (th * B2R d) <= 165). { rewrite Rabs_mult, (Rabs_pos_eq th) by lra. pose proof (Rabs_pos (B2R d)). nra. } apply Rabs_le_inv in Td.
  destruct (bmul_near t (bof (Z.of_nat i)) 167 Fq Fi ltac:(lra)) as [Fp Np]. { rewrite Vi. apply Rabs_le. lra. }
  rewrite Vi in Np. fold v in Np. set (p := Bmult mode_NE t (bof (Z.of_nat i))) in *. apply Rabs_le_inv in Np.
  destruct (badd_near l1 p 256 G1 Fp ltac:(lra)) as [Fy Ny]. { apply Rabs_le. lra. }
  fold v in Ny. set (y := Bplus mode_NE l1 p) in *. apply Rabs_le_inv in Ny.
  assert (Tdd : Rabs (th * B2R d - th * (a1 - a0)) <= 510 * v).
  { rewrite <- Rmult_minus_distr_l, Rabs_mult, (Rabs_pos_eq th) by lra. assert (Rabs (B2R d - (a1 - a0)) <= 510 * v) by (apply Rabs_le; lra). pose proof (Rabs_pos (B2R d - (a1 - a0))). nra. }
  apply Rabs_le_inv in Tdd.
  assert (Y : Rabs (B2R y - lam) <= 1300 * v). { unfold lam. apply Rabs_le. lra. }
  assert (La : a0 <= lam <= a1).
  { assert (X1 : 0 <= th * (a1 - a0)) by (apply Rmult_le_pos; lra). assert (X2 : th * (a1 - a0) <= 1 * (a1 - a0)) by (apply Rmult_le_compat_r; lra).
    unfold lam. clear - X1 X2. lra. }
  pose proof (Rabs_le_inv _ _ Y) as Y'.
  destruct (HE y Fy) as [Fe Ne]. { apply Rabs_le. lra. }
  assert (Ee : e = l_exp L y).
  { unfold e, create_logspace_array. change (bof 0) with (@nof (B64 L) 0).
    set (f := fun i : nat => @nexp (B64 L) (@nadd (B64 L) (@nlog (B64 L) (@ndiv (B64 L) b h)) (@nmul (B64 L) (@ndiv (B64 L) (@nsub (B64 L) (@nlog (B64 L) (@nmul (B64 L) b h)) (@nlog (B64 L) (@ndiv (B64 L) b h))) (@nof (B64 L) (m - 1))) (@nof (B64 L) (Z.of_nat i))))).
    match goal with |- nth i ?l _ = _ => change l with (map f (seq 0 (Z.to_nat m))) end.
    rewrite (nth_indep _ _ (f 0%nat)) by (rewrite map_length, seq_length; lia). rewrite map_nth, seq_nth by lia. reflexivity. }
  rewrite Ee. split; [exact Fe|]. unfold Rdiv in Ne. assert (V51 : / 2 ^ 51 = 4 * v). { unfold v. change (2 ^ 53) with (2 * (2 * 2 ^ 51)). field. } rewrite V51 in Ne.
  destruct (exp_near_R (B2R y) lam (1300 * v) (4 * v) (B2R (l_exp L y)) ltac:(lra) ltac:(lra) Y Ne) as [Z1 Z2]. pose proof (exp_pos lam).
  split; [eapply Rle_trans; [|exact Z1]|eapply Rle_trans; [exact Z2|]]; apply Rmult_le_compat_l; lra.
Qed.

Lemma arr_len : forall b h m, length (arr b h m) = Z.to_nat m.
Proof. intros. unfold create_logspace_array. rewrite map_length, seq_length. reflexivity. Qed.

Lemma arr_range : forall (b h : b64) m, is_finite b = true -> is_finite h = true -> / 2 ^ 62 <= B2R b <= 2 ^ 62 -> 1 <= B2R h <= 2 ^ 20 -> (2 <= m <= 2 ^ 31)%Z ->
  (forall x : b64, In x (arr b h m) -> is_finite x = true /\ B2R b / B2R h * (1 - dl) <= B2R x <= B2R b * B2R h * (1 + dl)) /\
  (is_finite (nth 0 (arr b h m) (bof 0) : b64) = true /\ B2R (nth 0 (arr b h m) (bof 0) : b64) <= B2R b / B2R h * (1 + dl)) /\
  (is_finite (nth (Z.to_nat (m - 1)) (arr b h m) (bof 0) : b64) = true /\ B2R b * B2R h * (1 - dl) <= B2R (nth (Z.to_nat (m - 1)) (arr b h m) (bof 0) : b64)).
Proof.
  intros b h m Fb Fh Hb Hh Hm. assert (P62 : 0 < / 2 ^ 62) by (apply Rinv_0_lt_compat, pow_lt; lra).
  assert (Pd : 0 < B2R b / B2R h) by (apply Rdiv_lt_0_compat; lra). assert (Pm : 0 < B2R b * B2R h) by (apply Rmult_lt_0_compat; lra).
  assert (Q : / B2R h <= 1) by (rewrite <- Rinv_1; apply Rinv_le_contravar; lra).
  assert (O : ln (B2R b / B2R h) <= ln (B2R b * B2R h)).
  { assert (Y : B2R b / B2R h <= B2R b * B2R h). { apply Rmult_le_compat_l; lra. } destruct Y as [Y| ->]; [left; apply ln_increasing; lra|right; reflexivity]. }
  assert (D : 0 < dl < 1). { assert (0 < dl) by (apply Rinv_0_lt_compat, pow_lt; lra). split; auto. rewrite <- Rinv_1. apply Rinv_lt_contravar; [|apply Rlt_pow_R1; [lra|lia]]. rewrite Rmult_1_l. apply pow_lt. lra. }
  assert (P1 : 1 <= IZR (m - 1)) by (apply IZR_le; lia).
  split; [|split].
  - intros x Hx. destruct (In_nth _ _ (bof 0) Hx) as [i [Hi Ex]]. rewrite arr_len in Hi. destruct (arr_64 b h m i Fb Fh Hb Hh Hm ltac:(lia)) as [F R]. cbv zeta in R.
    assert (Fx : is_finite x = true) by (rewrite <- Ex; exact F). split; [exact Fx|]. set (bx := B2R x). set (ex := B2R (nth i (arr b h m) (bof 0) : b64)) in R.
    assert (Ebx : ex = bx) by (unfold bx; rewrite <- Ex; reflexivity). rewrite Ebx in R. clear ex Ebx. set (th := IZR (Z.of_nat i) / IZR (m - 1)) in *.
    assert (Th : 0 <= th <= 1).
    { unfold th. split; [apply Rmult_le_pos; [apply IZR_le; lia|left; apply Rinv_0_lt_compat; lra]|].
      apply (Rmult_le_reg_r (IZR (m - 1))); [lra|]. unfold Rdiv. rewrite Rmult_assoc, Rinv_l, Rmult_1_r by lra. rewrite Rmult_1_l. apply IZR_le. lia. }
    set (a0 := ln (B2R b / B2R h)) in *. set (a1 := ln (B2R b * B2R h)) in *.
    assert (X1 : 0 <= th * (a1 - a0)) by (apply Rmult_le_pos; lra). assert (X2 : th * (a1 - a0) <= 1 * (a1 - a0)) by (apply Rmult_le_compat_r; lra).
    assert (Y1 : B2R b / B2R h <= exp (a0 + th * (a1 - a0))). { rewrite <- (exp_ln _ Pd). fold a0. apply exp_mono. lra. }
    assert (Y2 : exp (a0 + th * (a1 - a0)) <= B2R b * B2R h). { rewrite <- (exp_ln _ Pm). fold a1. apply exp_mono. lra. }
    set (ee := exp (a0 + th * (a1 - a0))) in *. clearbody ee.
    assert (B2R b / B2R h * (1 - dl) <= ee * (1 - dl)) by (apply Rmult_le_compat_r; lra).
    assert (ee * (1 + dl) <= B2R b * B2R h * (1 + dl)) by (apply Rmult_le_compat_r; lra). lra.
  - destruct (arr_64 b h m 0 Fb Fh Hb Hh Hm ltac:(lia)) as [F R]. cbv zeta in R. split; [exact F|]. change (IZR (Z.of_nat 0)) with 0 in R.
    replace (ln (B2R b / B2R h) + 0 / IZR (m - 1) * (ln (B2R b * B2R h) - ln (B2R b / B2R h))) with (ln (B2R b / B2R h)) in R by (field; lra).
    rewrite exp_ln in R by exact Pd. apply R.
  - destruct (arr_64 b h m (Z.to_nat (m - 1)) Fb Fh Hb Hh Hm ltac:(lia)) as [F R]. cbv zeta in R. split; [exact F|]. rewrite Z2Nat.id in R by lia.
    replace (ln (B2R b / B2R h) + IZR (m - 1) / IZR (m - 1) * (ln (B2R b * B2R h) - ln (B2R b / B2R h))) with (ln (B2R b * B2R h)) in R by (field; lra).
    rewrite exp_ln in R by exact Pm. apply R.
Qed.

(** ** the candidates after check_bounceInside_sigma_boundary *)
Variables (C : Cfg (B64 L)) (U : User (B64 L)) (m : Z) (ip : Z).
Hypothesis Hm : (2 <= m <= 2 ^ 31)%Z.
Notation lo := (nth (Z.to_nat ip) (u_sigmin U) (bof 0) : b64).
Notation hi := (nth (Z.to_nat ip) (u_sigmax U) (bof 0) : b64).
Notation J := (sigma_jumpin_ratio C : b64).

Lemma bounce_cases64 : forall ar out, check_bounce C U m ar ip = OK out ->
  let q : b64 := Bsqrt mode_NE J in
  let ar1 := if Bltb (nth 0 ar (bof 0)) lo then arr (Bmult mode_NE lo q) q m else ar in
  out = if Bltb hi (nth (Z.to_nat (m - 1)) ar1 (bof 0)) then arr (Bdiv mode_NE hi q) q m else ar1.
Proof.
  intros ar out H q ar1. unfold check_bounce in H.
  assert (Z : forall (l : list b64) i v, zget l i = OK v -> v = nth (Z.to_nat i) l (bof 0)).
  { intros l i v Hz. apply zget_ok_inv in Hz. destruct Hz as [_ Hz]. symmetry. apply nth_error_nth. exact Hz. }
  change (num (B64 L)) with b64 in *. rinv.
  apply Z in E, E0, E1, E2. subst. reflexivity.
Qed.

Definition inw (x : b64) : Prop := is_finite x = true /\ B2R lo * (1 - 4 * dl) <= B2R x <= B2R hi * (1 + 4 * dl).

Lemma bounce_64 : is_finite lo = true -> is_finite hi = true -> is_finite J = true ->
  / 2 ^ 60 <= B2R lo -> B2R hi <= 2 ^ 60 -> 1 <= B2R J <= 2 ^ 20 -> B2R lo * B2R J <= B2R hi ->
  forall (b h : b64) out, inw b -> is_finite h = true -> 1 <= B2R h <= 2 ^ 20 -> check_bounce C U m (arr b h m) ip = OK out ->
  forall x, In x out -> inw x.
Proof.
  intros Fl Fh FJ Hl Hh HJ HR b h out [Fb Hb] Fhh Hhh H x Hx. apply bounce_cases64 in H. cbv zeta in H.
  pose proof u53_pos as V. assert (D : 0 < dl <= / 1000000000). { rewrite dl_v. lra. } assert (DV : dl = 8192 * u53) by exact dl_v.
  assert (P60 : 0 < / 2 ^ 60) by (apply Rinv_0_lt_compat, pow_lt; lra).
  assert (L60 : / 2 ^ 62 = / 2 ^ 60 / 4). { change (2 ^ 62) with (2 * (2 * 2 ^ 60)). field. }
  assert (H60 : 2 ^ 62 = 4 * 2 ^ 60) by (change (2 ^ 62) with (2 * (2 * 2 ^ 60)); ring).
  assert (G60 : 0 < 2 ^ 60) by (apply pow_lt; lra).
  (* the square root *)
  set (q := Bsqrt mode_NE J) in *. destruct (Bsqrt_correct prec emax _ _ mode_NE J) as [Vq [Fq _]].
  fold q in Vq, Fq. assert (Fq' : is_finite q = true).
  { rewrite Fq. assert (PJ : 0 < B2R J) by lra. revert FJ PJ. generalize J. intros [s|s| |s mm e He]; try discriminate; auto. destruct s; auto. intros _ N. exfalso.
    assert (B2R (B754_finite true mm e He) < 0). { apply F2R_lt_0. cbn. lia. } lra. }
  change (Generic_fmt.round radix2 (SpecFloat.fexp prec emax) (round_mode mode_NE) (sqrt (B2R J))) with (rnd (sqrt (B2R J))) in Vq.
  set (sj := sqrt (B2R J)) in *. assert (Sj : sj * sj = B2R J) by (apply sqrt_sqrt; lra).
  assert (Sj1 : 1 <= sj). { unfold sj. rewrite <- sqrt_1. apply sqrt_le_1; lra. }
  assert (Sj2 : sj <= B2R J) by (rewrite <- Sj; nra).
  destruct (rnd_ex sj) as [eq [Aq Rq]]. { apply Rle_trans with 1; [|lra]. change 1 with (bp 0). apply bpow_le. lia. }
  assert (Q1 : 1 <= B2R q). { rewrite Vq. apply rnd_ge_fmt; [apply (fmt_IZR 1); cbv; discriminate|exact Sj1]. }
  assert (Q2 : B2R q <= B2R J). { rewrite Vq. apply rnd_le_fmt; [apply fmt_B2R|exact Sj2]. }
  rewrite Rq in Vq. apply Rabs_le_inv in Aq. clear Rq Fq.
  set (l := B2R lo) in *. set (u := B2R hi) in *. set (jj := B2R J) in *. set (qq := B2R q) in *.
  assert (QQ : qq * qq <= jj * (1 + 3 * u53)). { rewrite Vq, <- Sj. replace (sj * (1 + eq) * (sj * (1 + eq))) with (sj * sj * ((1 + eq) * (1 + eq))) by ring. apply Rmult_le_compat_l; nra. }
  assert (Ql : l * qq <= u) by (apply Rle_trans with (l * jj); [apply Rmult_le_compat_l; lra|lra]). assert (lq0 : l * 1 <= l * qq) by (apply Rmult_le_compat_l; lra). assert (lu : l <= u) by lra.
  (* the array starting at lo *)
  assert (B1 : bp (-1000) <= / 2 ^ 60). { assert (E : bp 60 = 2 ^ 60) by (rewrite <- IZR_Zpower by lia; change (Zpower radix2 60) with (Z.pow 2 (Z.of_nat 60)); rewrite <- pow_IZR; reflexivity). rewrite <- E, <- bpow_opp. apply bpow_le. lia. }
  assert (B61 : 2 ^ 60 = bp 60). { rewrite <- IZR_Zpower by lia. change (Zpower radix2 60) with (Z.pow 2 (Z.of_nat 60)). rewrite <- pow_IZR. reflexivity. }
  assert (lq1 : / 2 ^ 60 <= l * qq) by lra.
  destruct (bmult_ok lo q Fl Fq') as [V1 F1]. { fold l qq. apply (rnd_small _ 60); [lia|]. rewrite <- B61, Rabs_pos_eq; lra. }
  fold l qq in V1. destruct (rnd_ex (l * qq) ltac:(lra)) as [e1 [A1 R1]]. rewrite R1 in V1. apply Rabs_le_inv in A1.
  set (b1 := Bmult mode_NE lo q) in *. assert (K1 : B2R b1 / qq = l * (1 + e1)) by (rewrite V1; field; lra).
  assert (Hb1 : / 2 ^ 62 <= B2R b1 <= 2 ^ 62). { pose proof (near2 (l * qq) e1 ltac:(lra) A1) as N. rewrite V1. clear - N lq1 Ql Hh L60 H60 G60 P60. lra. }
  destruct (arr_range b1 q m F1 Fq' Hb1 ltac:(fold qq; lra) Hm) as [X1 [_ Z1]]. fold qq in X1, Z1. rewrite K1 in X1.
  (* the array ending at hi *)
  assert (uq : l * (1 - 4 * u53) <= u / qq / qq).
  { apply (Rmult_le_reg_r (qq * qq)); [nra|]. replace (u / qq / qq * (qq * qq)) with u by (field; lra).
    apply Rle_trans with (l * (1 - 4 * u53) * (jj * (1 + 3 * u53))); [apply Rmult_le_compat_l; [nra|exact QQ]|].
    replace (l * (1 - 4 * u53) * (jj * (1 + 3 * u53))) with (l * jj * ((1 - 4 * u53) * (1 + 3 * u53))) by ring.
    apply Rle_trans with (l * jj * 1); [|lra]. apply Rmult_le_compat_l; [apply Rmult_le_pos; lra|]. nra. }
  assert (uq2 : l * (1 - 4 * u53) <= u / qq). { apply Rle_trans with (u / qq / qq); [exact uq|]. unfold Rdiv at 1. apply Rle_trans with (u / qq * 1); [|lra].
    apply Rmult_le_compat_l; [apply Rmult_le_pos; [lra|left; apply Rinv_0_lt_compat; lra]|rewrite <- Rinv_1; apply Rinv_le_contravar; lra]. }
  assert (uq3 : u / qq <= u). { unfold Rdiv. apply Rle_trans with (u * 1); [|lra]. apply Rmult_le_compat_l; [lra|rewrite <- Rinv_1; apply Rinv_le_contravar; lra]. }
  assert (uq4 : / 2 ^ 60 / 2 <= u / qq). { eapply Rle_trans; [|exact uq2]. apply Rle_trans with (l * / 2); [lra|apply Rmult_le_compat_l; lra]. }
  assert (B2 : bp (-1000) <= / 2 ^ 60 / 2). { rewrite B61, <- bpow_opp. replace (/ 2) with (bp (-1)) by reflexivity. unfold Rdiv. replace (/ 2) with (bp (-1)) by reflexivity. rewrite <- bpow_plus. apply bpow_le. lia. }
  destruct (bdiv_ok hi q Fh ltac:(fold qq; lra)) as [V2 F2]. { fold u qq. apply (rnd_small _ 60); [lia|]. rewrite <- B61, Rabs_pos_eq; lra. }
  fold u qq in V2. destruct (rnd_ex (u / qq) ltac:(lra)) as [e2 [A2 R2]]. rewrite R2 in V2. apply Rabs_le_inv in A2.
  set (b2 := Bdiv mode_NE hi q) in *. assert (K2 : B2R b2 / qq = u / qq / qq * (1 + e2)) by (rewrite V2; field; lra).
  assert (K3 : B2R b2 * qq = u * (1 + e2)) by (rewrite V2; field; lra).
  assert (Hb2 : / 2 ^ 62 <= B2R b2 <= 2 ^ 62). { pose proof (near2 (u / qq) e2 ltac:(lra) A2) as N. rewrite V2. clear - N uq3 uq4 Hh L60 H60 G60 P60. lra. }
  destruct (arr_range b2 q m F2 Fq' Hb2 ltac:(fold qq; lra) Hm) as [X2 _]. fold qq in X2. rewrite K2, K3 in X2.
  (* the array kept *)
  assert (Hb0 : / 2 ^ 62 <= B2R b <= 2 ^ 62).
  { fold l u in Hb. assert (W1 : l * / 2 <= l * (1 - 4 * dl)) by (apply Rmult_le_compat_l; lra). assert (W2 : u * (1 + 4 * dl) <= u * 2) by (apply Rmult_le_compat_l; lra).
    clear - Hb W1 W2 Hl Hh L60 H60 P60 G60. lra. }
  destruct (arr_range b h m Fb Fhh Hb0 Hhh Hm) as [X0 [Y0 Z0]]. fold l u in Hb.
  set (ar1 := if Bltb (nth 0 (arr b h m) (bof 0)) lo then arr b1 q m else arr b h m) in *.
  assert (K : exists T, 0 < T /\ (forall y : b64, In y ar1 -> is_finite y = true /\ l * (1 - 4 * dl) <= B2R y <= T * (1 + dl)) /\
     is_finite (nth (Z.to_nat (m - 1)) ar1 (bof 0) : b64) = true /\ T * (1 - dl) <= B2R (nth (Z.to_nat (m - 1)) ar1 (bof 0) : b64)).
  { unfold ar1. destruct (Bltb (nth 0 (arr b h m) (bof 0)) lo) eqn:E.
    - exists (B2R b1 * qq). split; [apply Rmult_lt_0_compat; lra|]. split; [|exact Z1]. intros y Hy. destruct (X1 y Hy) as [Fy Ry]. split; [exact Fy|]. split; [|apply Ry].
      eapply Rle_trans; [|apply Ry]. rewrite Rmult_assoc. apply Rmult_le_compat_l; [lra|]. rewrite DV. clear - V A1 A2. nra.
    - exists (B2R b * B2R h). split; [apply Rmult_lt_0_compat; lra|]. split; [|exact Z0]. intros y Hy. destruct (X0 y Hy) as [Fy Ry]. split; [exact Fy|]. split; [|apply Ry].
      eapply Rle_trans; [|apply Ry]. destruct Y0 as [Fn Rn]. apply Bltb_false in E; [|assumption|assumption]. fold l in E.
      set (w := B2R b / B2R h) in *. assert (W : l <= w * (1 + dl)) by lra. assert (0 < w) by (apply Rdiv_lt_0_compat; lra).
      apply Rle_trans with (w * (1 + dl) * (1 - 4 * dl)); [apply Rmult_le_compat_r; lra|]. rewrite Rmult_assoc. apply Rmult_le_compat_l; [lra|]. nra. }
  destruct K as [T [PT [KX [KF KL]]]].
  unfold inw. fold l u. destruct (Bltb hi (nth (Z.to_nat (m - 1)) ar1 (bof 0))) eqn:E; subst out.
  - destruct (X2 x Hx) as [Fx Rx]. split; [exact Fx|]. split.
    + eapply Rle_trans; [|apply Rx]. apply Rle_trans with (l * (1 - 4 * u53) * (1 + e2) * (1 - dl)).
      * rewrite !Rmult_assoc. apply Rmult_le_compat_l; [lra|]. rewrite DV. clear - V A1 A2. nra.
      * apply Rmult_le_compat_r; [lra|]. apply Rmult_le_compat_r; lra.
    + eapply Rle_trans; [apply Rx|]. rewrite Rmult_assoc. apply Rmult_le_compat_l; [lra|]. rewrite DV. clear - V A1 A2. nra.
  - destruct (KX x Hx) as [Fx Rx]. split; [exact Fx|]. split; [apply Rx|]. eapply Rle_trans; [apply Rx|].
    apply Bltb_false in E; [|assumption|assumption]. fold u in E. assert (W : T * (1 - dl) <= u) by lra.
    apply Rle_trans with (T * (1 - dl) * (1 + 4 * dl)); [|apply Rmult_le_compat_r; lra]. rewrite Rmult_assoc. apply Rmult_le_compat_l; [lra|]. nra.
Qed.
End Array.

(** ** along a run *)
Section Run.
Context {A : Arith}.
Variable S : Setup A.
Hypothesis HL : Legal S.
Notation C := (s_cfg S). Notation U := (s_user S). Notation n := (s_n S).
Variable W : Z -> num A -> Prop.
Definition inside (row : list (num A)) : Prop := forall p, (0 <= p < N_parm C)%Z -> W p (nth (Z.to_nat p) row (nof 0)).
Hypothesis Hc : forall row p, inside row -> (0 <= p < N_parm C)%Z -> forall out,
  check_bounce C U (zn n) (create_logspace_array (nth (Z.to_nat p) row (nof 0)) (sigma_scale_half_ratio C) (zn n)) p = OK out -> forall x, In x out -> W p x.
Variable good : num A -> Prop.
Hypothesis Hg : comparable good.
Hypothesis Hr : rates_ok C good.
Hypothesis Hgp : inside (u_gp U).

Lemma post_inside : forall D G0 h Gf, history S D G0 h Gf -> forall s, In s h ->
  (forall r, (r < n)%nat -> inside (sigt_at (sr_in s) r)) -> forall r, (r < n)%nat -> inside (sigt_at (sr_post s) r).
Proof.
  intros D G0 h Gf HH s Hs HI r Hrn. destruct (stack_tuned S HL D _ _ _ HH s Hs r Hrn) as [K1 K2].
  pose proof HL as [_ [VC _]].
  assert (Dec : tuned_in S s r \/ ~ tuned_in S s r).
  { unfold tuned_in. destruct (nltb (ar_ok_lower C) (rate_of s r)), (nltb (rate_of s r) (ar_ok_upper C)).
    1: right; intros [_ [_ [_ T]]]; auto.
    all: destruct (Z_lt_dec (N_begintune C) (sr_end s)), (Z_lt_dec (sr_end s) (N_stoptune C)), (Z_lt_dec (sr_end s) (N_iter C));
      try (right; intros [? [? [? ?]]]; contradiction); left; repeat split; auto; intros [? ?]; discriminate. }
  destruct Dec as [T|T].
  - destruct (K2 T _ Hg Hr) as [al [ars [HC [_ HO]]]].
    assert (CR : forall p j, (0 <= p < N_parm C)%Z -> (0 <= j < Z.of_nat n)%Z -> W p (TuneSteps.cell (A := A) al p j)).
    { intros p j Hp Hj. destruct HC as [_ HC]. destruct (HC p Hp) as [L1 HB]. apply (Hc _ p (HI r Hrn) Hp _ HB). unfold TuneSteps.cell. apply nth_In. lia. }
    destruct HO as [[p [j [Hp [Hj [-> _]]]]]|[_ [->|[_ HO]]]].
    + intros q Hq. destruct (Z.eq_dec q p) as [->|Hne].
      * assert (Lrow : length (sigt_at (sr_in s) r) = Z.to_nat (N_parm C)).
        { destruct (history_count S HL _ _ _ _ HH) as [_ [F _]]. rewrite Forall_forall in F.
          destruct (F s Hs) as [_ [_ [_ [_ [Wi _]]]]]. pose proof (wf_sigrow _ _ _ Wi (sigt_at (sr_in s) r)) as Q.
          unfold haslen in Q. unfold sigt_at in *. rewrite <- Q, Nat2Z.id; auto. apply nth_In. rewrite (wf_sigt _ _ _ Wi). auto. }
        rewrite nth_lset_eq by (rewrite Lrow; lia). apply CR; auto.
      * rewrite nth_lset_ne by lia. apply HI; auto.
    + exact Hgp.
    + intros q Hq. destruct (HO q Hq) as [j [Hj [E _]]]. rewrite E. apply CR; auto.
  - rewrite (K1 T). apply HI; auto.
Qed.

Lemma run_inside : forall D G0 h Gf, history S D G0 h Gf ->
  (forall G, In G (states G0 h Gf) -> forall r, (r < n)%nat -> inside (sigt_at G r)) /\
  (forall s, In s h -> forall b, In b (sr_batches s) -> forall r, (r < n)%nat -> inside (l_sig (loc_at (br_pre b) r))).
Proof.
  intros D G0 h Gf HH.
  pose proof (history_count S HL _ _ _ _ HH) as HC. destruct HC as [_ [_ [HF _]]].
  assert (H0 : forall r, (r < n)%nat -> inside (sigt_at G0 r)).
  { destruct HH as [_ [[lg HI] _]]. destruct (init_view S HL _ _ _ HI) as [_ [V _]]. intros r Hrn.
    destruct (V r Hrn) as [_ [_ [_ [-> _]]]]. exact Hgp. }
  assert (K : forall l i G, (forall s, In s l -> In s h) -> sfollow i G l Gf -> (forall r, (r < n)%nat -> inside (sigt_at G r)) ->
     (forall s, In s l -> forall r, (r < n)%nat -> inside (sigt_at (sr_in s) r)) /\ (forall r, (r < n)%nat -> inside (sigt_at Gf r))).
  { induction l as [|s l IH]; intros i G Hin HS HG; cbn [sfollow] in HS.
    - subst Gf. split; auto. intros s [].
    - destruct HS as [_ [E HS]]. subst G. destruct (IH _ _ (fun x Hx => Hin x (or_intror Hx)) HS) as [K1 K2].
      + eapply post_inside; eauto. apply Hin. left. reflexivity.
      + split; auto. intros t [<-|Ht]; auto. }
  destruct (K h _ _ (fun s Hs => Hs) HF H0) as [K1 K2].
  assert (KS : forall s, In s h -> forall G, In G (sstates s) -> forall r, (r < n)%nat -> inside (sigt_at G r)).
  { intros s Hs G HG r Hrn. unfold sstates in HG. cbn [In] in HG.
    assert (Z1 : (G = sr_pre s \/ In G (concat (map bstates (sr_batches s))) \/ G = sr_mid s \/ G = sr_lad s) -> inside (sigt_at G r)).
    { intros HZ. destruct (stack_widths S HL D _ _ _ HH s Hs G HZ) as [E _]. unfold sigt_at. rewrite E. apply K1; auto. }
    destruct HG as [<-|[<-|HG]]; [apply K1; auto|apply Z1; auto|].
    apply in_app_or in HG. destruct HG as [HG|[<-|[<-|[<-|[]]]]]; try (apply Z1; auto; fail).
    eapply post_inside; eauto. }
  split.
  - intros G HG r Hrn. unfold states in HG. cbn [In] in HG. destruct HG as [<-|HG]; auto.
    apply in_app_or in HG. destruct HG as [HG|[<-|[]]]; auto.
    apply in_concat in HG. destruct HG as [l [Hl HG]]. apply in_map_iff in Hl. destruct Hl as [s [<- Hs]]. eapply KS; eauto.
  - intros s Hs b Hb r Hrn.
    assert (Hin : In (br_pre b) (concat (map bstates (sr_batches s)))).
    { apply in_concat. exists (bstates b). split; [apply in_map; auto|left; auto]. }
    destruct (stack_widths S HL D _ _ _ HH s Hs (br_pre b) (or_intror (or_introl Hin))) as [_ Ww]. rewrite (Ww r Hrn). apply K1; auto.
Qed.
End Run.
