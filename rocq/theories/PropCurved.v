(** Property C97: the curved_likelihood model in binary64. *)
From Coq Require Import ZArith Arith List Bool Reals Lia Lra Psatz.
From Flocq Require Import Core Relative IEEE754.BinarySingleNaN.
From Verif Require Import Base Arith B64 Rand Mh Ladder Tune Mpi MpiMeta Spmd Prog Seq ListAux MhSpec SeqWf Refine
  SeqTotal System B64Facts RandRange Seeds UserModels Boundary Demo Runs SeqFiles History Views RunHist HistCount HistRows
  SwapLemmas SwapReal ChainInv Stale SwapMore Metro BoxRuns FailRuns Kepler Kepler64 Orb64 Decide64 PropKepler PropDecide PropSwap Reg64 PropReg PropEgg PropGauss.
Import ListNotations.
Open Scope R_scope.

(** The exponents of the two terms over the reals, and the exact log posterior at power beta (the log prior is the
    constant 0, curved_likelihood/user_prior.c:148). *)
Definition cv1 (v : list b64) : R := let a := B2R (nth 0 v (bof 0)) in let b := B2R (nth 1 v (bof 0)) in
  - (a * a) - (9 + 4 * (a * a) + 9 * b) * (9 + 4 * (a * a) + 9 * b).
Definition cv2 (v : list b64) : R := let a := B2R (nth 0 v (bof 0)) in let b := B2R (nth 1 v (bof 0)) in
  - 8 * (a * a) - 8 * ((b - 2) * (b - 2)).
Definition curved_exact (beta : R) (v : list b64) : R := beta * ln (exp (cv1 v) + / 2 * exp (cv2 v)).
(** inside the shipped ranges [-10, 10], and both exponents at most -747 *)
Definition curved_flat (v : list b64) : Prop :=
  (forall i, (i < 2)%nat -> is_finite (nth i v (bof 0)) = true /\ Rabs (B2R (nth i v (bof 0))) <= 10) /\ cv1 v <= -747 /\ cv2 v <= -747.
(** the library: exp is 0 up to -746, since half of the smallest double is exp(-745.1...), and log 0 is minus infinity *)
Definition exp_low (L : Libm) : Prop := forall x : b64, is_finite x = true -> B2R x <= -746 -> l_exp L x = B754_zero false.
Definition log_zero (L : Libm) : Prop := l_log L (B754_zero false) = B754_infinity true.

Local Notation w := (/ 1073741824).
Lemma bplus_err : forall (x y : b64) k, (-1021 <= k <= 1000)%Z -> is_finite x = true -> is_finite y = true -> Rabs (B2R x + B2R y) <= bp k ->
  is_finite (Bplus mode_NE x y) = true /\ Rabs (B2R (Bplus mode_NE x y) - (B2R x + B2R y)) <= bp (k - 54).
Proof.
  intros x y k Hk Fx Fy H. destruct (bplus_ok x y Fx Fy (rnd_small _ k Hk H)) as [V F]. split; [auto|]. rewrite V. apply rnd_err; auto; lia.
Qed.
(** the square of a double near s *)
Lemma sqw : forall L, sq_near L -> forall (x : b64) s K, is_finite x = true -> Rabs s <= K -> 1 <= K <= 512 -> Rabs (B2R x - s) <= 16 * w ->
  is_finite (l_pow L x (bof 2)) = true /\ Rabs (B2R (l_pow L x (bof 2)) - s * s) <= 64 * K * w.
Proof.
  intros L HQ x s K F Hs HK Hx. apply Rabs_le_inv in Hs. apply Rabs_le_inv in Hx.
  assert (T : 0 <= bp (-1000) <= w) by (split; [apply bpow_ge_0|change w with (bp (-30)); apply bpow_le; lia]).
  assert (B300 : 1024 <= bp 300) by (change 1024 with (bp 10); apply bpow_le; lia).
  destruct (HQ x F ltac:(apply Rabs_le; lra)) as [Fp Ep]. split; [exact Fp|].
  replace (2 * u53) with (/ 4503599627370496) in Ep by lra. apply Rabs_le_inv in Ep.
  assert (M1 : - (16 * w * (3 * K)) <= (B2R x - s) * (B2R x + s) <= 16 * w * (3 * K)) by (apply mul_in; lra).
  assert (M2 : - ((2 * K) * 1024) <= B2R x * B2R x <= (2 * K) * 1024) by (apply mul_in; lra).
  replace ((B2R x - s) * (B2R x + s)) with (B2R x * B2R x - s * s) in M1 by ring.
  apply Rabs_le. lra.
Qed.

Lemma curved_args : forall L, sq_near L -> forall a b : b64, is_finite a = true -> is_finite b = true -> Rabs (B2R a) <= 10 -> Rabs (B2R b) <= 10 ->
  let sa := l_pow L a (bof 2) in
  let e1 := Bminus mode_NE (Bopp sa) (l_pow L (Bplus mode_NE (Bplus mode_NE (bof 9) (Bmult mode_NE (bof 4) sa)) (Bmult mode_NE (bof 9) b)) (bof 2)) in
  let e2 := Bminus mode_NE (Bmult mode_NE (Bopp (bof 8)) sa) (Bmult mode_NE (bof 8) (l_pow L (Bminus mode_NE b (bof 2)) (bof 2))) in
  (is_finite e1 = true /\ Rabs (B2R e1 - (- (B2R a * B2R a) - (9 + 4 * (B2R a * B2R a) + 9 * B2R b) * (9 + 4 * (B2R a * B2R a) + 9 * B2R b))) <= 1) /\
  (is_finite e2 = true /\ Rabs (B2R e2 - (- 8 * (B2R a * B2R a) - 8 * ((B2R b - 2) * (B2R b - 2)))) <= 1).
Proof.
  intros L HQ a b Fa Fb Ha Hb. cbv zeta.
  destruct (bof_ok 9 ltac:(lia)) as [V9 F9]. destruct (bof_ok 4 ltac:(lia)) as [V4 F4]. destruct (bof_ok 8 ltac:(lia)) as [V8 F8]. destruct (bof_ok 2 ltac:(lia)) as [V2 F2].
  destruct (HQ a Fa) as [Fs Es]; [eapply Rle_trans; [exact Ha|]; apply Rle_trans with (bp 10); [change (bp 10) with 1024; lra|apply bpow_le; lia]|].
  replace (2 * u53) with (/ 4503599627370496) in Es by lra. apply Rabs_le_inv in Es. apply Rabs_le_inv in Ha. apply Rabs_le_inv in Hb.
  assert (T : 0 <= bp (-1000) <= w / 1024) by (split; [apply bpow_ge_0|replace (w / 1024) with (bp (-40)) by (change (bp (-40)) with (/ 1099511627776); lra); apply bpow_le; lia]).
  assert (A0 : 0 <= B2R a * B2R a) by apply Rle_0_sqr. assert (A1 : - (10 * 10) <= B2R a * B2R a <= 10 * 10) by (apply mul_in; lra).
  set (A := B2R a * B2R a) in *. set (sa := l_pow L a (bof 2)) in *. set (B := B2R b) in *.
  assert (S1 : - (w / 512) <= B2R sa - A <= w / 512) by lra.
  destruct (bmult_err (bof 4) sa 9) as [Fm Em]; [lia|auto|auto|rewrite V4; change (bp 9) with 512; apply Rabs_le; lra|].
  rewrite V4 in Em. change (bp (9 - 54)) with (/ 35184372088832) in Em. apply Rabs_le_inv in Em. set (m := Bmult mode_NE (bof 4) sa) in *.
  destruct (bplus_err (bof 9) m 9) as [Fn En]; [lia|auto|auto|rewrite V9; change (bp 9) with 512; apply Rabs_le; lra|].
  rewrite V9 in En. change (bp (9 - 54)) with (/ 35184372088832) in En. apply Rabs_le_inv in En. set (n := Bplus mode_NE (bof 9) m) in *.
  destruct (bmult_err (bof 9) b 7) as [Fo Eo]; [lia|auto|auto|rewrite V9; fold B; change (bp 7) with 128; apply Rabs_le; lra|].
  rewrite V9 in Eo. fold B in Eo. change (bp (7 - 54)) with (/ 140737488355328) in Eo. apply Rabs_le_inv in Eo. set (o := Bmult mode_NE (bof 9) b) in *.
  destruct (bplus_err n o 9) as [Fp Ep]; [lia|auto|auto|change (bp 9) with 512; apply Rabs_le; lra|].
  change (bp (9 - 54)) with (/ 35184372088832) in Ep. apply Rabs_le_inv in Ep. set (p := Bplus mode_NE n o) in *.
  set (s := 9 + 4 * A + 9 * B).
  destruct (sqw L HQ p s 500 Fp) as [Fq Eq]; [unfold s; apply Rabs_le; lra|lra|unfold s; apply Rabs_le; lra|].
  apply Rabs_le_inv in Eq. set (q := l_pow L p (bof 2)) in *.
  assert (SS : - (500 * 500) <= s * s <= 500 * 500) by (apply mul_in; unfold s; lra). set (ss := s * s) in *.
  destruct (bminus_err (Bopp sa) q 18) as [Fe Ee]; [lia|rewrite is_finite_Bopp; auto|auto|rewrite B2R_Bopp; change (bp 18) with 262144; apply Rabs_le; lra|].
  rewrite B2R_Bopp in Ee. change (bp (18 - 54)) with (/ 68719476736) in Ee. apply Rabs_le_inv in Ee.
  destruct (bminus_err b (bof 2) 4) as [Fd Ed]; [lia|auto|auto|rewrite V2; fold B; change (bp 4) with 16; apply Rabs_le; lra|].
  rewrite V2 in Ed. fold B in Ed. change (bp (4 - 54)) with (/ 1125899906842624) in Ed. set (d := Bminus mode_NE b (bof 2)) in *.
  destruct (sqw L HQ d (B - 2) 12 Fd) as [Ft Et]; [apply Rabs_le; lra|lra|lra|].
  apply Rabs_le_inv in Et. set (t := l_pow L d (bof 2)) in *.
  assert (TT : - (12 * 12) <= (B - 2) * (B - 2) <= 12 * 12) by (apply mul_in; lra). set (tt := (B - 2) * (B - 2)) in *.
  destruct (bmult_err (bof 8) t 11) as [Fu Eu]; [lia|auto|auto|rewrite V8; change (bp 11) with 2048; apply Rabs_le; lra|].
  rewrite V8 in Eu. change (bp (11 - 54)) with (/ 8796093022208) in Eu. apply Rabs_le_inv in Eu. set (u := Bmult mode_NE (bof 8) t) in *.
  destruct (bmult_err (Bopp (bof 8)) sa 10) as [Fx Ex]; [lia|rewrite is_finite_Bopp; auto|auto|rewrite B2R_Bopp, V8; change (bp 10) with 1024; apply Rabs_le; lra|].
  rewrite B2R_Bopp, V8 in Ex. change (bp (10 - 54)) with (/ 17592186044416) in Ex. apply Rabs_le_inv in Ex. set (x := Bmult mode_NE (Bopp (bof 8)) sa) in *.
  destruct (bminus_err x u 12) as [Fz Ez]; [lia|auto|auto|change (bp 12) with 4096; apply Rabs_le; lra|].
  change (bp (12 - 54)) with (/ 4398046511104) in Ez. apply Rabs_le_inv in Ez.
  split; (split; [assumption|apply Rabs_le; lra]).
Qed.

(** C97.  Where both exponents are at most -747 the code finds minus infinity for the log posterior, at every positive beta. *)
Theorem C97_flat : forall L, sq_near L -> exp_low L -> log_zero L ->
  forall ra rb gp smin smax (D : Data (B64 L)) (beta : b64), is_finite beta = true -> 0 < B2R beta ->
  forall v, curved_flat v -> logpost_at (@curved_user (B64 L) ra rb gp smin smax) D v beta = (B754_infinity true : b64).
Proof.
  intros L HQ HX HZ ra rb gp smin smax D beta Fb Hb v [G [H1 H2]].
  destruct (G 0%nat ltac:(lia)) as [Fa Ha]. destruct (G 1%nat ltac:(lia)) as [Fc Hc].
  destruct (curved_args L HQ _ _ Fa Fc Ha Hc) as [[F1 E1] [F2 E2]]. cbv zeta in F1, E1, F2, E2.
  unfold cv1 in H1. unfold cv2 in H2. cbv zeta in H1, H2. apply Rabs_le_inv in E1. apply Rabs_le_inv in E2.
  pose proof (HX _ F1 ltac:(lra)) as X1. pose proof (HX _ F2 ltac:(lra)) as X2.
  match type of X1 with ?l = _ => set (y1 := l) in * end. match type of X2 with ?l = _ => set (y2 := l) in * end.
  change (Bplus mode_NE (Bmult mode_NE (l_log L (Bplus mode_NE y1 (Bmult mode_NE (@half (B64 L)) y2))) beta) (bof 0) = (B754_infinity true : b64)).
  rewrite X1, X2.
  assert (HH : Bplus mode_NE (B754_zero false) (Bmult mode_NE (@half (B64 L) : b64) (B754_zero false)) = (B754_zero false : b64)) by (apply B2SF_inj; vm_compute; reflexivity).
  etransitivity; [apply (f_equal (fun z => Bplus mode_NE (Bmult mode_NE (l_log L z) beta) (bof 0)) HH)|].
  rewrite HZ. destruct beta as [sb|sb| |sb mb eb Bb]; try discriminate Fb; [cbn in Hb; lra|].
  destruct sb; [|reflexivity]. exfalso. change (0 < F2R (Float radix2 (Z.neg mb) eb)) in Hb. assert (F2R (Float radix2 (Z.neg mb) eb) < 0) by (apply F2R_lt_0; reflexivity). lra.
Qed.
Print Assumptions C97_flat.

(** So in every run no step of any chain leads to such a vector, whatever the draw. *)
Theorem C97_runs : forall L, LibmSpecial L -> sq_near L -> exp_low L -> log_zero L ->
  forall (S : Setup (B64 L)) ra rb gp smin smax, Legal S -> s_user S = @curved_user (B64 L) ra rb gp smin smax ->
  forall (D : Data (B64 L)) G0 h Gf, history S D G0 h Gf -> forall r, (r < s_n S)%nat -> forall b, In b (hbatches h) ->
  is_finite (beta_at (br_pre b) r : b64) = true -> 0 < B2R (beta_at (br_pre b) r : b64) ->
  exists rows bs, batch_walk S D r b rows bs /\
    Forall2 (fun (q : crow (B64 L)) acc => acc = true -> ~ curved_flat (r_parm q)) rows bs.
Proof.
  intros L HS HQ HX HZ S ra rb gp smin smax LG HU D G0 h Gf HH r Hr b Hb2 Fb Pb.
  destruct (history_walks S LG _ _ _ _ HH r Hr) as [xs [W _]].
  assert (Z : exists x, batch_walk S D r b (fst x) (snd x)).
  { clear - W Hb2. induction W as [|b' x bl xs Hw W IH]; [destruct Hb2|]. destruct Hb2 as [->|Hb2]; [exists x; exact Hw|auto]. }
  destruct Z as [[rows bs] K]. cbn [fst snd] in K. exists rows, bs. split; [exact K|]. destruct K as [K _].
  induction K as [|g p new0 g1 g2 q rows bs g' H Hok Hg H1 H2 H3 H4 Hw IH|g p new0 g1 q rows bs g' H Hok H1 H2 H3 H4 Hw IH].
  - constructor.
  - constructor; [|exact IH]. intros _ Hf. rewrite H1 in Hf. rewrite HU in Hf, Hok.
    rewrite (C97_flat L HQ HX HZ ra rb gp smin smax D _ Fb Pb _ Hf) in Hok. rewrite (refuse_neginf L HS) in Hok. discriminate.
  - constructor; [|exact IH]. discriminate.
Qed.
Print Assumptions C97_runs.

(** The exact log posterior is finite there, and the Metropolis rule for it would take such steps: of two such vectors in the
    shipped ranges the second has the higher exact posterior, so that a step to it is to be taken for every draw, and
    the code takes it for none. *)
Theorem C97_exact_refuted : exists v v', curved_flat v /\ curved_flat v' /\ curved_exact 1 v < curved_exact 1 v' /\
  Rmin 1 (exp (curved_exact 1 v' - curved_exact 1 v)) = 1 /\
  forall L, LibmSpecial L -> sq_near L -> exp_low L -> log_zero L -> forall ra rb gp smin smax (D : Data (B64 L)) g,
    let U := @curved_user (B64 L) ra rb gp smin smax in
    mh_ok (A := B64 L) (logpost_at U D v (bof 1)) (logpost_at U D v' (bof 1)) g = false.
Proof.
  exists [bof 10; bof 10], [bof 9; bof 10].
  destruct (bof_ok 10 ltac:(lia)) as [V10 F10]. destruct (bof_ok 9 ltac:(lia)) as [V9 F9].
  assert (G1 : curved_flat [bof 10; bof 10]).
  { split; [|unfold cv1, cv2; cbn [nth]; rewrite V10; split; lra]. intros i Hi. destruct i as [|[|]]; [| |lia]; cbn [nth]; rewrite V10, Rabs_pos_eq by lra; split; auto; lra. }
  assert (G2 : curved_flat [bof 9; bof 10]).
  { split; [|unfold cv1, cv2; cbn [nth]; rewrite V10, V9; split; lra]. intros i Hi. destruct i as [|[|]]; [| |lia]; cbn [nth]; rewrite ?V10, ?V9, Rabs_pos_eq by lra; split; auto; lra. }
  assert (LT : curved_exact 1 [bof 10; bof 10] < curved_exact 1 [bof 9; bof 10]).
  { unfold curved_exact. rewrite !Rmult_1_l.
    pose proof (exp_pos (cv1 [bof 10; bof 10])). pose proof (exp_pos (cv2 [bof 10; bof 10])).
    assert (exp (cv1 [bof 10; bof 10]) < exp (cv1 [bof 9; bof 10])) by (apply exp_increasing; unfold cv1; cbn [nth]; rewrite V10, V9; lra).
    assert (exp (cv2 [bof 10; bof 10]) < exp (cv2 [bof 9; bof 10])) by (apply exp_increasing; unfold cv2; cbn [nth]; rewrite V10, V9; lra).
    apply ln_increasing; lra. }
  split; [exact G1|]. split; [exact G2|]. split; [exact LT|]. split.
  - apply Rmin_left. rewrite <- exp_0 at 1. left. apply exp_increasing. lra.
  - intros L HS HQ HX HZ ra rb gp smin smax D g. cbv zeta. destruct (bof_ok 1 ltac:(lia)) as [V1 F1].
    rewrite (C97_flat L HQ HX HZ ra rb gp smin smax D (bof 1) F1 ltac:(rewrite V1; lra) _ G2). apply (refuse_neginf L HS).
Qed.
Print Assumptions C97_exact_refuted.

(** exp(-746) is below half of the smallest positive double: exp(745.9) >= 2^1075, from exp z >= 1 + z and ten squarings *)
Lemma sq_step : forall z c d, 0 <= c -> d <= c * c -> c <= exp z -> d <= exp (2 * z).
Proof. intros z c d Hc Hd H. replace (2 * z) with (z + z) by ring. rewrite exp_plus. eapply Rle_trans; [exact Hd|]. apply Rmult_le_compat; auto. Qed.
Lemma exp_two : 2 <= exp (7459 / 10750).
Proof.
  assert (H0 : (100067759811 / 100000000000) <= exp (7459 / 10750 / 1024)) by (eapply Rle_trans; [|left; apply exp_ineq1; lra]; lra).
  assert (H1 : (1001355655359 / 1000000000000) <= exp (7459 / 10750 / 512)) by (replace (7459 / 10750 / 512) with (2 * (7459 / 10750 / 1024)) by field; apply (sq_step _ (100067759811 / 100000000000)); [lra|lra|exact H0]).
  assert (H2 : (1002713148519 / 1000000000000) <= exp (7459 / 10750 / 256)) by (replace (7459 / 10750 / 256) with (2 * (7459 / 10750 / 512)) by field; apply (sq_step _ (1001355655359 / 1000000000000)); [lra|lra|exact H1]).
  assert (H3 : (251358414553 / 250000000000) <= exp (7459 / 10750 / 128)) by (replace (7459 / 10750 / 128) with (2 * (7459 / 10750 / 256)) by field; apply (sq_step _ (1002713148519 / 1000000000000)); [lra|lra|exact H2]).
  assert (H4 : (202179368213 / 200000000000) <= exp (7459 / 10750 / 64)) by (replace (7459 / 10750 / 64) with (2 * (7459 / 10750 / 128)) by field; apply (sq_step _ (251358414553 / 250000000000)); [lra|lra|exact H3]).
  assert (H5 : (40876496931 / 40000000000) <= exp (7459 / 10750 / 32)) by (replace (7459 / 10750 / 32) with (2 * (7459 / 10750 / 64)) by field; apply (sq_step _ (202179368213 / 200000000000)); [lra|lra|exact H4]).
  assert (H6 : (1044305000843 / 1000000000000) <= exp (7459 / 10750 / 16)) by (replace (7459 / 10750 / 16) with (2 * (7459 / 10750 / 32)) by field; apply (sq_step _ (40876496931 / 40000000000)); [lra|lra|exact H5]).
  assert (H7 : (218114586957 / 200000000000) <= exp (7459 / 10750 / 8)) by (replace (7459 / 10750 / 8) with (2 * (7459 / 10750 / 16)) by field; apply (sq_step _ (1044305000843 / 1000000000000)); [lra|lra|exact H6]).
  assert (H8 : (237869865217 / 200000000000) <= exp (7459 / 10750 / 4)) by (replace (7459 / 10750 / 4) with (2 * (7459 / 10750 / 8)) by field; apply (sq_step _ (218114586957 / 200000000000)); [lra|lra|exact H7]).
  assert (H9 : (707275909729 / 500000000000) <= exp (7459 / 10750 / 2)) by (replace (7459 / 10750 / 2) with (2 * (7459 / 10750 / 4)) by field; apply (sq_step _ (237869865217 / 200000000000)); [lra|lra|exact H8]).
  assert (H10 : (2000956849931 / 1000000000000) <= exp (7459 / 10750 / 1)) by (replace (7459 / 10750 / 1) with (2 * (7459 / 10750 / 2)) by field; apply (sq_step _ (707275909729 / 500000000000)); [lra|lra|exact H9]).
  replace (7459 / 10750 / 1) with (7459 / 10750) in H10 by field. lra.
Qed.
Lemma exp_two_pow : forall n, 2 ^ n <= exp (INR n * (7459 / 10750)).
Proof.
  induction n as [|n IH]; [rewrite Rmult_0_l, exp_0; cbn; lra|].
  rewrite S_INR, Rmult_plus_distr_r, Rmult_1_l, exp_plus. replace (2 ^ Datatypes.S n) with (2 ^ n * 2) by (cbn; ring).
  apply Rmult_le_compat; [apply pow_le; lra|lra|exact IH|exact exp_two].
Qed.

(** the library with correctly rounded functions meets the conditions *)
Example C97_case : let L := full_libm in LibmSpecial L /\ sq_near L /\ exp_low L /\ log_zero L /\
  exists S : Setup (B64 L), Legal S /\ s_user S = @curved_user (B64 L) egg_ra egg_ra (nlit 1 1) (nlit 5 10) (nlit 2 1) /\
    (exists (D : Data (B64 L)) G0 h Gf b, history S D G0 h Gf /\ In b (hbatches h)).
Proof.
  cbv zeta. set (L := full_libm). split; [exact full_special|]. split; [exact full_sq|]. split; [|split; [reflexivity|]].
  - intros x F H. assert (E : l_exp L x = to_b64 (exp (B2R x))) by (destruct x; try discriminate F; reflexivity). rewrite E.
    assert (XP : 0 < exp (B2R x) < bp (-1075)).
    { split; [apply exp_pos|]. apply Rlt_le_trans with (exp (- (INR 1075 * (7459 / 10750)))); [apply exp_increasing; rewrite INR_IZR_INZ; change (Z.of_nat 1075) with 1075%Z; lra|].
      rewrite exp_Ropp. change (-1075)%Z with (- Z.of_nat 1075)%Z. destruct (bp_pow 1075) as [_ ->]. apply Rinv_le_contravar; [apply pow_lt; lra|apply exp_two_pow]. }
    assert (CE : cexp radix2 fexp64 (exp (B2R x)) = (-1074)%Z).
    { unfold cexp. assert (mag radix2 (exp (B2R x)) <= -1075)%Z.
      { apply mag_le_bpow; [lra|]. rewrite Rabs_pos_eq by lra. apply XP. }
      unfold FLT_exp. change (Z.max (mag radix2 (exp (B2R x)) - 53) (-1074) = (-1074)%Z). lia. }
    unfold to_b64. assert (MZ : ZnearestE (scaled_mantissa radix2 fexp64 (exp (B2R x))) = 0%Z).
    { unfold scaled_mantissa. rewrite CE. apply Znearest_imp. rewrite Rminus_0_r.
      assert (P : 0 < exp (B2R x) * bp (- (-1074))) by (apply Rmult_lt_0_compat; [lra|apply bpow_gt_0]). rewrite Rabs_pos_eq by lra.
      apply Rlt_le_trans with (bp (-1075) * bp (- (-1074))); [apply Rmult_lt_compat_r; [apply bpow_gt_0|apply XP]|].
      rewrite <- bpow_plus. change (-1075 + - (-1074))%Z with (-1)%Z. change (bp (-1)) with (/ 2). lra. }
    rewrite MZ, CE. reflexivity.
  - set (S := mkSetup (egg_cfg L) (curved_user (A := B64 L) egg_ra egg_ra (nlit 1 1) (nlit 5 10) (nlit 2 1)) 3 (demo_env (B64 L)) 2).
    assert (HL : Legal S).
    { split; [apply RandOK_b64|]. destruct (egg_legal L) as [_ [V [_ VE]]]. split; [exact V|split; [apply val_valid; reflexivity|exact VE]]. }
    exists S. split; [exact HL|]. split; [reflexivity|].
    destruct (history_exists S HL) as [D [G0 [h [Gf HH]]]]. destruct (batch_exists S HL ltac:(reflexivity) _ _ _ _ HH) as [b Hb].
    exists D, G0, h, Gf, b. split; auto.
Qed.
