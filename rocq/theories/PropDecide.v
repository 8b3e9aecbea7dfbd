(** Property C88: binary64 decides like the reals. *)
From Coq Require Import ZArith Arith List Bool Reals Lia Lra.
From Flocq Require Import Core IEEE754.BinarySingleNaN.
From Verif Require Import Base Arith B64 Rand Mh Ladder Tune Mpi MpiMeta Spmd Prog Seq ListAux MhSpec SeqWf Refine
  SeqTotal System B64Facts RandRange Seeds UserModels Boundary Demo Runs SeqFiles History Views RunHist HistCount HistRows
  SwapLemmas SwapReal ChainInv Stale SwapMore Metro BoxRuns Kepler Kepler64 Decide64 PropKepler.
Import ListNotations.
Open Scope R_scope.

(** C88.  [exp_near L]: at finite arguments that are not positive the library's exp is finite and off by no
    more than 2^-50; [LibmSpecial L]: log 1 = 0, exp NaN = NaN, exp -inf = 0, as C99 requires.  Between two
    finite log-posteriors, whatever they are, the decision of the code in binary64 and the Metropolis rule over
    the reals differ for at most one of the 2^48 states of the generator. *)
Theorem C88_metropolis : forall L, LibmSpecial L -> exp_near L -> forall l l' : b64, is_finite l = true -> is_finite l' = true ->
  forall g1 g2, (0 <= g1 < RMOD)%Z -> (0 <= g2 < RMOD)%Z ->
  ~ (mh_ok (A := B64 L) l l' g1 = true <-> unif g1 < Rmin 1 (exp (B2R l' - B2R l))) ->
  ~ (mh_ok (A := B64 L) l l' g2 = true <-> unif g2 < Rmin 1 (exp (B2R l' - B2R l))) -> g1 = g2.
Proof.
  intros L HS HE l l' F F' g1 g2 R1 R2 N1 N2. pose proof (mh_64 L HS HE l l' F F') as H.
  assert (E1 : lcg g1 = odd_draw L l l') by (destruct (Z.eq_dec (lcg g1) (odd_draw L l l')); [auto|elim N1; auto]).
  assert (E2 : lcg g2 = odd_draw L l l') by (destruct (Z.eq_dec (lcg g2) (odd_draw L l l')); [auto|elim N2; auto]).
  apply lcg_inj; auto. congruence.
Qed.
Print Assumptions C88_metropolis.

(** Every batch of every rank of every run: [metro64 L K] is the walk of C12 with the values of the doubles, but for
    the draws K(l, l').  K depends on the library only. *)
Theorem C88_runs : forall L, LibmSpecial L -> exp_near L -> exists K : b64 -> b64 -> Z,
  forall S : Setup (B64 L), Legal S -> forall D G0 h Gf, history S D G0 h Gf ->
  forall r, (r < s_n S)%nat -> forall b, In b (hbatches h) ->
  exists rows bs, length rows = length bs /\ Z.of_nat (length rows) = br_len b /\
    metro64 L K (s_user S) D (N_parm (s_cfg S)) (l_sig (loc_at (br_pre b) r)) (beta_at (br_pre b) r)
      (l_g (loc_at (br_pre b) r)) (row_at (br_pre b) r)
      rows bs (l_g (loc_at (br_mid b) r)).
Proof.
  intros L HS HE. exists (odd_draw L). intros S HL D G0 h Gf HH r Hr b Hb. destruct (history_walks S HL _ _ _ _ HH r Hr) as [xs [W _]].
  assert (X : exists x, batch_walk S D r b (fst x) (snd x)).
  { clear - W Hb. induction W as [|b' x bl xs Hw W IH]; [destruct Hb|]. destruct Hb as [->|Hb]; [exists x; exact Hw|auto]. }
  destruct X as [[rows bs] [K1 [K2 _]]]. cbn [fst snd] in *. exists rows, bs.
  split; [apply (walk_numbered _ _ _ _ _ _ _ _ _ _ K1)|]. split; [exact K2|].
  apply walk_metro64; auto. apply mh_64; auto.
Qed.
Print Assumptions C88_runs.

(** Exchanges: of every attempt of every run, if the four log-posteriors (the two vectors at the two betas) are
    finite and no greater than B in size, then there is a draw k, which depends on nothing but the four
    values, such that every draw below k or above k + 1 + B/3 is judged as over the reals. *)
Theorem C88_swap : forall L, exp_near L -> exists K : b64 -> b64 -> b64 -> b64 -> Z,
  forall S : Setup (B64 L), Legal S -> forall D G0 h Gf, history S D G0 h Gf ->
  forall b, In b (hbatches h) -> exists ws, attempts_of S D b ws /\
  Forall (fun w =>
    let G := sw_pre w in let i := sw_i w in let j := sw_j w in
    let ij := logpost_at (s_user S) D (x_at G i) (beta_at G j) : b64 in
    let ji := logpost_at (s_user S) D (x_at G j) (beta_at G i) : b64 in
    let ii := lp_at G i : b64 in let jj := lp_at G j : b64 in
    forall B, 1 <= B <= bpow radix2 990 ->
    (forall v, In v [ij; ji; ii; jj] -> is_finite v = true /\ Rabs (B2R v) <= B) ->
    let k := K ij ji ii jj in
    (lcg (sw_g w) < k)%Z \/ IZR k + 1 + B / 3 <= IZR (lcg (sw_g w)) ->
    (sw_done w = true <-> unif (sw_g w) < Rmin 1 (exp (B2R ij + B2R ji - B2R ii - B2R jj)))) ws.
Proof.
  intros L HE. exists (swap_edge L). intros S HL D G0 h Gf HH b Hb.
  apply (attempts_all S HL D G0 h Gf HH); auto. intros w HA. cbv zeta. intros B HB HV Hk.
  destruct HA as [_ [_ [_ [Hd _]]]]. rewrite Hd. unfold swap_sum.
  destruct (HV _ (or_introl eq_refl)) as [F1 B1]. destruct (HV _ (or_intror (or_introl eq_refl))) as [F2 B2].
  destruct (HV _ (or_intror (or_intror (or_introl eq_refl)))) as [F3 B3]. destruct (HV _ (or_intror (or_intror (or_intror (or_introl eq_refl))))) as [F4 B4].
  apply (swap_64 L HE _ _ _ _ B); auto.
Qed.
Print Assumptions C88_swap.

(** not for every draw: with correctly rounded exp a proposal that is worse by 1000 is never taken, over the
    reals it is taken when the draw is 0 *)
Theorem C88_every_refuted : exists l l' : b64, is_finite l = true /\ is_finite l' = true /\ exists g, (0 <= g < RMOD)%Z /\
  forall L, LibmSpecial L -> l_exp L l' = B754_zero false ->
  mh_ok (A := B64 L) l l' g = false /\ unif g < Rmin 1 (exp (B2R l' - B2R l)).
Proof.
  exists (bof 0), (bof (-1000)). split; [reflexivity|]. split; [reflexivity|]. exists 107048004364969%Z. split; [vm_compute; split; [discriminate|reflexivity]|].
  intros L HS HX. assert (E1 : lcg 107048004364969 = 0%Z) by (vm_compute; reflexivity). split.
  - unfold mh_ok. rewrite (better_b64 L HS). replace (Bltb (bof 0) (bof (-1000))) with false by reflexivity.
    cbn [nltb nmul nexp nsub nof B64]. replace (Bminus mode_NE (bof (-1000)) (bof 0)) with (bof (-1000)).
    + rewrite btimes_one, HX. apply draw_not_below_zero.
    + apply B2SF_inj. vm_compute. reflexivity.
  - unfold unif. rewrite E1. unfold Rdiv. rewrite Rmult_0_l. apply Rmin_glb_lt; [lra|apply exp_pos].
Qed.
Print Assumptions C88_every_refuted.

(** and for exchanges the bound on the log-posteriors is needed: with values of about 2^54 the code makes every
    exchange, where over the reals it is to be made with a probability of exp(-1) *)
Theorem C88_large_refuted : exists ij ji ii jj : b64, is_finite ij = true /\ is_finite ji = true /\ is_finite ii = true /\ is_finite jj = true /\
  B2R ij + B2R ji - B2R ii - B2R jj = -1 /\
  forall L, l_exp L (B754_zero false) = bof 1 -> forall g, swap_ok (A := B64 L) (@nsub (B64 L) (@nsub (B64 L) (@nadd (B64 L) ij ji) ii) jj) g = true.
Proof.
  assert (F54 : is_finite (bof (2 ^ 54)) = true) by reflexivity.
  assert (V54 : B2R (bof (2 ^ 54)) = IZR (2 ^ 54)).
  { replace (bof (2 ^ 54)) with (@B754_finite prec emax false 4503599627370496 2 eq_refl) by (apply B2SF_inj; vm_compute; reflexivity).
    unfold B2R, F2R. cbn [cond_Zopp Fnum Fexp]. change (bpow radix2 2) with 4. rewrite <- mult_IZR. reflexivity. }
  exists (bof (2 ^ 54)), (bof (-1)), (bof (2 ^ 54)), (bof 0). split; [auto|]. split; [auto|]. split; [auto|]. split; [auto|]. split.
  - rewrite V54. destruct (bof_ok (-1) ltac:(cbn; lia)) as [V1 _]. destruct (bof_ok 0 ltac:(cbn; lia)) as [V0 _]. rewrite V1, V0. ring.
  - intros L HX g. cbn [nsub nadd B64].
    replace (Bminus mode_NE (Bminus mode_NE (Bplus mode_NE (bof (2 ^ 54)) (bof (-1))) (bof (2 ^ 54))) (bof 0)) with (B754_zero false : b64)
      by (apply B2SF_inj; vm_compute; reflexivity).
    unfold swap_ok. change (nltb (@nof (B64 L) 0) (B754_zero false)) with false. cbv iota.
    change (@nexp (B64 L) (B754_zero false)) with (l_exp L (B754_zero false)). rewrite HX. apply draw_below_one.
Qed.
Print Assumptions C88_large_refuted.

(** a library with correctly rounded exp meets all of it *)
Definition exp_libm : Libm := mkLibm
  (fun x : b64 => match x with B754_nan => B754_nan | B754_infinity true => B754_zero false | B754_infinity false => B754_infinity false | _ => to_b64 (exp (B2R x)) end)
  (l_log libm0) (l_cos libm0) (l_sin libm0) (l_pow libm0).
Example C88_case : LibmSpecial exp_libm /\ exp_near exp_libm /\
  (exists D b w ws, attempt (demo exp_libm) D w /\ attempts_of (demo exp_libm) D b (w :: ws)) /\
  exists g, mh_ok (A := B64 exp_libm) (bof 0) (bof (-1)) g = true.
Proof.
  assert (NR : exp_near exp_libm).
  { intros x F N. assert (E : l_exp exp_libm x = to_b64 (exp (B2R x))) by (destruct x; try discriminate; reflexivity). rewrite E.
    destruct (to_b64_ok (exp (B2R x))) as [F1 E1].
    - rewrite Rabs_pos_eq by (left; apply exp_pos). apply exp_le_1. auto.
    - split; auto. eapply Rle_trans; [exact E1|]. apply Rinv_le_contravar; [apply pow_lt; lra|apply Rle_pow; [lra|lia]]. }
  assert (SP : LibmSpecial exp_libm) by (split; [apply libm0_special|split; reflexivity]).
  split; auto. split; auto. split; [apply (attempt_exists (demo exp_libm) (demo_legal exp_libm)); reflexivity|].
  destruct (bof_ok 0 ltac:(cbn; lia)) as [V0 F0]. destruct (bof_ok (-1) ltac:(cbn; lia)) as [V1 F1].
  assert (E0 : lcg 107048004364969 = 0%Z) by (vm_compute; reflexivity). assert (E1 : lcg 71727733358094 = 1%Z) by (vm_compute; reflexivity).
  assert (Lo : / 2 ^ 47 < exp (-1)).
  { assert (2 * exp (-1) >= 2 * / 3) by (replace (-1) with (- (1)) by lra; rewrite exp_Ropp; assert (/ 3 <= / exp 1) by (apply Rinv_le_contravar; [apply exp_pos|apply exp_le_3]); lra). lra. }
  assert (C : forall g, (0 <= lcg g <= 1)%Z -> lcg g <> odd_draw exp_libm (bof 0) (bof (-1)) -> mh_ok (A := B64 exp_libm) (bof 0) (bof (-1)) g = true).
  { intros g [G0 G1] N. apply (mh_64 exp_libm SP NR _ _ F0 F1 g N). rewrite V0, V1, Rminus_0_r. unfold unif. rewrite rmod_pow.
    apply IZR_le in G1. assert (IZR (lcg g) / 2 ^ 48 <= / 2 ^ 48) by (unfold Rdiv; rewrite <- (Rmult_1_l (/ 2 ^ 48)) at 2; apply Rmult_le_compat_r; [left; apply Rinv_0_lt_compat, pow_lt; lra|exact G1]).
    apply Rmin_glb_lt; lra. }
  destruct (Z.eq_dec 0 (odd_draw exp_libm (bof 0) (bof (-1)))) as [Z0|Z0].
  - exists 71727733358094%Z. apply C; rewrite E1; lia.
  - exists 107048004364969%Z. apply C; rewrite E0; [lia|exact Z0].
Qed.
