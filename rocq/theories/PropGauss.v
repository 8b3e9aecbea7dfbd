(** Property C96: the multi_gaussian model in binary64. *)
From Coq Require Import ZArith Arith List Bool Reals Lia Lra Psatz.
From Flocq Require Import Core Relative IEEE754.BinarySingleNaN.
From Verif Require Import Base Arith B64 Rand Mh Ladder Tune Mpi MpiMeta Spmd Prog Seq ListAux MhSpec SeqWf Refine
  SeqTotal System B64Facts RandRange Seeds UserModels Boundary Demo Runs SeqFiles History Views RunHist HistCount HistRows
  SwapLemmas SwapReal ChainInv Stale SwapMore Metro BoxRuns FailRuns Kepler Kepler64 Orb64 Decide64 PropKepler PropDecide PropSwap Reg64 PropReg PropEgg.
Import ListNotations.
Open Scope R_scope.

(** The value of the model over the reals, with the values of the doubles of a parameter vector, and its log posterior
    at power beta: the value is taken for the log likelihood as it is, and the log prior is the constant 0
    (multi_gaussian/user_prior.c:148). *)
Definition multi_val (v : list b64) : R :=
  let a := B2R (nth 0 v (bof 0)) in let b := B2R (nth 1 v (bof 0)) in
  exp (- ((a - 10) * (a - 10) / 2 + (b - 10) * (b - 10) / 2)) + exp (- ((a + 10) * (a + 10) / 2 + (b + 10) * (b + 10) / 2)).
Definition multi_exact (beta : R) (v : list b64) : R := beta * multi_val v.
(** finite parameters up to 32; the shipped ranges are [-30, 30] *)
Definition multi_good (v : list b64) : Prop :=
  forall i, (i < 2)%nat -> is_finite (nth i v (bof 0)) = true /\ Rabs (B2R (nth i v (bof 0))) <= 32.
(** the library's squares are not negative *)
Definition sq_pos (L : Libm) : Prop := forall x : b64, is_finite x = true -> Rabs (B2R x) <= bp 300 -> 0 <= B2R (l_pow L x (bof 2)).

Local Notation w39 := (/ 549755813888).
Lemma rnd_pos : forall x, 0 <= x -> 0 <= rnd x.
Proof. intros x H. rewrite <- (rnd_id 0) by apply generic_format_0. apply round_le; [apply valid64|apply valid_rnd_N|exact H]. Qed.

(** one coordinate of the exponent *)
Lemma coord_64 : forall L, sq_near L -> sq_pos L -> forall x m : b64, is_finite x = true -> is_finite m = true -> Rabs (B2R x) <= 32 -> Rabs (B2R m) <= 10 ->
  let q := Bdiv mode_NE (Bdiv mode_NE (l_pow L (Bminus mode_NE x m) (bof 2)) (bof 2)) (l_pow L (bof 1) (bof 2)) in
  is_finite q = true /\ 0 <= B2R q /\ Rabs (B2R q - (B2R x - B2R m) * (B2R x - B2R m) / 2) <= w39.
Proof.
  intros L HQ HP x m Fx Fm Hx Hm. cbv zeta. apply Rabs_le_inv in Hx. apply Rabs_le_inv in Hm.
  assert (T : 0 <= bp (-1000) <= / 1152921504606846976) by (split; [apply bpow_ge_0|change (/ 1152921504606846976) with (bp (-60)); apply bpow_le; lia]).
  assert (B300 : 64 <= bp 300) by (change 64 with (bp 6); apply bpow_le; lia).
  destruct (bminus_err x m 6) as [Fd Ed]; [lia|auto|auto|change (bp 6) with 64; apply Rabs_le; lra|].
  change (bp (6 - 54)) with (/ 281474976710656) in Ed. apply Rabs_le_inv in Ed.
  set (df := Bminus mode_NE x m) in *. set (d := B2R x - B2R m) in *.
  assert (D0 : -42 <= d <= 42) by (unfold d; lra).
  assert (Bd : Rabs (B2R df) <= bp 300) by (apply Rabs_le; lra).
  destruct (HQ df Fd Bd) as [Fp Ep]. pose proof (HP df Fd Bd) as Pp. set (p := l_pow L df (bof 2)) in *.
  replace (2 * u53) with (/ 4503599627370496) in Ep by lra. apply Rabs_le_inv in Ep.
  assert (S1 : - (/ 281474976710656 * 86) <= (B2R df - d) * (B2R df + d) <= / 281474976710656 * 86) by (apply mul_in; lra).
  assert (S2 : - (43 * 43) <= B2R df * B2R df <= 43 * 43) by (apply mul_in; lra).
  assert (S3 : 0 <= B2R df * B2R df) by (apply Rle_0_sqr).
  assert (S4 : - (42 * 42) <= d * d <= 42 * 42) by (apply mul_in; lra). assert (S5 : 0 <= d * d) by (apply Rle_0_sqr).
  replace ((B2R df - d) * (B2R df + d)) with (B2R df * B2R df - d * d) in S1 by ring.
  set (D2 := d * d) in *. set (F2 := B2R df * B2R df) in *.
  assert (P1 : - w39 / 2 <= B2R p - D2 <= w39 / 2) by lra.
  destruct (bof_ok 2 ltac:(lia)) as [V2 _]. destruct (bof_ok 1 ltac:(lia)) as [V1 F1].
  assert (HS : Rabs (B2R p / 2) <= bp 10) by (change (bp 10) with 1024; apply Rabs_le; lra).
  destruct (bdiv_ok p (bof 2) Fp ltac:(rewrite V2; lra)) as [Vh Fh]; [rewrite V2; apply (rnd_small _ 10); [lia|exact HS]|]. rewrite V2 in Vh.
  pose proof (rnd_err _ 10 ltac:(lia) HS) as Eh. rewrite <- Vh in Eh. change (bp (10 - 54)) with (/ 17592186044416) in Eh. apply Rabs_le_inv in Eh.
  assert (Ph : 0 <= B2R (Bdiv mode_NE p (bof 2))) by (rewrite Vh; apply rnd_pos; lra).
  set (h := Bdiv mode_NE p (bof 2)) in *.
  destruct (HQ (bof 1) F1 ltac:(rewrite V1, Rabs_pos_eq by lra; lra)) as [_ Er]. rewrite V1 in Er.
  replace (2 * u53) with (/ 4503599627370496) in Er by lra. apply Rabs_le_inv in Er. set (r := l_pow L (bof 1) (bof 2)) in *.
  assert (R1 : - (/ 2251799813685248) <= B2R r - 1 <= / 2251799813685248) by lra.
  assert (RI : - (/ 1125899906842624) <= / B2R r - 1 <= / 1125899906842624).
  { assert (RI0 : 0 < / B2R r <= 2).
    { split; [apply Rinv_0_lt_compat; lra|]. apply Rle_trans with (/ (/ 2)); [apply Rinv_le_contravar; lra|lra]. }
    replace (/ B2R r - 1) with (- (/ B2R r * (B2R r - 1))) by (field; lra).
    assert (- (2 * / 2251799813685248) <= / B2R r * (B2R r - 1) <= 2 * / 2251799813685248) by (apply mul_in; lra). lra. }
  assert (Q1 : - (1000 * / 1125899906842624) <= B2R h * (/ B2R r - 1) <= 1000 * / 1125899906842624) by (apply mul_in; lra).
  assert (QE : B2R h / B2R r = B2R h + B2R h * (/ B2R r - 1)) by (unfold Rdiv; ring).
  assert (HS2 : Rabs (B2R h / B2R r) <= bp 10) by (rewrite QE; change (bp 10) with 1024; apply Rabs_le; lra).
  destruct (bdiv_ok h r Fh ltac:(lra)) as [Vq Fq]; [apply (rnd_small _ 10); [lia|exact HS2]|].
  pose proof (rnd_err _ 10 ltac:(lia) HS2) as Eq. rewrite <- Vq in Eq. change (bp (10 - 54)) with (/ 17592186044416) in Eq. apply Rabs_le_inv in Eq.
  split; [exact Fq|]. split.
  - rewrite Vq. apply rnd_pos. apply Rmult_le_pos; [exact Ph|left; apply Rinv_0_lt_compat; lra].
  - rewrite QE in Eq. apply Rabs_le. lra.
Qed.

(** one of the two exponentials *)
Lemma gauss_64 : forall L, exp_near L -> sq_near L -> sq_pos L -> forall x y m : b64, is_finite x = true -> is_finite y = true -> is_finite m = true ->
  Rabs (B2R x) <= 32 -> Rabs (B2R y) <= 32 -> Rabs (B2R m) <= 10 ->
  let q z := Bdiv mode_NE (Bdiv mode_NE (l_pow L (Bminus mode_NE z m) (bof 2)) (bof 2)) (l_pow L (bof 1) (bof 2)) in
  let g := l_exp L (Bopp (Bplus mode_NE (q x) (q y))) in
  let t := exp (- ((B2R x - B2R m) * (B2R x - B2R m) / 2 + (B2R y - B2R m) * (B2R y - B2R m) / 2)) in
  is_finite g = true /\ Rabs (B2R g - t) <= 17 / 8 * w39 /\ 0 <= t <= 1.
Proof.
  intros L HE HQ HP x y m Fx Fy Fm Hx Hy Hm. cbv zeta.
  destruct (coord_64 L HQ HP x m Fx Fm Hx Hm) as [Fa [Pa Ea]]. destruct (coord_64 L HQ HP y m Fy Fm Hy Hm) as [Fb [Pb Eb]]. cbv zeta in *.
  set (qa := Bdiv mode_NE _ _) in Fa, Pa, Ea |- *. set (qb := Bdiv mode_NE _ _) in Fb, Pb, Eb |- *.
  apply Rabs_le_inv in Hx. apply Rabs_le_inv in Hy. apply Rabs_le_inv in Hm. apply Rabs_le_inv in Ea. apply Rabs_le_inv in Eb.
  assert (SA : - (42 * 42) <= (B2R x - B2R m) * (B2R x - B2R m) <= 42 * 42) by (apply mul_in; lra).
  assert (SB : - (42 * 42) <= (B2R y - B2R m) * (B2R y - B2R m) <= 42 * 42) by (apply mul_in; lra).
  assert (PA : 0 <= (B2R x - B2R m) * (B2R x - B2R m)) by apply Rle_0_sqr. assert (PB : 0 <= (B2R y - B2R m) * (B2R y - B2R m)) by apply Rle_0_sqr.
  set (A := (B2R x - B2R m) * (B2R x - B2R m)) in *. set (C := (B2R y - B2R m) * (B2R y - B2R m)) in *.
  assert (HS : Rabs (B2R qa + B2R qb) <= bp 11) by (change (bp 11) with 2048; apply Rabs_le; lra).
  destruct (bplus_ok qa qb Fa Fb) as [Vs Fs]; [apply (rnd_small _ 11); [lia|exact HS]|].
  pose proof (rnd_err _ 11 ltac:(lia) HS) as Es. rewrite <- Vs in Es. change (bp (11 - 54)) with (/ 8796093022208) in Es. apply Rabs_le_inv in Es.
  assert (Ps : 0 <= B2R (Bplus mode_NE qa qb)) by (rewrite Vs; apply rnd_pos; lra).
  set (s := Bplus mode_NE qa qb) in *.
  destruct (HE (Bopp s)) as [Fg Eg]; [rewrite is_finite_Bopp; exact Fs|rewrite B2R_Bopp; lra|].
  rewrite B2R_Bopp in Eg. set (e := - (A / 2 + C / 2)).
  pose proof (exp_lip (- B2R s) e 0 ltac:(lra) ltac:(unfold e; lra)) as EL. rewrite exp_0, Rmult_1_l in EL.
  assert (EL2 : Rabs (- B2R s - e) <= 33 / 16 * w39) by (unfold e; apply Rabs_le; lra).
  assert (EL3 : Rabs (exp (- B2R s) - exp e) <= 33 / 16 * w39) by lra. apply Rabs_le_inv in EL3.
  replace (/ 2 ^ 50) with (/ 1125899906842624) in Eg by lra. apply Rabs_le_inv in Eg.
  split; [exact Fg|]. split; [apply Rabs_le; lra|]. split; [left; apply exp_pos|apply exp_le_1; unfold e; lra].
Qed.

Lemma multi_post_64 : forall L, exp_near L -> sq_near L -> sq_pos L ->
  forall ra rb gp smin smax (D : Data (B64 L)) (beta : b64), is_finite beta = true -> 0 <= B2R beta <= 1 ->
  forall v, multi_good v ->
  let l := logpost_at (@multi_user (B64 L) ra rb gp smin smax) D v beta : b64 in
  is_finite l = true /\ Rabs (B2R l - multi_exact (B2R beta) v) <= / 2 ^ 36 /\ Rabs (B2R l) <= 3.
Proof.
  intros L HE HQ HP ra rb gp smin smax D beta Fb Hb v G. cbv zeta.
  destruct (G 0%nat ltac:(lia)) as [Fa Ha]. destruct (G 1%nat ltac:(lia)) as [Fc Hc].
  destruct (bof_ok 10 ltac:(lia)) as [V10 F10]. destruct (bof_ok 0 ltac:(lia)) as [V0 F0].
  set (a := nth 0 v (bof 0) : b64) in *. set (b := nth 1 v (bof 0) : b64) in *.
  assert (F10' : is_finite (Bopp (bof 10)) = true) by (rewrite is_finite_Bopp; exact F10).
  assert (V10' : B2R (Bopp (bof 10)) = -10) by (rewrite B2R_Bopp, V10; lra).
  destruct (gauss_64 L HE HQ HP a b (bof 10) Fa Fc F10 Ha Hc ltac:(rewrite V10, Rabs_pos_eq by lra; lra)) as [Fg [Eg Tg]].
  destruct (gauss_64 L HE HQ HP a b (Bopp (bof 10)) Fa Fc F10' Ha Hc ltac:(rewrite V10'; apply Rabs_le; lra)) as [Fh [Eh Th]].
  cbv zeta in Fg, Eg, Tg, Fh, Eh, Th. rewrite V10 in Eg, Tg. rewrite V10' in Eh, Th.
  set (g1 := l_exp L (Bopp (Bplus mode_NE (Bdiv mode_NE (Bdiv mode_NE (l_pow L (Bminus mode_NE a (bof 10)) (bof 2)) (bof 2)) (l_pow L (bof 1) (bof 2)))
    (Bdiv mode_NE (Bdiv mode_NE (l_pow L (Bminus mode_NE b (bof 10)) (bof 2)) (bof 2)) (l_pow L (bof 1) (bof 2)))))) in *.
  set (g2 := l_exp L (Bopp (Bplus mode_NE (Bdiv mode_NE (Bdiv mode_NE (l_pow L (Bminus mode_NE a (Bopp (bof 10))) (bof 2)) (bof 2)) (l_pow L (bof 1) (bof 2)))
    (Bdiv mode_NE (Bdiv mode_NE (l_pow L (Bminus mode_NE b (Bopp (bof 10))) (bof 2)) (bof 2)) (l_pow L (bof 1) (bof 2)))))) in *.
  replace (B2R a - -10) with (B2R a + 10) in * by ring. replace (B2R b - -10) with (B2R b + 10) in * by ring.
  set (t1 := exp _) in Eg, Tg. set (t2 := exp _) in Eh, Th. apply Rabs_le_inv in Eg. apply Rabs_le_inv in Eh.
  assert (HS : Rabs (B2R g1 + B2R g2) <= bp 2) by (change (bp 2) with 4; apply Rabs_le; lra).
  destruct (bplus_ok g1 g2 Fg Fh) as [Vs Fs]; [apply (rnd_small _ 2); [lia|exact HS]|].
  pose proof (rnd_err _ 2 ltac:(lia) HS) as Es. rewrite <- Vs in Es. change (bp (2 - 54)) with (/ 4503599627370496) in Es. apply Rabs_le_inv in Es.
  set (s := Bplus mode_NE g1 g2) in *. set (k := B2R beta) in *. set (w := t1 + t2).
  assert (M0 : - (5 * w39) <= B2R s - w <= 5 * w39) by (unfold w; lra).
  assert (M1 : - (1 * (5 * w39)) <= k * (B2R s - w) <= 1 * (5 * w39)) by (apply mul_in; lra).
  assert (M2 : - (1 * 2) <= k * w <= 1 * 2) by (apply mul_in; unfold w; lra).
  destruct (bmult_err s beta 2) as [Fm Em]; [lia|auto|auto|fold k; change (bp 2) with 4; apply Rabs_le; lra|].
  fold k in Em. change (bp (2 - 54)) with (/ 4503599627370496) in Em. apply Rabs_le_inv in Em. set (m := Bmult mode_NE s beta) in *.
  assert (HS2 : Rabs (B2R m + B2R (bof 0)) <= bp 2) by (rewrite V0; change (bp 2) with 4; apply Rabs_le; lra).
  destruct (bplus_ok m (bof 0) Fm F0) as [Vr Fr]; [apply (rnd_small _ 2); [lia|exact HS2]|].
  pose proof (rnd_err _ 2 ltac:(lia) HS2) as Er. rewrite <- Vr, V0 in Er. change (bp (2 - 54)) with (/ 4503599627370496) in Er. apply Rabs_le_inv in Er.
  set (r := Bplus mode_NE m (bof 0)) in *.
  change (is_finite r = true /\ Rabs (B2R r - k * w) <= / 2 ^ 36 /\ Rabs (B2R r) <= 3).
  split; [exact Fr|]. replace (/ 2 ^ 36) with (8 * w39) by lra. split; apply Rabs_le; lra.
Qed.

(** C96.  [exp_near], [sq_near], [sq_pos]: the library's exp is off by at most 2^-50 for arguments up to 0, its square by at
    most 2^-52 of its value (and 2^-1000) and not negative.  Then at every finite parameter vector up to 32 and every beta
    in [0, 1] the log posterior the code computes is finite and within 2^-36 of the exact one. *)
Theorem C96_posterior : forall L, exp_near L -> sq_near L -> sq_pos L ->
  forall ra rb gp smin smax (D : Data (B64 L)) (beta : b64), is_finite beta = true -> 0 <= B2R beta <= 1 ->
  forall v, multi_good v ->
  let l := logpost_at (@multi_user (B64 L) ra rb gp smin smax) D v beta : b64 in
  is_finite l = true /\ Rabs (B2R l - multi_exact (B2R beta) v) <= / 2 ^ 36.
Proof.
  intros L HE HQ HP ra rb gp smin smax D beta Fb Hb v HG. cbv zeta.
  destruct (multi_post_64 L HE HQ HP ra rb gp smin smax D beta Fb Hb v HG) as [F [E _]]. split; [exact F|exact E].
Qed.
Print Assumptions C96_posterior.

(** So in every run without ladder adaptation the chain of every rank takes the decisions of the Metropolis rule for the
    exact posterior, but for draws within 2^-35 + 2^-49 of the exact probability. *)
Theorem C96_runs : forall L, LibmSpecial L -> exp_near L -> sq_near L -> sq_pos L ->
  forall (S : Setup (B64 L)) ra rb gp smin smax, Legal S -> s_user S = @multi_user (B64 L) ra rb gp smin smax ->
  (Tune_Ladder (s_cfg S) <= 0)%Z ->
  forall (D : Data (B64 L)) G0 h Gf, history S D G0 h Gf ->
  forall r, (r < s_n S)%nat -> let beta := nth r (Beta_Values (s_cfg S)) (bof 0) : b64 in is_finite beta = true -> 0 <= B2R beta <= 1 ->
  forall b, In b (hbatches h) ->
  exists rows bs, length rows = length bs /\ Z.of_nat (length rows) = br_len b /\
    metro_real (multi_exact (B2R beta)) (fun _ => / 2 ^ 36) multi_good
      (s_user S) (N_parm (s_cfg S)) (l_sig (loc_at (br_pre b) r)) (l_g (loc_at (br_pre b) r)) (row_at (br_pre b) r)
      rows bs (l_g (loc_at (br_mid b) r)).
Proof.
  intros L HS HE HQ HP S ra rb gp smin smax LG HU HT D G0 h Gf HH r Hr beta Fb Hb b Hb2.
  destruct (history_walks S LG _ _ _ _ HH r Hr) as [xs [W _]].
  assert (Z : exists x, batch_walk S D r b (fst x) (snd x)).
  { clear - W Hb2. induction W as [|b' x bl xs Hw W IH]; [destruct Hb2|]. destruct Hb2 as [->|Hb2]; [exists x; exact Hw|auto]. }
  destruct Z as [[rows bs] [K1 [K2 _]]]. cbn [fst snd] in *. exists rows, bs.
  split; [apply (walk_numbered _ _ _ _ _ _ _ _ _ _ K1)|]. split; [exact K2|].
  destruct (cached_states _ S LG HT D G0 h Gf HH) as [_ [_ [_ C]]]. destruct (C b Hb2) as [C1 _]. destruct (C1 r Hr) as [C2 C3].
  rewrite C3 in K1.
  apply (walk_real L _ _ _ (s_user S) D (N_parm (s_cfg S)) _ beta HS HE).
  - intros v HG. rewrite HU. apply (C96_posterior L HE HQ HP); auto.
  - exact K1.
  - exact C2.
Qed.
Print Assumptions C96_runs.

(** The exchanges of such a run: the pair (x_i, x_j) is exchanged exactly when the uniform number is below
    min(1, exp((beta_i - beta_j)(V x_j - V x_i))), but for draws within 2^-33 of it. *)
Theorem C96_swaps : forall L, exp_near L -> sq_near L -> sq_pos L ->
  forall (S : Setup (B64 L)) ra rb gp smin smax, Legal S -> s_user S = @multi_user (B64 L) ra rb gp smin smax ->
  (Tune_Ladder (s_cfg S) <= 0)%Z ->
  (forall r, (r < s_n S)%nat -> let beta := nth r (Beta_Values (s_cfg S)) (bof 0) : b64 in is_finite beta = true /\ 0 <= B2R beta <= 1) ->
  forall (D : Data (B64 L)) G0 h Gf, history S D G0 h Gf -> forall b, In b (hbatches h) ->
  exists ws, attempts_of S D b ws /\
    Forall (fun w : swrec (B64 L) =>
      let i := sw_i w in let j := sw_j w in let x := x_at (sw_pre w) i in let x' := x_at (sw_pre w) j in
      let beta := fun r => B2R (nth r (Beta_Values (s_cfg S)) (bof 0) : b64) in
      let m := Rmin 1 (exp ((beta i - beta j) * (multi_val x' - multi_val x))) in
      multi_good x -> multi_good x' -> / 2 ^ 33 < Rabs (unif (sw_g w) - m) ->
      (sw_done w = true <-> unif (sw_g w) < m)) ws.
Proof.
  intros L HE HQ HP S ra rb gp smin smax LG HU HT HB D G0 h Gf HH b Hb2.
  destruct (batch_attempts S LG _ _ _ _ HH b Hb2) as [ws Hw]. exists ws. split; auto.
  destruct (holds_always S LG D _ (fixed_inv S D HT) _ _ _ HH) as [_ [F _]].
  destruct (hb_all S _ _ F b Hb2) as [_ [[_ Hm] _]]. destruct Hw as [_ [Hs Fw]].
  destruct (swaps_hold S D _ (fixed_inv S D HT) _ _ _ Hs Fw Hm) as [FH _].
  rewrite Forall_forall in *. intros w Hin. destruct (FH w Hin) as [Hp _]. pose proof (Fw w Hin) as Hw.
  assert (Hi : (sw_i w < s_n S)%nat) by (destruct Hw as [_ [? _]]; lia).
  assert (Hj : (sw_j w < s_n S)%nat) by apply Hw.
  destruct (Hp _ Hi) as [Ci Bi]. destruct (Hp _ Hj) as [Cj Bj]. cbv zeta. set (i := sw_i w) in *. set (j := sw_j w) in *.
  set (x := x_at (sw_pre w) i : list b64). set (x' := x_at (sw_pre w) j : list b64). intros Gx Gx'.
  destruct (HB i Hi) as [Fi Ri]. destruct (HB j Hj) as [Fj Rj]. cbv zeta in Fi, Ri, Fj, Rj.
  set (bi := nth i (Beta_Values (s_cfg S)) (bof 0) : b64) in *. set (bj := nth j (Beta_Values (s_cfg S)) (bof 0) : b64) in *.
  pose proof (multi_post_64 L HE HQ HP ra rb gp smin smax D) as RP. rewrite <- HU in RP.
  destruct (RP bj Fj Rj x Gx) as [F1 [E1 B1]]. destruct (RP bi Fi Ri x' Gx') as [F2 [E2 B2]].
  destruct (RP bi Fi Ri x Gx) as [F3 [E3 B3]]. destruct (RP bj Fj Rj x' Gx') as [F4 [E4 B4]]. cbv zeta in *.
  unfold cached_at in Ci, Cj. destruct Hw as [_ [_ [_ [Hd _]]]]. rewrite Hd. unfold swap_sum. fold i j.
  change (x_at (sw_pre w) i) with x. change (x_at (sw_pre w) j) with x'.
  change (x_at (sw_pre w) i) with x in Ci. change (x_at (sw_pre w) j) with x' in Cj. rewrite Bi in *. rewrite Bj in *. rewrite Ci, Cj.
  change (nth i (Beta_Values (s_cfg S)) (nof 0)) with bi. change (nth j (Beta_Values (s_cfg S)) (nof 0)) with bj.
  replace ((B2R bi - B2R bj) * (multi_val x' - multi_val x)) with
    (multi_exact (B2R bj) x + multi_exact (B2R bi) x' - multi_exact (B2R bi) x - multi_exact (B2R bj) x') by (unfold multi_exact; ring).
  intros Hg. apply (swap_near L HE _ _ _ _ 3 _ _ _ _ (4 * / 2 ^ 36) F1 F2 F3 F4); auto.
  - split; [lra|]. apply Rle_trans with (bp 3); [change (bp 3) with 8; lra|apply bpow_le; lia].
  - apply Rabs_le_inv in E1. apply Rabs_le_inv in E2. apply Rabs_le_inv in E3. apply Rabs_le_inv in E4. apply Rabs_le. lra.
  - eapply Rle_lt_trans; [|exact Hg]. lra.
Qed.
Print Assumptions C96_swaps.

(** With finite ranges up to 32 the vectors these theorems ask for are the only ones that occur: every vector a rank
    holds at the start of a batch, after its steps, at every exchange and at the end is good; and a proposal, once
    folded back into the ranges, is good or refused whatever the draw. *)
Theorem C96_inside : forall L, LibmSpecial L -> LibmNan L ->
  forall (S : Setup (B64 L)) (ra rb : b64 * b64) gp smin smax, Legal S -> s_user S = @multi_user (B64 L) ra rb gp smin smax -> N_parm (s_cfg S) = 2%Z ->
  (forall p : b64 * b64, In p [ra; rb] -> is_finite (fst p) = true /\ is_finite (snd p) = true /\ - 32 <= B2R (fst p) <= B2R (snd p) /\ B2R (snd p) <= 32) ->
  forall (D : Data (B64 L)) G0 h Gf, history S D G0 h Gf -> forall b, In b (hbatches h) ->
  (forall r, (r < s_n S)%nat -> multi_good (x_at (br_pre b) r) /\ multi_good (x_at (br_mid b) r) /\ multi_good (x_at (br_post b) r)) /\
  (forall ws, attempts_of S D b ws -> Forall (fun w : swrec (B64 L) => forall r, (r < s_n S)%nat -> multi_good (x_at (sw_pre w) r)) ws) /\
  (forall new0, length new0 = 2%nat -> multi_good (u_bound (s_user S) new0) \/
     forall old beta g, mh_ok (A := B64 L) old (logpost_at (s_user S) D (u_bound (s_user S) new0) beta) g = false).
Proof.
  intros L HS HN S ra rb gp smin smax LG HU HN2 HR D G0 h Gf HH b Hb2.
  set (box := [ra; rb]).
  assert (SP : Forall spanok box).
  { rewrite Forall_forall. intros p Hin. destruct (HR p Hin) as [F1 [F2 [R1 R2]]]. split; [split; [exact F1|split; [exact F2|apply R1]]|].
    destruct (bminus_ok (snd p) (fst p) F2 F1) as [_ F]; [|exact F]. apply (rnd_small _ 6); [lia|].
    change (bp 6) with 64. apply Rabs_le. lra. }
  assert (BX : Forall boxok box) by (eapply Forall_impl; [|exact SP]; intros p K; apply K).
  assert (GD : forall x, inbox box x -> multi_good x).
  { intros x K i Hi. inversion K as [|v p x1 l1 K1 K2 E1 E2]; subst. inversion K2 as [|v2 p2 x2 l2 K3 K4 E3 E4]; subst.
    destruct (HR ra ltac:(cbn; auto)) as [_ [_ RA]]. destruct (HR rb ltac:(cbn; auto)) as [_ [_ RB]].
    destruct K1 as [Fv Rv]. destruct K3 as [Fw Rw].
    destruct i as [|[|]]; [| |lia]; cbn [nth]; (split; [assumption|apply Rabs_le; lra]). }
  assert (BD : u_bound (s_user S) = para_boundary (A := B64 L) box) by (rewrite HU; reflexivity).
  assert (NO : forall x be, length x = length box -> hasnan x -> is_nan (logpost_at (s_user S) D x be : b64) = true).
  { rewrite HU. apply (multi_nan L ra rb gp smin smax D HN). }
  assert (IV : ChainInv S D (boxP box)).
  { apply (box_inv L S D box HS BD); [rewrite HN2; reflexivity|exact BX|exact NO|].
    intros r Hr. rewrite HU. apply (init_unif_inside L box). exact SP. }
  destruct (holds_always S LG D _ IV _ _ _ HH) as [_ [F _]]. destruct (hb_all S _ _ F b Hb2) as [[_ H1] [[_ H2] [_ H3]]].
  split; [|split].
  - intros r Hr. split; [|split]; apply GD; [apply (H1 r Hr)|apply (H2 r Hr)|apply (H3 r Hr)].
  - intros ws [_ [Hs Fw]]. destruct (swaps_hold S D _ IV _ _ _ Hs Fw H2) as [FH _].
    eapply Forall_impl; [|exact FH]. intros w [K _] r Hr. apply GD. apply (K r Hr).
  - intros new0 Ln. rewrite BD. destruct (bound_cases L box new0 BX Ln) as [K|K]; [left; apply GD; exact K|right].
    intros old beta g. pose proof (NO _ beta (eq_trans (para_boundary_length (A := B64 L) box new0) Ln) K) as N. apply nan_only in N. rewrite N. apply (refuse_nan L HS).
Qed.
Print Assumptions C96_inside.

(** a library with correctly rounded exp and squares, and a run with the ladder fixed and the shipped ranges: the conditions
    of [C96_runs], [C96_swaps] and [C96_inside] are met *)
Definition multi_libm : Libm := mkLibm (l_exp exp_libm) (l_log exp_libm) (l_cos exp_libm) (l_sin exp_libm)
  (fun x y => if is_nan x then B754_nan else l_pow full_libm x y).
Definition multi_ra : b64 * b64 := (bof (-30), bof 30).
Definition multi_demo (L : Libm) : Setup (B64 L) :=
  mkSetup (set_ladder (egg_cfg L) 0) (multi_user (A := B64 L) multi_ra multi_ra (nlit 1 1) (nlit 5 10) (nlit 2 1)) 3 (demo_env (B64 L)) 2.
Example C96_case : let L := multi_libm in LibmSpecial L /\ exp_near L /\ sq_near L /\ sq_pos L /\ LibmNan L /\
  exists S : Setup (B64 L), Legal S /\ s_user S = @multi_user (B64 L) multi_ra multi_ra (nlit 1 1) (nlit 5 10) (nlit 2 1) /\
    (Tune_Ladder (s_cfg S) <= 0)%Z /\ N_parm (s_cfg S) = 2%Z /\
    (is_finite (fst multi_ra) = true /\ is_finite (snd multi_ra) = true /\ - 32 <= B2R (fst multi_ra) <= B2R (snd multi_ra) /\ B2R (snd multi_ra) <= 32) /\
    (forall r, (r < s_n S)%nat -> let beta := nth r (Beta_Values (s_cfg S)) (bof 0) : b64 in is_finite beta = true /\ 0 <= B2R beta <= 1) /\
    (exists (D : Data (B64 L)) G0 h Gf b, history S D G0 h Gf /\ In b (hbatches h)) /\
    multi_good [bof 9; bof (-11)].
Proof.
  cbv zeta. set (L := multi_libm).
  assert (NR : exp_near L) by (intros x F N; apply (proj1 (proj2 C88_case) x F N)).
  assert (PW : forall x : b64, is_finite x = true -> l_pow L x (bof 2) = l_pow full_libm x (bof 2)).
  { intros x F. destruct x; try discriminate F; reflexivity. }
  split; [split; [apply libm0_special|split; reflexivity]|]. split; [exact NR|]. split; [|split; [|split; [repeat split|]]].
  - intros x F H. rewrite (PW x F). apply (full_sq x F H).
  - intros x F H. rewrite (PW x F). change (l_pow full_libm x (bof 2)) with (to_b64 (B2R x * B2R x)).
    assert (R2 : Rabs (B2R x * B2R x) <= bp 1000).
    { apply Rle_trans with (bp 600); [|apply bpow_le; lia]. rewrite Rabs_mult. change 600%Z with (300 + 300)%Z. rewrite bpow_plus. apply Rmult_le_compat; auto using Rabs_pos. }
    destruct (to_b64_big _ R2) as [_ ->]. apply rnd_pos. apply Rle_0_sqr.
  - set (S := multi_demo L).
    assert (HL : Legal S).
    { split; [apply RandOK_b64|]. destruct (egg_legal L) as [_ [V [_ VE]]]. split; [|split].
      - destruct V. constructor; assumption.
      - apply val_valid. reflexivity.
      - exact VE. }
    exists S. split; [exact HL|]. split; [reflexivity|]. split; [cbn; lia|]. split; [reflexivity|]. split; [|split; [|split]].
    + cbn [multi_ra fst snd]. destruct (bof_ok (-30) ltac:(lia)) as [V0 F0]. destruct (bof_ok 30 ltac:(lia)) as [V3 F3]. rewrite V0, V3. repeat split; auto; lra.
    + assert (NL : forall d, (0 <= d <= 2)%Z -> is_finite (@nlit (B64 L) 1 d : b64) = true /\ 0 <= B2R (@nlit (B64 L) 1 d : b64) <= 1).
      { intros d Hd. assert (K : 1 <= IZR (10 ^ d)) by (apply IZR_le; change 1%Z with (10 ^ 0)%Z; apply Z.pow_le_mono_r; lia).
        unfold nlit. cbn [B64 ndiv nof]. destruct (bof_ok 1 ltac:(lia)) as [V1 F1].
        destruct (bof_ok (10 ^ d)) as [V2 F2]; [assert (10 ^ d <= 10 ^ 2)%Z by (apply Z.pow_le_mono_r; lia); lia|].
        assert (I : 0 <= 1 / IZR (10 ^ d) <= 1).
        { unfold Rdiv. rewrite Rmult_1_l. split; [left; apply Rinv_0_lt_compat; lra|].
          apply Rle_trans with (/ 1); [apply Rinv_le_contravar; lra|lra]. }
        destruct (bdiv_ok (bof 1) (bof (10 ^ d)) F1 ltac:(rewrite V2; lra)) as [V F].
        { rewrite V1, V2. apply (rnd_small _ 0); [lia|]. change (bp 0) with 1. apply Rabs_le. lra. }
        split; [exact F|]. rewrite V, V1, V2. split; [apply rnd_pos; lra|].
        apply Rle_trans with (rnd 1); [apply round_le; [apply valid64|apply valid_rnd_N|lra]|]. rewrite rnd_id by (rewrite <- V1; apply generic_format_B2R). lra. }
      intros r Hr. change (r < 3)%nat in Hr. cbv zeta. destruct r as [|[|[|]]]; [apply (NL 2%Z); lia|apply (NL 1%Z); lia| |lia].
      change (is_finite (bof 1) = true /\ 0 <= B2R (bof 1) <= 1). destruct (bof_ok 1 ltac:(lia)) as [V1 F1]. rewrite V1. split; [exact F1|lra].
    + destruct (history_exists S HL) as [D [G0 [h [Gf HH]]]]. destruct (batch_exists S HL ltac:(reflexivity) _ _ _ _ HH) as [b Hb].
      exists D, G0, h, Gf, b. split; auto.
    + intros i Hi. destruct (bof_ok 9 ltac:(lia)) as [V3 F3]. destruct (bof_ok (-11) ltac:(lia)) as [V25 F25].
      destruct i as [|[|]]; [| |lia]; cbn [nth]; rewrite ?V3, ?V25; (split; [assumption|apply Rabs_le; lra]).
Qed.
