(** Property C95: the eggbox model in binary64. *)
From Coq Require Import ZArith Arith List Bool Reals Lia Lra Psatz.
From Flocq Require Import Core Relative Mult_error IEEE754.BinarySingleNaN.
From Verif Require Import Base Arith B64 Rand Mh Ladder Tune Mpi MpiMeta Spmd Prog Seq ListAux MhSpec SeqWf Refine
  SeqTotal System B64Facts RandRange Seeds UserModels Boundary Demo Runs SeqFiles History Views RunHist HistCount HistRows
  SwapLemmas SwapReal ChainInv Stale SwapMore Metro BoxRuns FailRuns Kepler Kepler64 Orb64 Decide64 PropKepler PropDecide PropSwap Reg64.
Import ListNotations.
Open Scope R_scope.

(** The value of the model over the reals, with the values of the doubles of a parameter vector, and its log posterior
    at power beta: the log prior is the constant 1 (eggbox/user_prior.c:148). *)
Definition egg_val (v : list b64) : R := sin (B2R (nth 1 v (bof 0)) / 2) * cos (B2R (nth 0 v (bof 0)) / 2) + 2.
Definition egg_exact (beta : R) (v : list b64) : R := beta * egg_val v + 1.
(** finite parameters up to 2^21 *)
Definition egg_good (v : list b64) : Prop :=
  forall i, (i < 2)%nat -> is_finite (nth i v (bof 0)) = true /\ Rabs (B2R (nth i v (bof 0))) <= 2 ^ 21.

Lemma sin_lip : forall x y, Rabs (sin x - sin y) <= Rabs (x - y).
Proof.
  intros E X. rewrite form4. rewrite !Rabs_mult, (Rabs_right 2) by lra.
  assert (Rabs (cos ((E + X) / 2)) <= 1) by (apply Rabs_le; pose proof (COS_bound ((E + X) / 2)); lra).
  assert (Q : Rabs (sin ((E - X) / 2)) <= Rabs ((E - X) / 2)).
  { pose proof (cos_lip (PI / 2) ((E - X) / 2)) as Q. rewrite cos_shift, cos_PI2, Rminus_0_r in Q. auto. }
  assert (Rabs ((E - X) / 2) = Rabs (E - X) / 2) by (unfold Rdiv; rewrite Rabs_mult, (Rabs_right (/ 2)) by lra; auto).
  pose proof (Rabs_pos (cos ((E + X) / 2))). pose proof (Rabs_pos (sin ((E - X) / 2))). nra.
Qed.
Lemma cos_lip2 : forall x y, Rabs (cos x - cos y) <= Rabs (x - y).
Proof. intros x y. pose proof (cos_lip y (y - x)) as H. replace (y - (y - x)) with x in H by ring. rewrite (Rabs_minus_sym x y). exact H. Qed.

(** half a double: exact but for the smallest, and then off by at most 2^-1075 *)
Lemma half_64 : forall x : b64, is_finite x = true -> Rabs (B2R x) <= 2 ^ 21 ->
  is_finite (Bdiv mode_NE x (bof 2)) = true /\ Rabs (B2R (Bdiv mode_NE x (bof 2)) - B2R x / 2) <= bp (-1075) /\
  Rabs (B2R (Bdiv mode_NE x (bof 2))) <= 2 ^ 20 + 1.
Proof.
  intros x F H. destruct (bof_ok 2 ltac:(lia)) as [V2 F2]. pose proof (Rabs_le_inv _ _ H) as H'.
  assert (HS : Rabs (B2R x / 2) <= bp 21) by (change (bp 21) with 2097152; apply Rabs_le; lra).
  destruct (bdiv_ok x (bof 2) F ltac:(rewrite V2; lra)) as [V Fd]; [rewrite V2; apply (rnd_small _ 21); [lia|exact HS]|].
  rewrite V2 in V.
  assert (E : Rabs (B2R (Bdiv mode_NE x (bof 2)) - B2R x / 2) <= bp (-1075)).
  { rewrite V. destruct (Rle_dec (Rabs (B2R x / 2)) (bp (-1021))) as [S|S].
    - apply (rnd_err _ (-1021)); [lia|exact S].
    - rewrite rnd_id; [rewrite Rminus_diag_eq, Rabs_R0 by auto; apply bpow_ge_0|].
      apply Rnot_le_lt in S.
      assert (FX : fmt (B2R x)) by (apply generic_format_B2R).
      assert (FF : FLX_format radix2 53 (B2R x / 2)).
      { apply FLX_format_generic; [reflexivity|]. replace (B2R x / 2) with (B2R x * bp (-1)) by (change (bp (-1)) with (/ 2); lra).
        apply mult_bpow_exact_FLX. apply (generic_format_FLX_FLT radix2 (-1074) 53). exact FX. }
      apply (generic_format_FLT_FLX radix2 (-1074) 53); [|apply generic_format_FLX; exact FF].
      eapply Rle_trans; [apply (bpow_le radix2 _ (-1021)); lia|left; exact S]. }
  split; [exact Fd|]. split; [exact E|].
  apply Rabs_le_inv in E. assert (bp (-1075) <= 1) by (change 1 with (bp 0); apply bpow_le; lia). apply Rabs_le. lra.
Qed.

Lemma mul_in : forall x y a b, - a <= x <= a -> - b <= y <= b -> - (a * b) <= x * y <= a * b.
Proof.
  intros x y a b H1 H2. apply Rabs_le_inv. rewrite Rabs_mult. apply Rmult_le_compat; try apply Rabs_pos; apply Rabs_le; auto.
Qed.
Local Notation u := (/ 4503599627370496).
Lemma egg_post_64 : forall L, trig_near L (2 ^ 20 + 1) (bp (-52)) ->
  forall ra rb gp smin smax (D : Data (B64 L)) (beta : b64), is_finite beta = true -> 0 <= B2R beta <= 1 ->
  forall v, egg_good v ->
  let l := logpost_at (@egg_user (B64 L) ra rb gp smin smax) D v beta : b64 in
  is_finite l = true /\ Rabs (B2R l - egg_exact (B2R beta) v) <= / 2 ^ 49 /\ Rabs (B2R l) <= 5.
Proof.
  intros L TL ra rb gp smin smax D beta Fb Hb v G. cbv zeta.
  destruct (G 0%nat ltac:(lia)) as [Fa Ha]. destruct (G 1%nat ltac:(lia)) as [Fc Hc].
  unfold egg_exact, egg_val, logpost_at, egg_user, val_user. cbn [u_logll u_logprior]. unfold val_logll, egg_value, xi.
  change (Z.to_nat 0) with 0%nat. change (Z.to_nat 1) with 1%nat.
  cbn [B64 nadd nmul ndiv nsin ncos nof two]. change (@two (B64 L)) with (bof 2).
  set (a := nth 0 v (bof 0)) in *. set (b := nth 1 v (bof 0)) in *.
  destruct (half_64 a Fa Ha) as [Fha [Eha Bha]]. destruct (half_64 b Fc Hc) as [Fhb [Ehb Bhb]].
  set (ha := Bdiv mode_NE a (bof 2)) in *. set (hb := Bdiv mode_NE b (bof 2)) in *.
  destruct (TL ha Fha Bha) as [_ [Fco Hco]]. destruct (TL hb Fhb Bhb) as [[Fs Hs] _].
  change (bp (-52)) with u in Hco, Hs.
  assert (T : bp (-1075) <= u / 64) by (change (u / 64) with (/ 4503599627370496 * / 64); replace (/ 4503599627370496 * / 64) with (bp (-58)) by (change (bp (-58)) with (/ 288230376151711744); lra); apply bpow_le; lia).
  pose proof (sin_lip (B2R hb) (B2R b / 2)) as LS. pose proof (cos_lip2 (B2R ha) (B2R a / 2)) as LC.
  assert (LS' : Rabs (sin (B2R hb) - sin (B2R b / 2)) <= u / 64) by lra. assert (LC' : Rabs (cos (B2R ha) - cos (B2R a / 2)) <= u / 64) by lra.
  apply Rabs_le_inv in LS'. apply Rabs_le_inv in LC'. apply Rabs_le_inv in Hs. apply Rabs_le_inv in Hco.
  pose proof (SIN_bound (B2R b / 2)) as SB. pose proof (COS_bound (B2R a / 2)) as CB.
  set (s := sin (B2R b / 2)) in *. set (c := cos (B2R a / 2)) in *. set (sf := l_sin L hb) in *. set (cf := l_cos L ha) in *.
  assert (S1 : - (65 / 64 * u) <= B2R sf - s <= 65 / 64 * u) by lra.
  assert (C1 : - (65 / 64 * u) <= B2R cf - c <= 65 / 64 * u) by lra.
  clear LS LC LS' LC' Hs Hco Eha Ehb Bha Bhb T Ha Hc.
  (* the product *)
  set (ds := B2R sf - s) in *. set (dc := B2R cf - c) in *.
  assert (PE : B2R sf * B2R cf - s * c = s * dc + ds * c + ds * dc) by (unfold ds, dc; ring).
  assert (A1 : - (1 * (65 / 64 * u)) <= s * dc <= 1 * (65 / 64 * u)) by (apply mul_in; lra).
  assert (A2 : - (65 / 64 * u * 1) <= ds * c <= 65 / 64 * u * 1) by (apply mul_in; lra).
  assert (A3 : - (/ 128 * (65 / 64 * u)) <= ds * dc <= / 128 * (65 / 64 * u)) by (apply mul_in; lra).
  assert (SC : - (1 * 1) <= s * c <= 1 * 1) by (apply mul_in; lra).
  destruct (bmult_err sf cf 1) as [Fp Hp]; [lia|auto|auto|change (bp 1) with 2; apply Rabs_le; lra|].
  change (bp (1 - 54)) with (/ 9007199254740992) in Hp. apply Rabs_le_inv in Hp. set (p := Bmult mode_NE sf cf) in *.
  assert (P1 : - (3 * u) <= B2R p - s * c <= 3 * u) by lra.
  assert (P2 : - (43 / 16 * u) <= B2R p - s * c <= 43 / 16 * u) by lra.
  destruct (bof_ok 2 ltac:(lia)) as [V2 F2]. destruct (bof_ok 1 ltac:(lia)) as [V1 F1].
  destruct (bplus_ok p (bof 2) Fp F2) as [Vq Fq]; [rewrite V2; apply (rnd_small _ 2); [lia|change (bp 2) with 4; apply Rabs_le; lra]|].
  pose proof (rnd_err (B2R p + 2) 2 ltac:(lia) ltac:(change (bp 2) with 4; apply Rabs_le; lra)) as Hq. rewrite V2 in Vq. rewrite <- Vq in Hq.
  change (bp (2 - 54)) with u in Hq. apply Rabs_le_inv in Hq. set (q := Bplus mode_NE p (bof 2)) in *. set (w := s * c + 2).
  assert (Q1 : - (59 / 16 * u) <= B2R q - w <= 59 / 16 * u) by (unfold w; lra).
  assert (W : 1 <= w <= 3) by (unfold w; lra).
  set (k := B2R beta) in *.
  assert (M1 : - (1 * (59 / 16 * u)) <= k * (B2R q - w) <= 1 * (59 / 16 * u)) by (apply mul_in; lra).
  assert (M2 : - (1 * 3) <= k * w <= 1 * 3) by (apply mul_in; lra).
  destruct (bmult_err q beta 2) as [Fm Hm]; [lia|auto|auto|fold k; change (bp 2) with 4; apply Rabs_le; lra|].
  fold k in Hm. change (bp (2 - 54)) with u in Hm. apply Rabs_le_inv in Hm. set (m := Bmult mode_NE q beta) in *.
  destruct (bplus_ok m (bof 1) Fm F1) as [Vr Fr]; [rewrite V1; apply (rnd_small _ 3); [lia|change (bp 3) with 8; apply Rabs_le; lra]|].
  pose proof (rnd_err (B2R m + 1) 3 ltac:(lia) ltac:(change (bp 3) with 8; apply Rabs_le; lra)) as Hr. rewrite V1 in Vr. rewrite <- Vr in Hr.
  change (bp (3 - 54)) with (/ 2251799813685248) in Hr. apply Rabs_le_inv in Hr. set (r := Bplus mode_NE m (bof 1)) in *.
  change (is_finite r = true /\ Rabs (B2R r - (k * w + 1)) <= / 2 ^ 49 /\ Rabs (B2R r) <= 5).
  split; [exact Fr|]. replace (/ 2 ^ 49) with (8 * u) by lra. split; apply Rabs_le; lra.
Qed.

(** C95.  [trig_near]: the library's sine and cosine are off by at most 2^-52 for arguments up to 2^20 + 1.  Then at every
    finite parameter vector up to 2^21 and every beta in [0, 1] the log posterior the code computes is finite and within
    2^-49 of the exact one. *)
Theorem C95_posterior : forall L, trig_near L (2 ^ 20 + 1) (bp (-52)) ->
  forall ra rb gp smin smax (D : Data (B64 L)) (beta : b64), is_finite beta = true -> 0 <= B2R beta <= 1 ->
  forall v, egg_good v ->
  let l := logpost_at (@egg_user (B64 L) ra rb gp smin smax) D v beta : b64 in
  is_finite l = true /\ Rabs (B2R l - egg_exact (B2R beta) v) <= / 2 ^ 49.
Proof.
  intros L TL ra rb gp smin smax D beta Fb Hb v HG. cbv zeta.
  destruct (egg_post_64 L TL ra rb gp smin smax D beta Fb Hb v HG) as [F [E _]]. split; [exact F|exact E].
Qed.
Print Assumptions C95_posterior.

(** So in every run without ladder adaptation the chain of every rank takes the decisions of the Metropolis rule for the
    exact posterior, but for draws within 2^-48 + 2^-49 of the exact probability. *)
Theorem C95_runs : forall L, LibmSpecial L -> exp_near L -> trig_near L (2 ^ 20 + 1) (bp (-52)) ->
  forall (S : Setup (B64 L)) ra rb gp smin smax, Legal S -> s_user S = @egg_user (B64 L) ra rb gp smin smax ->
  (Tune_Ladder (s_cfg S) <= 0)%Z ->
  forall (D : Data (B64 L)) G0 h Gf, history S D G0 h Gf ->
  forall r, (r < s_n S)%nat -> let beta := nth r (Beta_Values (s_cfg S)) (bof 0) : b64 in is_finite beta = true -> 0 <= B2R beta <= 1 ->
  forall b, In b (hbatches h) ->
  exists rows bs, length rows = length bs /\ Z.of_nat (length rows) = br_len b /\
    metro_real (egg_exact (B2R beta)) (fun _ => / 2 ^ 49) egg_good
      (s_user S) (N_parm (s_cfg S)) (l_sig (loc_at (br_pre b) r)) (l_g (loc_at (br_pre b) r)) (row_at (br_pre b) r)
      rows bs (l_g (loc_at (br_mid b) r)).
Proof.
  intros L HS HE TL S ra rb gp smin smax LG HU HT D G0 h Gf HH r Hr beta Fb Hb b Hb2.
  destruct (history_walks S LG _ _ _ _ HH r Hr) as [xs [W _]].
  assert (Z : exists x, batch_walk S D r b (fst x) (snd x)).
  { clear - W Hb2. induction W as [|b' x bl xs Hw W IH]; [destruct Hb2|]. destruct Hb2 as [->|Hb2]; [exists x; exact Hw|auto]. }
  destruct Z as [[rows bs] [K1 [K2 _]]]. cbn [fst snd] in *. exists rows, bs.
  split; [apply (walk_numbered _ _ _ _ _ _ _ _ _ _ K1)|]. split; [exact K2|].
  destruct (cached_states _ S LG HT D G0 h Gf HH) as [_ [_ [_ C]]]. destruct (C b Hb2) as [C1 _]. destruct (C1 r Hr) as [C2 C3].
  rewrite C3 in K1.
  apply (walk_real L _ _ _ (s_user S) D (N_parm (s_cfg S)) _ beta HS HE).
  - intros v HG. rewrite HU. apply (C95_posterior L TL); auto.
  - exact K1.
  - exact C2.
Qed.
Print Assumptions C95_runs.

(** The exchanges of such a run: the pair (x_i, x_j) is exchanged exactly when the uniform number is below
    min(1, exp((beta_i - beta_j)(V x_j - V x_i))), but for draws within 2^-46 of it. *)
Theorem C95_swaps : forall L, exp_near L -> trig_near L (2 ^ 20 + 1) (bp (-52)) ->
  forall (S : Setup (B64 L)) ra rb gp smin smax, Legal S -> s_user S = @egg_user (B64 L) ra rb gp smin smax ->
  (Tune_Ladder (s_cfg S) <= 0)%Z ->
  (forall r, (r < s_n S)%nat -> let beta := nth r (Beta_Values (s_cfg S)) (bof 0) : b64 in is_finite beta = true /\ 0 <= B2R beta <= 1) ->
  forall (D : Data (B64 L)) G0 h Gf, history S D G0 h Gf -> forall b, In b (hbatches h) ->
  exists ws, attempts_of S D b ws /\
    Forall (fun w : swrec (B64 L) =>
      let i := sw_i w in let j := sw_j w in let x := x_at (sw_pre w) i in let x' := x_at (sw_pre w) j in
      let beta := fun r => B2R (nth r (Beta_Values (s_cfg S)) (bof 0) : b64) in
      let m := Rmin 1 (exp ((beta i - beta j) * (egg_val x' - egg_val x))) in
      egg_good x -> egg_good x' -> / 2 ^ 46 < Rabs (unif (sw_g w) - m) ->
      (sw_done w = true <-> unif (sw_g w) < m)) ws.
Proof.
  intros L HE TL S ra rb gp smin smax LG HU HT HB D G0 h Gf HH b Hb2.
  destruct (batch_attempts S LG _ _ _ _ HH b Hb2) as [ws Hw]. exists ws. split; auto.
  destruct (holds_always S LG D _ (fixed_inv S D HT) _ _ _ HH) as [_ [F _]].
  destruct (hb_all S _ _ F b Hb2) as [_ [[_ Hm] _]]. destruct Hw as [_ [Hs Fw]].
  destruct (swaps_hold S D _ (fixed_inv S D HT) _ _ _ Hs Fw Hm) as [FH _].
  rewrite Forall_forall in *. intros w Hin. destruct (FH w Hin) as [Hp _]. pose proof (Fw w Hin) as Hw.
  assert (Hi : (sw_i w < s_n S)%nat) by (destruct Hw as [_ [? _]]; lia).
  assert (Hj : (sw_j w < s_n S)%nat) by apply Hw.
  destruct (Hp _ Hi) as [Ci Bi]. destruct (Hp _ Hj) as [Cj Bj]. cbv zeta. set (i := sw_i w) in *. set (j := sw_j w) in *.
  set (x := x_at (sw_pre w) i : list b64). set (x' := x_at (sw_pre w) j : list b64). intros Gx Gx'.
  destruct (HB i Hi) as [Fi Ri]. destruct (HB j Hj) as [Fj Rj]. cbv zeta in Fi, Ri, Fj, Rj.
  set (bi := nth i (Beta_Values (s_cfg S)) (bof 0) : b64) in *. set (bj := nth j (Beta_Values (s_cfg S)) (bof 0) : b64) in *.
  pose proof (egg_post_64 L TL ra rb gp smin smax D) as RP. rewrite <- HU in RP.
  destruct (RP bj Fj Rj x Gx) as [F1 [E1 B1]]. destruct (RP bi Fi Ri x' Gx') as [F2 [E2 B2]].
  destruct (RP bi Fi Ri x Gx) as [F3 [E3 B3]]. destruct (RP bj Fj Rj x' Gx') as [F4 [E4 B4]]. cbv zeta in *.
  unfold cached_at in Ci, Cj. destruct Hw as [_ [_ [_ [Hd _]]]]. rewrite Hd. unfold swap_sum. fold i j.
  change (x_at (sw_pre w) i) with x. change (x_at (sw_pre w) j) with x'.
  change (x_at (sw_pre w) i) with x in Ci. change (x_at (sw_pre w) j) with x' in Cj. rewrite Bi in *. rewrite Bj in *. rewrite Ci, Cj.
  change (nth i (Beta_Values (s_cfg S)) (nof 0)) with bi. change (nth j (Beta_Values (s_cfg S)) (nof 0)) with bj.
  replace ((B2R bi - B2R bj) * (egg_val x' - egg_val x)) with
    (egg_exact (B2R bj) x + egg_exact (B2R bi) x' - egg_exact (B2R bi) x - egg_exact (B2R bj) x') by (unfold egg_exact; ring).
  intros Hg. apply (swap_near L HE _ _ _ _ 5 _ _ _ _ (4 * / 2 ^ 49) F1 F2 F3 F4); auto.
  - split; [lra|]. apply Rle_trans with (bp 3); [change (bp 3) with 8; lra|apply bpow_le; lia].
  - apply Rabs_le_inv in E1. apply Rabs_le_inv in E2. apply Rabs_le_inv in E3. apply Rabs_le_inv in E4. apply Rabs_le. lra.
  - eapply Rle_lt_trans; [|exact Hg]. lra.
Qed.
Print Assumptions C95_swaps.

(** With finite ranges up to 2^21 the vectors these theorems ask for are the only ones that occur: every vector a rank
    holds at the start of a batch, after its steps, at every exchange and at the end is good; and a proposal, once
    folded back into the ranges, is good or refused whatever the draw. *)
Theorem C95_inside : forall L, LibmSpecial L -> LibmNan L ->
  forall (S : Setup (B64 L)) (ra rb : b64 * b64) gp smin smax, Legal S -> s_user S = @egg_user (B64 L) ra rb gp smin smax -> N_parm (s_cfg S) = 2%Z ->
  (forall p : b64 * b64, In p [ra; rb] -> is_finite (fst p) = true /\ is_finite (snd p) = true /\ - 2 ^ 21 <= B2R (fst p) <= B2R (snd p) /\ B2R (snd p) <= 2 ^ 21) ->
  forall (D : Data (B64 L)) G0 h Gf, history S D G0 h Gf -> forall b, In b (hbatches h) ->
  (forall r, (r < s_n S)%nat -> egg_good (x_at (br_pre b) r) /\ egg_good (x_at (br_mid b) r) /\ egg_good (x_at (br_post b) r)) /\
  (forall ws, attempts_of S D b ws -> Forall (fun w : swrec (B64 L) => forall r, (r < s_n S)%nat -> egg_good (x_at (sw_pre w) r)) ws) /\
  (forall new0, length new0 = 2%nat -> egg_good (u_bound (s_user S) new0) \/
     forall old beta g, mh_ok (A := B64 L) old (logpost_at (s_user S) D (u_bound (s_user S) new0) beta) g = false).
Proof.
  intros L HS HN S ra rb gp smin smax LG HU HP HR D G0 h Gf HH b Hb2.
  set (box := [ra; rb]).
  assert (SP : Forall spanok box).
  { rewrite Forall_forall. intros p Hin. destruct (HR p Hin) as [F1 [F2 [R1 R2]]]. split; [split; [exact F1|split; [exact F2|apply R1]]|].
    destruct (bminus_ok (snd p) (fst p) F2 F1) as [_ F]; [|exact F]. apply (rnd_small _ 22); [lia|].
    change (bp 22) with 4194304. apply Rabs_le. lra. }
  assert (BX : Forall boxok box) by (eapply Forall_impl; [|exact SP]; intros p K; apply K).
  assert (GD : forall x, inbox box x -> egg_good x).
  { intros x K i Hi. inversion K as [|v p x1 l1 K1 K2 E1 E2]; subst. inversion K2 as [|v2 p2 x2 l2 K3 K4 E3 E4]; subst.
    destruct (HR ra ltac:(cbn; auto)) as [_ [_ RA]]. destruct (HR rb ltac:(cbn; auto)) as [_ [_ RB]].
    destruct K1 as [Fv Rv]. destruct K3 as [Fw Rw].
    destruct i as [|[|]]; [| |lia]; cbn [nth]; (split; [assumption|apply Rabs_le; lra]). }
  assert (BD : u_bound (s_user S) = para_boundary (A := B64 L) box) by (rewrite HU; reflexivity).
  assert (NO : forall x be, length x = length box -> hasnan x -> is_nan (logpost_at (s_user S) D x be : b64) = true).
  { rewrite HU. apply (egg_nan L ra rb gp smin smax D HN). }
  assert (IV : ChainInv S D (boxP box)).
  { apply (box_inv L S D box HS BD); [rewrite HP; reflexivity|exact BX|exact NO|].
    intros r Hr. rewrite HU. apply (init_unif_inside L box). exact SP. }
  destruct (holds_always S LG D _ IV _ _ _ HH) as [_ [F _]]. destruct (hb_all S _ _ F b Hb2) as [[_ H1] [[_ H2] [_ H3]]].
  split; [|split].
  - intros r Hr. split; [|split]; apply GD; [apply (H1 r Hr)|apply (H2 r Hr)|apply (H3 r Hr)].
  - intros ws [_ [Hs Fw]]. destruct (swaps_hold S D _ IV _ _ _ Hs Fw H2) as [FH _].
    eapply Forall_impl; [|exact FH]. intros w [K _] r Hr. apply GD. apply (K r Hr).
  - intros new0 Ln. rewrite BD. destruct (bound_cases L box new0 BX Ln) as [K|K]; [left; apply GD; exact K|right].
    intros old beta g. pose proof (NO _ beta (eq_trans (para_boundary_length (A := B64 L) box new0) Ln) K) as N. apply nan_only in N. rewrite N. apply (refuse_nan L HS).
Qed.
Print Assumptions C95_inside.

(** a library with correctly rounded exp, sine and cosine, and the eggbox run with the ladder fixed: the conditions of
    [C95_runs], [C95_swaps] and [C95_inside] are met *)
Definition egg_libm : Libm := mkLibm (l_exp exp_libm) (l_log exp_libm)
  (fun x => if is_nan x then B754_nan else l_cos rounded_libm x) (fun x => if is_nan x then B754_nan else l_sin rounded_libm x) (l_pow exp_libm).
Example C95_case : let L := egg_libm in LibmSpecial L /\ exp_near L /\ trig_near L (2 ^ 20 + 1) (bp (-52)) /\ LibmNan L /\
  exists S : Setup (B64 L), Legal S /\ s_user S = @egg_user (B64 L) egg_ra egg_ra (nlit 1 1) (nlit 5 10) (nlit 2 1) /\
    (Tune_Ladder (s_cfg S) <= 0)%Z /\ N_parm (s_cfg S) = 2%Z /\
    (is_finite (fst egg_ra) = true /\ is_finite (snd egg_ra) = true /\ - 2 ^ 21 <= B2R (fst egg_ra) <= B2R (snd egg_ra) /\ B2R (snd egg_ra) <= 2 ^ 21) /\
    (forall r, (r < s_n S)%nat -> let beta := nth r (Beta_Values (s_cfg S)) (bof 0) : b64 in is_finite beta = true /\ 0 <= B2R beta <= 1) /\
    (exists (D : Data (B64 L)) G0 h Gf b, history S D G0 h Gf /\ In b (hbatches h)) /\
    egg_good [bof 3; bof 25].
Proof.
  cbv zeta. set (L := egg_libm).
  assert (NR : exp_near L) by (intros x F N; apply (proj1 (proj2 C88_case) x F N)).
  split; [split; [apply libm0_special|split; reflexivity]|]. split; [exact NR|]. split.
  { intros x F _. cbn [L egg_libm l_sin l_cos]. replace (is_nan x) with false by (destruct x; try discriminate F; reflexivity).
    replace (bp (-52)) with (/ 2 ^ 52) by (change (bp (-52)) with (/ 4503599627370496); lra). apply (rounded_near 52). lia. }
  split; [repeat split|].
  set (S := with_cfg (egg_demo L) (set_ladder (s_cfg (egg_demo L)) 0)).
  assert (HL : Legal S).
  { split; [apply RandOK_b64|]. destruct (egg_legal L) as [_ [V [VU VE]]]. split; [|split].
    - destruct V. constructor; assumption.
    - destruct VU as [[? ? ?] ? ?]. constructor; [constructor|..]; assumption.
    - exact VE. }
  exists S. split; [exact HL|]. split; [reflexivity|]. split; [cbn; lia|]. split; [reflexivity|]. split; [|split; [|split]].
  - cbn [egg_ra fst snd]. destruct (bof_ok 0 ltac:(lia)) as [V0 F0]. destruct (bof_ok 31 ltac:(lia)) as [V31 F31]. rewrite V0, V31. repeat split; auto; lra.
  - assert (NL : forall d, (0 <= d <= 2)%Z -> is_finite (@nlit (B64 L) 1 d : b64) = true /\ 0 <= B2R (@nlit (B64 L) 1 d : b64) <= 1).
    { intros d Hd. assert (K : 1 <= IZR (10 ^ d)) by (apply IZR_le; change 1%Z with (10 ^ 0)%Z; apply Z.pow_le_mono_r; lia).
      unfold nlit. cbn [B64 ndiv nof]. destruct (bof_ok 1 ltac:(lia)) as [V1 F1].
      destruct (bof_ok (10 ^ d)) as [V2 F2]; [assert (10 ^ d <= 10 ^ 2)%Z by (apply Z.pow_le_mono_r; lia); lia|].
      assert (I : 0 <= 1 / IZR (10 ^ d) <= 1).
      { unfold Rdiv. rewrite Rmult_1_l. split; [left; apply Rinv_0_lt_compat; lra|].
        apply Rle_trans with (/ 1); [apply Rinv_le_contravar; lra|lra]. }
      destruct (bdiv_ok (bof 1) (bof (10 ^ d)) F1 ltac:(rewrite V2; lra)) as [V F].
      { rewrite V1, V2. apply (rnd_small _ 0); [lia|]. change (bp 0) with 1. apply Rabs_le. lra. }
      split; [exact F|]. rewrite V, V1, V2. split.
      - apply Rle_trans with (rnd 0); [rewrite rnd_id by apply generic_format_0; lra|]. apply round_le; [apply valid64|apply valid_rnd_N|lra].
      - apply Rle_trans with (rnd 1); [apply round_le; [apply valid64|apply valid_rnd_N|lra]|]. rewrite rnd_id by (rewrite <- V1; apply generic_format_B2R). lra. }
    intros r Hr. change (r < 3)%nat in Hr. cbv zeta. destruct r as [|[|[|]]]; [apply (NL 2%Z); lia|apply (NL 1%Z); lia| |lia].
    change (is_finite (bof 1) = true /\ 0 <= B2R (bof 1) <= 1). destruct (bof_ok 1 ltac:(lia)) as [V1 F1]. rewrite V1. split; [exact F1|lra].
  - destruct (history_exists S HL) as [D [G0 [h [Gf HH]]]]. destruct (batch_exists S HL ltac:(reflexivity) _ _ _ _ HH) as [b Hb].
    exists D, G0, h, Gf, b. split; auto.
  - intros i Hi. destruct (bof_ok 3 ltac:(lia)) as [V3 F3]. destruct (bof_ok 25 ltac:(lia)) as [V25 F25].
    destruct i as [|[|]]; [| |lia]; cbn [nth]; rewrite ?V3, ?V25, Rabs_pos_eq by lra; split; auto; lra.
Qed.
