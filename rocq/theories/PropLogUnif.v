(** Property C90: log-uniform initial values in binary64, and all rows inside the box. *)
From Coq Require Import ZArith Arith List Ascii String Bool Reals Lia Lra Psatz.
From Flocq Require Import Core Relative IEEE754.BinarySingleNaN.
From Verif Require Import Base Arith B64 B64Facts Bytes Rand Mh Ladder Tune Mpi MpiMeta Spmd Prog Seq ListAux MhSpec SeqWf Refine
  SeqTotal System RandRange UserModels Boundary Readin Loader Inputs Demo Runs SeqFiles History Views RunHist HistCount HistRows CountLemmas
  ReadFacts LoadFacts Shipped SwapReal Metro BoxRuns BoxReal PropData PropMetro Whole PropWhole Kepler Kepler64 Decide64 PropKepler PropDecide Reg64 PropReg LogUnif64.
Import ListNotations.
Open Scope list_scope.
Open Scope R_scope.

(** C90.  [log_near]: see C89.  [exp_up L]: between 0 and 610 the library's exp is finite and off by no more than 2^-51 of its
    value, and exp 0 = 1.  Then every log-uniform value drawn in binary64 lies in its range, whatever the state of the
    generator, if the upper end is at least twice the lower one. *)
Theorem C90_draw : forall L, log_near L -> exp_up L -> forall (a b : b64) g, is_finite a = true -> is_finite b = true ->
  0 < B2R a -> 2 * B2R a <= B2R b <= 2 ^ 600 * B2R a ->
  let x := fst (r8_logunif_ab (A := B64 L) a b g) : b64 in is_finite x = true /\ B2R a <= B2R x <= B2R b.
Proof. intros L HL HE a b g H1 H2 H3 H4 x. exact (logunif_64 L HL HE a b g H1 H2 H3 H4). Qed.
Print Assumptions C90_draw.

(** So every row of every chain file of every run is inside the box when the parameters start from uniform and log-uniform
    values, in any order. *)
Definition start_ok L (d : draw (A := B64 L)) (p : b64 * b64) : Prop :=
  is_finite (fst p) = true /\ is_finite (snd p) = true /\
  match d with
  | DUnif => B2R (fst p) <= B2R (snd p) /\ is_finite (Bminus mode_NE (snd p) (fst p)) = true
  | DLogUnif => 0 < B2R (fst p) /\ 2 * B2R (fst p) <= B2R (snd p) <= 2 ^ 600 * B2R (fst p)
  | DNormal _ _ => False
  end.

Lemma start_inside : forall L, log_near L -> exp_up L -> forall ds (box : list (b64 * b64)) g, Forall2 (start_ok L) ds box ->
  inbox box (fst (init_draws (A := B64 L) ds box g)).
Proof.
  intros L HL HE. induction ds as [|d ds IH]; intros box g H; inversion H as [|d' p ds' box' Hd Hr]; subst; cbn [init_draws]; [constructor|].
  destruct p as [lo hi]. destruct Hd as [F1 [F2 Hd]]. cbn [fst snd] in *.
  match goal with |- context [let (_, _) := ?e in _] => rewrite (surjective_pairing e) end.
  match goal with |- context [init_draws ds box' ?e] => rewrite (surjective_pairing (init_draws (A := B64 L) ds box' e)) end.
  cbn [fst]. constructor; [|apply IH; exact Hr].
  destruct d as [| |m s]; [| |destruct Hd].
  - destruct Hd as [H3 H4]. exact (r8_unif_ab_b64 L lo hi g F1 F2 H3 H4).
  - destruct Hd as [H3 H4]. exact (logunif_64 L HL HE lo hi g F1 F2 H3 H4).
Qed.

Theorem C90_rows : forall L, LibmSpecial L -> log_near L -> exp_up L -> forall S : Setup (B64 L), Legal S ->
  forall D ds (box : list (b64 * b64)),
  u_bound (s_user S) = para_boundary (A := B64 L) box -> u_init (s_user S) = init_parm_set (A := B64 L) ds box ->
  Z.of_nat (List.length box) = N_parm (s_cfg S) -> Forall2 (start_ok L) ds box -> nanout (s_user S) D (List.length box) ->
  forall k tr X, execution S k tr X -> dataset S D -> forall r, (r < s_n S)%nat ->
  forall ev, In ev (file (FChain r) tr) -> exists q, ev = EvRow r q /\
    Forall2 (fun (v : b64) p => is_finite v = true /\ B2R (fst p) <= B2R v <= B2R (snd p)) (r_parm q) box.
Proof.
  intros L HS HL HE S HLg D ds box H1 H2 H3 H4 H5. apply (box_rows L S HLg D box HS H1 H3); auto.
  - clear - H4. induction H4 as [|d p ds box Hd Hr IH]; constructor; auto. destruct Hd as [F1 [F2 Hd]]. split; [exact F1|]. split; [exact F2|].
    destruct d; [tauto| |destruct Hd]. lra.
  - intros r _. rewrite H2. unfold init_parm_set. apply start_inside; auto.
Qed.
Print Assumptions C90_rows.

Lemma lo_val : 0 < B2R (Bdiv mode_NE (bof 1) (bof 100)) /\ 1 / 200 <= B2R (Bdiv mode_NE (bof 1) (bof 100)) <= 1.
Proof.
  destruct (bof_ok 1 ltac:(lia)) as [V1 F1]. destruct (bof_ok 100 ltac:(lia)) as [V2 F2].
  destruct (bdiv_ok (bof 1) (bof 100) F1 ltac:(rewrite V2; lra)) as [V _].
  { rewrite V1, V2. apply (rnd_small _ 0); [lia|]. change (bp 0) with 1. rewrite Rabs_pos_eq; lra. }
  rewrite V, V1, V2. destruct (rnd_rel2 (1 / 100)) as [e [E1 E2]].
  - apply Rle_trans with (bp (-7)); [apply bpow_le; lia|]. change (bp (-7)) with (/ 128). lra.
  - rewrite E2. pose proof u53_pos. apply Rabs_le_inv in E1. lra.
Qed.

(** The shipped configurations, C66_rows without its condition on the starting point: only the data file of the regression
    model must not be empty. *)
Theorem C90_shipped : forall L, LibmSpecial L -> LibmNan L -> log_near L -> exp_up L -> forall scan_lf atof, Decimals (A := B64 L) scan_lf atof ->
  forall s ls tss, two_columns atof ls tss -> forall time S,
  launch scan_lf atof s (ship_file s) (unlines ls) (ship_ranks s) time = OK S -> (s = SReg -> ls <> []) ->
  forall k tr X, execution S k tr X -> forall r, (r < ship_ranks s)%nat ->
  forall ev, In ev (file (FChain r) tr) -> exists q, ev = EvRow r q /\
    Forall2 (fun (v : b64) p => is_finite v = true /\ B2R (fst p) <= B2R v <= B2R (snd p)) (r_parm q) (ship_box (B64 L) s).
Proof.
  intros L HS HN HL HE scan_lf atof HD s ls tss HT time S E Hne k tr X HX r Hr.
  apply (C66_rows L HS HN scan_lf atof HD s ls tss HT time S E) with (k := k) (X := X); auto.
  intros Es. split; [auto|]. intros i Hi. subst s. rewrite launch_eq in E by exact HD.
  assert (E' : S = mkSetup (ini_cfg (ship_ini (B64 L) SReg)) (ship_user (B64 L) SReg) (ship_ranks SReg) (file_env atof (lit " ") (Some (unlines ls)) 2 time) 2) by congruence.
  assert (EI : u_init (s_user S) = init_parm_set (A := B64 L) (ship_draws (B64 L) SReg) (ship_box (B64 L) SReg)) by (subst S; reflexivity).
  rewrite EI. clear EI E E'. generalize (seed_of (s_cfg S) (s_n S) (s_env S) i). intros sd.
  set (lo := Bdiv mode_NE (bof 1) (bof 100) : b64).
  assert (K : forall g, inside (fst (r8_logunif_ab (A := B64 L) lo (bof 30) g)) (lo, bof 30)).
  { intros g. unfold inside. cbn [fst snd]. apply (logunif_64 L HL HE).
    - reflexivity.
    - reflexivity.
    - exact (proj1 lo_val).
    - destruct (bof_ok 30 ltac:(lia)) as [V _]. rewrite V. pose proof lo_val as LV. fold lo in LV. assert (1 <= 2 ^ 580) by (apply (pow_R1_Rle 2 580); lra). replace (2 ^ 600) with (2 ^ 580 * 1048576) by (change (2 ^ 600) with (2 ^ (580 + 20)); rewrite pow_add; f_equal; lra). split; [lra|].
      apply Rle_trans with (1 * 1048576 * (1 / 200)); [lra|]. apply Rmult_le_compat; lra. }
  unfold init_parm_set. change (ship_box (B64 L) SReg) with [(bof (-20), bof 20); (bof (-50), bof 50); (lo, bof 30)].
  revert K. generalize (bof 0) as z. generalize (bof (-20)) (bof 20) (bof (-50)) (bof 50). generalize lo (bof 30).
  intros l h a1 b1 a2 b2 z K. cbn [ship_draws init_draws].
  destruct (r8_unif_ab (A := B64 L) a1 b1 (srand48 sd)) as [v1 g1]. destruct (r8_unif_ab (A := B64 L) a2 b2 g1) as [v2 g2].
  specialize (K g2). destruct (r8_logunif_ab (A := B64 L) l h g2) as [v3 g3]. cbn [fst nth] in *. exact K.
Qed.
Print Assumptions C90_shipped.

(** Not for every range: of the range from 15/8 to the next double a library with an exp that is off by at most 6/10 of the last
    place returns, for the greatest of the draws, the double above the range. *)
Theorem C90_narrow_refuted : exists a b : b64, is_finite a = true /\ is_finite b = true /\ 0 < B2R a < B2R b /\ exists g, (0 <= g < RMOD)%Z /\
  forall L, log_near L ->
  (forall x : b64, is_finite x = true -> 0 <= B2R x <= 610 ->
     is_finite (l_exp L x) = true /\ Rabs (B2R (l_exp L x) - exp (B2R x)) <= 6 / 10 * exp (B2R x) / 2 ^ 52) ->
  B2R b < B2R (fst (r8_logunif_ab (A := B64 L) a b g) : b64).
Proof.
  assert (O : forall m n p q, (m < n)%positive -> B2R (@B754_finite prec emax false m (-52) p) < B2R (@B754_finite prec emax false n (-52) q)).
  { intros m n p q H. unfold B2R. apply F2R_lt. cbn [cond_Zopp]. lia. }
  exists n_a, n_b. split; [reflexivity|]. split; [reflexivity|]. split; [split|].
  - unfold n_a, B2R. apply F2R_gt_0. reflexivity.
  - apply O. reflexivity.
  - exists n_g. split; [split; vm_compute; [discriminate|reflexivity]|]. intros L HL HE. rewrite (narrow_64 L HL HE). apply O. reflexivity.
Qed.
Print Assumptions C90_narrow_refuted.

(** a library with all of these properties: exp, log and the square are correctly rounded, and NaN gives NaN *)
Definition nan_libm : Libm := mkLibm (l_exp full_libm) (l_log full_libm) (l_cos libm0) (l_sin libm0)
  (fun x y => match x with B754_nan => B754_nan | _ => to_b64 (B2R x * B2R x) end).
Lemma exp_nat3 : forall n, exp (INR n) <= 3 ^ n.
Proof.
  induction n as [|n IH]; [cbn [INR pow]; rewrite exp_0; lra|]. rewrite S_INR, exp_plus. cbn [pow]. pose proof exp_le_3. pose proof (exp_pos (INR n)). pose proof (exp_pos 1). nra.
Qed.
Lemma nan_exp : forall x : b64, is_finite x = true -> 0 <= B2R x <= 610 ->
  is_finite (l_exp nan_libm x) = true /\ Rabs (B2R (l_exp nan_libm x) - exp (B2R x)) <= exp (B2R x) / 2 ^ 53 /\ (B2R x = 0 -> B2R (l_exp nan_libm x) = 1).
Proof.
  intros x F H. assert (E : l_exp nan_libm x = to_b64 (exp (B2R x))) by (destruct x; try discriminate; reflexivity). rewrite E.
  assert (B : 1 <= exp (B2R x) <= bp 1000).
  { split; [rewrite <- exp_0; apply exp_mono; lra|]. apply Rle_trans with (exp (INR 610)); [apply exp_mono; replace (INR 610) with 610 by (rewrite INR_IZR_INZ; reflexivity); lra|].
    eapply Rle_trans; [apply exp_nat3|]. change 610%nat with (Z.to_nat 610). rewrite pow_IZR, <- IZR_Zpower by lia. apply IZR_le. apply Z.leb_le. vm_compute. reflexivity. }
  destruct (to_b64_big (exp (B2R x))) as [F1 V]; [rewrite Rabs_pos_eq; lra|]. split; [exact F1|]. rewrite V. split.
  - destruct (rnd_rel2 (exp (B2R x))) as [e [E1 E2]]; [apply Rle_trans with (bp 0); [apply bpow_le; lia|change (bp 0) with 1; lra]|].
    rewrite E2. replace (exp (B2R x) * (1 + e) - exp (B2R x)) with (exp (B2R x) * e) by ring. rewrite Rabs_mult, Rabs_pos_eq by lra. unfold Rdiv. apply Rmult_le_compat_l; [lra|exact E1].
  - intros Z. rewrite Z, exp_0. apply rnd_id. destruct (bof_ok 1 ltac:(lia)) as [<- _]. apply fmt_B2R.
Qed.
Example C90_case : LibmSpecial nan_libm /\ LibmNan nan_libm /\ log_near nan_libm /\ exp_up nan_libm /\
  (forall x : b64, is_finite x = true -> 0 <= B2R x <= 610 ->
     is_finite (l_exp nan_libm x) = true /\ Rabs (B2R (l_exp nan_libm x) - exp (B2R x)) <= 6 / 10 * exp (B2R x) / 2 ^ 52) /\
  Forall2 (start_ok nan_libm) [DUnif; DUnif; DLogUnif] [(bof (-20), bof 20); (bof (-50), bof 50); (bof 1, bof 30)].
Proof.
  split; [exact full_special|]. split; [repeat split; reflexivity|]. split; [exact full_log|].
  assert (P : 0 < / 2 ^ 51) by (apply Rinv_0_lt_compat, pow_lt; lra).
  assert (E52 : / 2 ^ 52 = / 2 ^ 51 / 2) by (change (2 ^ 52) with (2 * 2 ^ 51); field).
  assert (E53 : / 2 ^ 53 = / 2 ^ 51 / 4) by (change (2 ^ 53) with (2 * (2 * 2 ^ 51)); field).
  split; [|split].
  - intros x F H. destruct (nan_exp x F H) as [F1 [N Z]]. split; [exact F1|]. split; [|exact Z]. eapply Rle_trans; [exact N|]. unfold Rdiv. rewrite E53. pose proof (exp_pos (B2R x)). apply Rmult_le_compat_l; lra.
  - intros x F H. destruct (nan_exp x F H) as [F1 [N Z]]. split; [exact F1|]. eapply Rle_trans; [exact N|]. unfold Rdiv. rewrite E53, E52. pose proof (exp_pos (B2R x)). unfold Rdiv. nra.
  - destruct (bof_ok (-20) ltac:(lia)) as [V1 F1]. destruct (bof_ok 20 ltac:(lia)) as [V2 F2]. destruct (bof_ok (-50) ltac:(lia)) as [V3 F3]. destruct (bof_ok 50 ltac:(lia)) as [V4 F4].
    destruct (bof_ok 1 ltac:(lia)) as [V5 F5]. destruct (bof_ok 30 ltac:(lia)) as [V6 F6].
    assert (1 <= 2 ^ 580) by (apply (pow_R1_Rle 2 580); lra). assert (E : 2 ^ 600 = 2 ^ 580 * 1048576) by (change (2 ^ 600) with (2 ^ (580 + 20)); rewrite pow_add; f_equal; lra).
    constructor; [|constructor; [|constructor; [|constructor]]]; (split; [assumption|]); (split; [assumption|]); cbn [fst snd].
    + split; [rewrite V1, V2; lra|reflexivity].
    + split; [rewrite V3, V4; lra|reflexivity].
    + rewrite V5, V6, E. lra.
Qed.
