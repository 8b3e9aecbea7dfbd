(** Property C66: the shipped configurations, from the bytes of their files to the end of the run. *)
From Coq Require Import ZArith Arith List Ascii String Bool Reals Lia Lra.
From Flocq Require Import Core IEEE754.BinarySingleNaN.
From Verif Require Import Base Arith B64 B64Facts Bytes Rand Mh Ladder Tune Mpi MpiMeta Spmd Prog Seq ListAux MhSpec SeqWf Refine
  SeqTotal System RandRange UserModels Boundary Readin Loader Inputs Demo Runs SeqFiles History Views RunHist HistCount HistRows CountLemmas
  ReadFacts LoadFacts Shipped SwapReal Metro BoxRuns BoxReal LadderRuns LadderReal LadderN LadderFour PropData PropMetro PropSched PropTune PropLadder Whole.
Import ListNotations.
Open Scope Z_scope.
Open Scope list_scope.

(** a data file of lines ls, each ended by a newline, with at least two numbers to a line *)
Definition two_columns {A : Arith} (atof : bytes -> num A) (ls : list bytes) (tss : list (list bytes)) : Prop :=
  Z.of_nat (List.length ls) * 2 < 2 ^ 31 /\
  (forall l, In l ls -> ~ In NL l /\ ~ In NUL l /\ ~ In xFF l) /\
  Forall2 (fun l ts => tokens (is_delim (lit " ")) l ts /\ 2 <= Z.of_nat (List.length ts)) ls tss /\
  (forall ts t, In ts tss -> In t ts -> atof (t ++ [NL]) = atof t).

Lemma launch_eq : forall A scan_lf atof, Decimals (A := A) scan_lf atof -> forall s d n time,
  launch scan_lf atof s (ship_file s) d n time =
  OK (mkSetup (ini_cfg (ship_ini A s)) (ship_user A s) n (file_env atof (lit " ") (Some d) 2 time) 2).
Proof.
  intros A scan_lf atof HD s d n time. unfold launch. destruct (ship_read A scan_lf atof HD s) as [-> ->]. cbn [rbind].
  unfold ship_user. destruct s; reflexivity.
Qed.

Lemma launch_legal : forall A, RandOK A -> forall scan_lf atof, Decimals (A := A) scan_lf atof -> forall s ls tss, two_columns atof ls tss ->
  forall time S, launch scan_lf atof s (ship_file s) (unlines ls) (ship_ranks s) time = OK S -> Legal S.
Proof.
  intros A RK scan_lf atof HD s ls tss [H1 [H2 [H3 H4]]] time S. rewrite launch_eq by exact HD. intros E.
  assert (E' : S = mkSetup (ini_cfg (ship_ini A s)) (ship_user A s) (ship_ranks s) (file_env atof (lit " ") (Some (unlines ls)) 2 time) 2) by congruence.
  subst S. clear E. split; [exact RK|]. split; [apply ship_cfg_valid|]. split; [apply ship_user_valid|].
  destruct (C44_load A atof (lit " ") 2 ls tss ltac:(lia) H1 H2 H3 H4) as [_ [arr [_ [_ [_ [V _]]]]]]. apply V.
Qed.

(** The files are read without error, the run starts, no rank ever fails or waits for ever, and every execution ends. *)
Theorem C66_completes : forall A, RandOK A -> forall scan_lf atof, Decimals (A := A) scan_lf atof ->
  forall s ls tss, two_columns atof ls tss -> forall time,
  exists S, launch scan_lf atof s (ship_file s) (unlines ls) (ship_ranks s) time = OK S /\ s_n S = ship_ranks s /\
  (exists k tr X, execution S k tr X /\ complete S X) /\
  exists N, forall k tr X, execution S k tr X -> (k <= N)%nat /\ (complete S X \/ can_step S X) /\
    forall r e, (r < ship_ranks s)%nat -> pr X r <> Fail e.
Proof.
  intros A RK scan_lf atof HD s ls tss HT time. eexists. split; [apply launch_eq; exact HD|].
  assert (HL := launch_legal A RK scan_lf atof HD s ls tss HT time _ (launch_eq A scan_lf atof HD s (unlines ls) (ship_ranks s) time)).
  split; [reflexivity|]. split; [apply legal_completes; exact HL|].
  destruct (C38_no_deadlock _ _ HL) as [N HN]. exists N. intros k tr X HE. destruct (HN k tr X HE) as [K1 [K2 _]].
  split; [exact K1|]. split; [exact K2|]. exact (proj1 (C43_messages_matched _ _ HL k tr X HE)).
Qed.
Print Assumptions C66_completes.

(** the ranges of the parameters and the smallest and greatest width of a step relative to them, as in the files *)
Definition ranges (s : ship) : list (R * R) :=
  match s with
  | SReg => [(-20, 20); (-50, 50); (/ 100, 30)]
  | SCurved => [(-10, 10); (-10, 10)]
  | SMulti => [(-30, 30); (-30, 30)]
  | _ => repeat (-512 / 100, 512 / 100) 5
  end%R.
Definition least (s : ship) : R := match s with SMulti => (1 / 10000000000)%R | _ => (5 / 10000000000)%R end.

Lemma ship_ranges : forall s, ship_box RArith s = ranges s.
Proof.
  intros s. destruct s; unfold ship_box, reg_box, curved_box, multi_box, ras1_box, ras2_box, ras3_box, ras4_box, ranges, nlit;
    cbn [repeat ndiv nof RArith num];
    change (10 ^ 2) with 100; change (10 ^ 3) with 1000;
    repeat match goal with |- _ :: _ = _ :: _ => apply f_equal2 end;
    repeat match goal with |- (_, _) = (_, _) => apply f_equal2 end;
    try reflexivity; match goal with |- ?a = ?b => change (@eq R a b) end; lra.
Qed.


Lemma ship_ratios : forall s, i_sigma_scale_min (ship_ini RArith s) = least s /\ i_sigma_scale_max (ship_ini RArith s) = (/ 5)%R /\
  (least s <= i_init_gp_ratio (ship_ini RArith s) <= / 5)%R /\ i_sigma_jumpin_ratio (ship_ini RArith s) = 300%R /\
  (1 <= i_sigma_scale_half_ratio (ship_ini RArith s))%R.
Proof.
  intros s. destruct s; cbn [ship_ini reg_ini curved_ini multi_ini ras1_ini ras2_ini ras3_ini ras4_ini i_sigma_scale_min i_sigma_scale_max
    i_init_gp_ratio i_sigma_jumpin_ratio i_sigma_scale_half_ratio least]; unfold nlit; cbn [ndiv nof RArith num];
    change (10 ^ 1) with 10; change (10 ^ 3) with 1000; change (10 ^ 10) with 10000000000;
    repeat split; try match goal with |- ?a = ?b => change (@eq R a b) end; lra.
Qed.
Lemma nth_scaled : forall (f : R * R -> R) box p, (p < List.length box)%nat -> nth p (map f box) 0%R = f (nth p box (0, 0)%R).
Proof. intros f box p H. rewrite (nth_indep _ 0%R (f (0, 0)%R)) by (rewrite map_length; exact H). apply map_nth. Qed.
Lemma ranges_pos : forall s p, (p < List.length (ranges s))%nat -> (fst (nth p (ranges s) (0, 0)) < snd (nth p (ranges s) (0, 0)))%R.
Proof. intros s p H. destruct s; cbn in H; do 5 (destruct p as [|p]; [first [exfalso; lia|cbn; lra]|]); exfalso; lia. Qed.
Lemma ship_nparm : forall A s, N_parm (ini_cfg (ship_ini A s)) = Z.of_nat (List.length (ship_box A s)).
Proof. intros A s. destruct s; reflexivity. Qed.

(** Exact reals: every width of the root's table, and every width a rank uses, is between the two ratios of the file times the
    length of the range of its parameter. *)
Theorem C66_widths : forall scan_lf atof, Decimals (A := RArith) scan_lf atof ->
  forall s ls tss, two_columns atof ls tss -> forall time S,
  launch scan_lf atof s (ship_file s) (unlines ls) (ship_ranks s) time = OK S ->
  let inside row := forall p, (p < List.length (ranges s))%nat ->
    let w := (snd (nth p (ranges s) (0, 0)) - fst (nth p (ranges s) (0, 0)))%R in
    (least s * w <= nth p row 0 <= / 5 * w)%R in
  forall D G0 h Gf, history S D G0 h Gf ->
  (forall G, In G (LadderRuns.states G0 h Gf) -> forall r, (r < ship_ranks s)%nat -> inside (sigt_at G r)) /\
  (forall t, In t h -> forall b, In b (sr_batches t) -> forall r, (r < ship_ranks s)%nat -> inside (l_sig (loc_at (br_pre b) r))).
Proof.
  intros scan_lf atof HD s ls tss HT time S E inside D G0 h Gf HH.
  pose proof (launch_legal _ RandOK_R _ _ HD s ls tss HT time S E) as HL. rewrite launch_eq in E by exact HD.
  assert (E' : S = mkSetup (ini_cfg (ship_ini RArith s)) (ship_user RArith s) (ship_ranks s) (file_env atof (lit " ") (Some (unlines ls)) 2 time) 2) by congruence.
  subst S. clear E.
  destruct (ship_ratios s) as [R1 [R2 [R3 [R4 R5]]]].
  assert (U1 : u_sigmin (ship_user RArith s) = map (fun p => least s * (snd p - fst p))%R (ranges s)).
  { rewrite <- ship_ranges, <- R1. destruct s; reflexivity. }
  assert (U2 : u_sigmax (ship_user RArith s) = map (fun p => / 5 * (snd p - fst p))%R (ranges s)).
  { rewrite <- ship_ranges, <- R2. destruct s; reflexivity. }
  assert (U3 : u_gp (ship_user RArith s) = map (fun p => (snd p - fst p) * i_init_gp_ratio (ship_ini RArith s))%R (ranges s)).
  { rewrite <- ship_ranges. destruct s; reflexivity. }
  assert (NP : N_parm (ini_cfg (ship_ini RArith s)) = Z.of_nat (List.length (ranges s))) by (rewrite ship_nparm, ship_ranges; reflexivity).
  assert (Lp : (0 < least s)%R) by (destruct s; cbn; lra).
  assert (Lq : (least s * 300 <= / 5)%R) by (destruct s; cbn; lra).
  assert (J : sigma_jumpin_ratio (ini_cfg (ship_ini RArith s)) = 300%R) by exact R4.
  pose proof (C35_run _ HL) as K. cbv zeta in K. cbn [s_cfg s_user s_n] in K. rewrite NP, U1, U2, U3, J in K.
  assert (Hq : forall Q : nat -> Prop, (forall p, (p < List.length (ranges s))%nat -> Q p) -> forall p, 0 <= p < Z.of_nat (List.length (ranges s)) -> Q (Z.to_nat p)).
  { intros Q H p Hp. apply H. lia. }
  destruct (K) with (D := D) (G0 := G0) (h := h) (Gf := Gf) as [K1 K2]; auto.
  - intros p Hp. rewrite nth_scaled by lia. pose proof (ranges_pos s (Z.to_nat p) ltac:(lia)). nra.
  - lra.
  - intros p Hp. rewrite !nth_scaled by lia. pose proof (ranges_pos s (Z.to_nat p) ltac:(lia)). nra.
  - intros p Hp. rewrite !nth_scaled by lia. pose proof (ranges_pos s (Z.to_nat p) ltac:(lia)). split; nra.
  - assert (Z0 : forall row, (forall p, 0 <= p < Z.of_nat (List.length (ranges s)) ->
        (nth (Z.to_nat p) (map (fun q => least s * (snd q - fst q))%R (ranges s)) 0 <= nth (Z.to_nat p) row 0 <=
         nth (Z.to_nat p) (map (fun q => / 5 * (snd q - fst q))%R (ranges s)) 0)%R) -> inside row).
    { intros row H p Hp. specialize (H (Z.of_nat p) ltac:(lia)). rewrite Nat2Z.id, !nth_scaled in H by exact Hp. exact H. }
    split; [intros G HG r Hr; apply Z0, (K1 G HG r Hr)|intros t Ht b Hb r Hr; apply Z0, (K2 t Ht b Hb r Hr)].
Qed.
Print Assumptions C66_widths.

(** Exact reals: every row of every chain file has as many values as there are parameters, each in its range. *)
Theorem C66_rows_real : forall scan_lf atof, Decimals (A := RArith) scan_lf atof ->
  forall s ls tss, two_columns atof ls tss -> forall time S,
  launch scan_lf atof s (ship_file s) (unlines ls) (ship_ranks s) time = OK S ->
  forall k tr X, execution S k tr X -> forall r, (r < ship_ranks s)%nat ->
  forall ev, In ev (file (FChain r) tr) -> exists q, ev = EvRow r q /\
    Forall2 (fun v p => (fst p <= v <= snd p)%R) (r_parm q) (ranges s).
Proof.
  intros scan_lf atof HD s ls tss HT time S E k tr X HE r Hr ev He.
  pose proof (launch_legal _ RandOK_R _ _ HD s ls tss HT time S E) as HL. rewrite launch_eq in E by exact HD.
  assert (E' : S = mkSetup (ini_cfg (ship_ini RArith s)) (ship_user RArith s) (ship_ranks s) (file_env atof (lit " ") (Some (unlines ls)) 2 time) 2) by congruence.
  destruct HT as [H1 [H2 [H3 H4]]].
  destruct (C44_load RArith atof (lit " ") 2 ls tss ltac:(lia) H1 H2 H3 H4) as [_ [arr [_ [_ [_ [_ V]]]]]].
  assert (HDt : dataset S (mkData (Z.of_nat (List.length ls)) arr)).
  { apply V; [subst S; reflexivity|exists time; subst S; reflexivity|reflexivity]. }
  assert (HR : s_n S = ship_ranks s) by (subst S; reflexivity). rewrite <- HR in Hr.
  apply (boxR_rows S HL (mkData (Z.of_nat (List.length ls)) arr) (ranges s)) with (k := k) (tr := tr) (X := X); auto.
  - subst S. cbn [s_user]. rewrite <- ship_ranges. destruct s; reflexivity.
  - subst S. cbn [s_cfg]. rewrite ship_nparm, ship_ranges. reflexivity.
  - apply Forall_forall. intros p Hp. apply (In_nth _ _ (0, 0)%R) in Hp. destruct Hp as [i [Hi <-]]. pose proof (ranges_pos s i Hi). lra.
  - intros i _. subst S. cbn [s_user s_cfg s_n s_env].
    replace (u_init (ship_user RArith s)) with (init_parm_set (A := RArith) (ship_draws RArith s) (ranges s)) by (rewrite <- ship_ranges; destruct s; reflexivity).
    unfold init_parm_set. apply init_R. destruct s; cbn; repeat constructor; cbn; lra.
Qed.
Print Assumptions C66_rows_real.


Lemma ship_span : forall s L, List.Forall spanok (ship_box (B64 L) s).
Proof.
  intros s L.
  assert (K : forall lo hi : b64, is_finite lo = true -> is_finite hi = true -> Bleb lo hi = true -> is_finite (Bminus mode_NE hi lo) = true -> spanok (lo, hi)).
  { intros lo hi F1 F2 Le F3. split; [|exact F3]. split; [exact F1|]. split; [exact F2|]. cbn [fst snd].
    rewrite Bleb_correct in Le by auto. destruct (Rle_bool_spec (B2R lo) (B2R hi)); [assumption|discriminate]. }
  destruct s; repeat (apply Forall_cons; [apply K; reflexivity|]); apply Forall_nil.
Qed.
Lemma ship_nanout : forall s L D, LibmNan L -> (s = SReg -> 1 <= d_nline D) -> nanout (ship_user (B64 L) s) D (List.length (ship_box (B64 L) s)).
Proof.
  intros s L D HN H. destruct s; [apply reg_nan; auto|apply curved_nan; auto|apply multi_nan; auto|..]; apply ras_nan; auto.
Qed.

Lemma reg_start : forall L (p1 p2 p3 : b64 * b64) sd, List.Forall spanok [p1; p2; p3] ->
  inside (nth 2 (fst (init_parm_set (A := B64 L) [DUnif; DUnif; DLogUnif] [p1; p2; p3] sd)) (bof 0)) p3 ->
  inbox [p1; p2; p3] (fst (init_parm_set (A := B64 L) [DUnif; DUnif; DLogUnif] [p1; p2; p3] sd)).
Proof.
  intros L [a1 b1] [a2 b2] [a3 b3] sd SP. unfold init_parm_set. pose proof (init_unif_inside L _ (srand48 sd) SP) as W.
  cbn [repeat List.length] in W. cbn [init_draws] in *.
  destruct (r8_unif_ab (A := B64 L) a1 b1 (srand48 sd)) as [v1 g1]. destruct (r8_unif_ab (A := B64 L) a2 b2 g1) as [v2 g2].
  destruct (r8_unif_ab (A := B64 L) a3 b3 g2) as [v3 g3]. destruct (r8_logunif_ab (A := B64 L) a3 b3 g2) as [v4 g4].
  cbn [fst nth] in *. intros K.
  inversion W as [|x1 q1 t1 u1 W1 W2]; subst. inversion W2 as [|x2 q2 t2 u2 W3 W4]; subst.
  constructor; [exact W1|]. constructor; [exact W3|]. constructor; [exact K|]. constructor.
Qed.

(** Binary64, with library functions that return NaN on NaN: the same, for ranges read and rounded to binary64, and every value is
    finite.  In the regression model this needs at least one line of data, and the log-uniform initial values to be in range
    (they are computed by exp and log, of which nothing is assumed). *)
Theorem C66_rows : forall L, LibmSpecial L -> LibmNan L -> forall scan_lf atof, Decimals (A := B64 L) scan_lf atof ->
  forall s ls tss, two_columns atof ls tss -> forall time S,
  launch scan_lf atof s (ship_file s) (unlines ls) (ship_ranks s) time = OK S ->
  (s = SReg -> ls <> [] /\ forall r, (r < 4)%nat ->
     inside (nth 2 (fst (u_init (s_user S) (seed_of (s_cfg S) (s_n S) (s_env S) r))) (bof 0)) (Bdiv mode_NE (bof 1) (bof 100), bof 30)) ->
  forall k tr X, execution S k tr X -> forall r, (r < ship_ranks s)%nat ->
  forall ev, In ev (file (FChain r) tr) -> exists q, ev = EvRow r q /\
    Forall2 (fun (v : b64) p => is_finite v = true /\ (B2R (fst p) <= B2R v <= B2R (snd p))%R) (r_parm q) (ship_box (B64 L) s).
Proof.
  intros L HS HN scan_lf atof HD s ls tss HT time S E HReg k tr X HE r Hr ev He.
  pose proof (launch_legal _ (RandOK_b64 L) _ _ HD s ls tss HT time S E) as HL. rewrite launch_eq in E by exact HD.
  assert (E' : S = mkSetup (ini_cfg (ship_ini (B64 L) s)) (ship_user (B64 L) s) (ship_ranks s) (file_env atof (lit " ") (Some (unlines ls)) 2 time) 2) by congruence.
  destruct HT as [H1 [H2 [H3 H4]]].
  destruct (C44_load (B64 L) atof (lit " ") 2 ls tss ltac:(lia) H1 H2 H3 H4) as [_ [arr [_ [_ [_ [_ V]]]]]].
  assert (HDt : dataset S (mkData (Z.of_nat (List.length ls)) arr)).
  { apply V; [subst S; reflexivity|exists time; subst S; reflexivity|reflexivity]. }
  assert (HR : s_n S = ship_ranks s) by (subst S; reflexivity). rewrite <- HR in Hr.
  apply (box_rows L S HL (mkData (Z.of_nat (List.length ls)) arr) (ship_box (B64 L) s)) with (k := k) (tr := tr) (X := X); auto.
  - subst S. destruct s; reflexivity.
  - subst S. cbn [s_cfg]. rewrite ship_nparm. reflexivity.
  - eapply Forall_impl; [|exact (ship_span s L)]. intros p [K _]. exact K.
  - subst S. apply ship_nanout; [exact HN|]. intros ->. destruct (HReg eq_refl) as [K _]. destruct ls; [contradiction|]. cbn [d_nline List.length]. lia.
  - intros i Hi.
    assert (EI : u_init (s_user S) = init_parm_set (A := B64 L) (ship_draws (B64 L) s) (ship_box (B64 L) s)) by (subst S; destruct s; reflexivity).
    pose proof (ship_span s L) as SP.
    destruct s; try (rewrite EI; exact (init_unif_inside L _ _ SP)).
    destruct (HReg eq_refl) as [_ K]. specialize (K i ltac:(subst S; exact Hi)). rewrite EI in *. revert K.
    intros K. apply (reg_start L); [exact SP|exact K].
Qed.
Print Assumptions C66_rows.

(** The ladders.  Those of curved_likelihood and of the two rastrigin configurations without ladder tuning stay as in the file. *)
Definition file_ladder (A : Arith) (s : ship) : list (num A) :=
  match s with
  | SReg => [nlit 1 3; nlit 1 2; nlit 1 1; nof 1] | SCurved => [nlit 3 2; nlit 1 1; nlit 3 1; nlit 10 1]
  | SMulti => [nlit 1 4; nlit 1 3; nlit 1 2; nlit 1 1; nof 1] | SRas1 => [nlit 1 3; nlit 2 3; nlit 999 3; nof 1]
  | _ => [nlit 1 3; nlit 2 3; nlit 3 3; nof 1]
  end.
Theorem C66_fixed_ladder : forall A, RandOK A -> forall scan_lf atof, Decimals (A := A) scan_lf atof ->
  forall s ls tss, two_columns atof ls tss -> In s [SCurved; SRas3; SRas4] -> forall time S,
  launch scan_lf atof s (ship_file s) (unlines ls) (ship_ranks s) time = OK S ->
  forall D G0 h Gf, history S D G0 h Gf -> forall G, In G (LadderRuns.states G0 h Gf) -> forall r, (r < 4)%nat ->
  l_beta (loc_at G r) = file_ladder A s.
Proof.
  intros A RK scan_lf atof HD s ls tss HT Hs time S E D G0 h Gf HH G HG r Hr.
  pose proof (launch_legal _ RK _ _ HD s ls tss HT time S E) as HL. rewrite launch_eq in E by exact HD.
  assert (E' : S = mkSetup (ini_cfg (ship_ini A s)) (ship_user A s) (ship_ranks s) (file_env atof (lit " ") (Some (unlines ls)) 2 time) 2) by congruence.
  rewrite (C30_off A S HL) with (D := D) (G0 := G0) (h := h) (Gf := Gf); auto.
  - subst S. destruct Hs as [<-|[<-|[<-|[]]]]; reflexivity.
  - subst S. destruct Hs as [<-|[<-|[<-|[]]]]; cbn; lia.
  - subst S. destruct Hs as [<-|[<-|[<-|[]]]]; exact Hr.
Qed.
Print Assumptions C66_fixed_ladder.

(** multi_gaussian: the five betas stay positive whatever the ladder tuning makes of them (exact reals) *)
Theorem C66_multi_ladder : forall scan_lf atof, Decimals (A := NArith) scan_lf atof ->
  forall ls tss, two_columns atof ls tss -> forall time S,
  launch scan_lf atof SMulti (ship_file SMulti) (unlines ls) 5 time = OK S ->
  forall D G0 h Gf, history S D G0 h Gf -> forall G, In G (LadderRuns.states G0 h Gf) -> forall r, (r < 5)%nat ->
  List.length (l_beta (loc_at G r)) = 5%nat /\ List.Forall (fun b => exists x, b = Some x /\ (0 < x)%R) (l_beta (loc_at G r)).
Proof.
  intros scan_lf atof HD ls tss HT time S E D G0 h Gf HH G HG r Hr.
  change (launch scan_lf atof SMulti (ship_file SMulti) (unlines ls) (ship_ranks SMulti) time = OK S) in E.
  pose proof (launch_legal _ RandOK_N _ _ HD SMulti ls tss HT time S E) as HL. rewrite launch_eq in E by exact HD.
  assert (E' : S = mkSetup (ini_cfg (ship_ini NArith SMulti)) (ship_user NArith SMulti) (ship_ranks SMulti) (file_env atof (lit " ") (Some (unlines ls)) 2 time) 2) by congruence.
  assert (V : forall m e, 0 <= e -> @nlit NArith m e = Some (IZR m / IZR (10 ^ e))%R) by exact nlit_some.
  assert (HN : s_n S = 5%nat) by (subst S; reflexivity). rewrite <- HN in *.
  apply (C27_run S HL (8 / 10) (3 / 10)) with (D := D) (G0 := G0) (h := h) (Gf := Gf); auto; try lra.
  - subst S. change (@nlit NArith 8 1 = Some (8 / 10)%R). rewrite V; [reflexivity|lia].
  - subst S. change (@nlit NArith 3 1 = Some (3 / 10)%R). rewrite V; [reflexivity|lia].
  - rewrite HN. lia.
  - subst S. change (List.Forall pos [@nlit NArith 1 4; @nlit NArith 1 3; @nlit NArith 1 2; @nlit NArith 1 1; Some 1%R]).
    rewrite !V by lia. repeat (apply Forall_cons; [eexists; split; [reflexivity|cbn; lra]|]). apply Forall_nil.
Qed.
Print Assumptions C66_multi_ladder.

(** regression and the two rastrigin configurations with a tuned ladder: the four betas stay positive (exact reals); the ends are
    the configured ones.  It takes the numbers in the files: C27_positive_refuted has four ranks and a negative beta. *)
Theorem C66_four_ladder : forall scan_lf atof, Decimals (A := NArith) scan_lf atof ->
  forall s ls tss, two_columns atof ls tss -> In s [SReg; SRas1; SRas2] -> forall time S,
  launch scan_lf atof s (ship_file s) (unlines ls) 4 time = OK S ->
  forall D G0 h Gf, history S D G0 h Gf -> forall G, In G (LadderRuns.states G0 h Gf) -> forall r, (r < 4)%nat ->
  exists b1 b2, l_beta (loc_at G r) = [Some (1 / 1000)%R; Some b1; Some b2; Some 1%R] /\ (0 < b1)%R /\ (0 < b2)%R.
Proof.
  intros scan_lf atof HD s ls tss HT Hs time S E D G0 h Gf HH G HG r Hr.
  assert (R4 : ship_ranks s = 4%nat) by (destruct Hs as [<-|[<-|[<-|[]]]]; reflexivity). rewrite <- R4 in E.
  pose proof (launch_legal _ RandOK_N _ _ HD s ls tss HT time S E) as HL. rewrite launch_eq in E by exact HD.
  assert (E' : S = mkSetup (ini_cfg (ship_ini NArith s)) (ship_user NArith s) (ship_ranks s) (file_env atof (lit " ") (Some (unlines ls)) 2 time) 2) by congruence.
  assert (V : forall m e, 0 <= e -> @nlit NArith m e = Some (IZR m / IZR (10 ^ e))%R) by exact nlit_some.
  assert (K : exists sc zs, scale_tune_ladder (s_cfg S) = Some sc /\ zero_stretch (s_cfg S) = Some zs /\ (0 <= sc <= 9 / 10)%R /\
    (1 / 10 <= zs <= 3 / 10)%R /\ inv4 (36 / 100) (firstn 4 (Beta_Values (s_cfg S))) /\
    N_stopTuneLadder (s_cfg S) <= N_iter (s_cfg S) /\ N_stopTuneLadder (s_cfg S) <= 60 * n_iter_a_stack (s_cfg S)).
  { assert (M : forall sc zs b1 b2 : R, forall x1 x2 y z : option R, x1 = Some sc -> x2 = Some zs -> y = Some b1 -> z = Some b2 ->
      forall w, w = Some (1 / 1000)%R ->
      (0 <= sc <= 9 / 10 -> 1 / 10 <= zs <= 3 / 10 -> 0 < b1 -> 0 < b2 -> 1 / 2000 <= b1 <= 1 / 2 -> 1 / 2000 <= b2 <= 1 ->
      exists sc zs, x1 = Some sc /\ x2 = Some zs /\ (0 <= sc <= 9 / 10)%R /\ (1 / 10 <= zs <= 3 / 10)%R /\ inv4 (36 / 100) [w; y; z; Some 1%R])%R).
    { intros sc zs b1 b2 x1 x2 y z -> -> -> -> w -> H1 H2 H3 H4 H5 H6. exists sc, zs. split; auto. split; auto. split; auto. split; auto.
      assert (J : forall a b : R, (0 < a -> 1 / 2000 <= a <= b -> 0 < b -> 1 / b <= 1 / a <= 2000)%R).
      { intros a b ? [? ?] ?. split; [apply Rmult_le_reg_r with (a * b)%R|apply Rmult_le_reg_r with a]; try apply Rmult_lt_0_compat; auto; field_simplify; lra. }
      destruct (J b1 (1 / 2)%R), (J b2 1%R); try lra.
      exists b1, b2. split; [reflexivity|]. split; auto. split; auto. split; [lra|]. split; [lra|]. intros; lra. }
    assert (T : forall a b c d (x1 x2 : option R) l, (exists sc zs, x1 = Some sc /\ x2 = Some zs /\ (0 <= sc <= 9 / 10)%R /\ (1 / 10 <= zs <= 3 / 10)%R /\ inv4 (36 / 100) l) ->
      a <= b -> c <= d -> exists sc zs, x1 = Some sc /\ x2 = Some zs /\ (0 <= sc <= 9 / 10)%R /\ (1 / 10 <= zs <= 3 / 10)%R /\ inv4 (36 / 100) l /\ a <= b /\ c <= d).
    { intros a b c d x1 x2 l [sc [zs [K1 [K2 [K3 [K4 K5]]]]]] ? ?. exists sc, zs. auto 10. }
    subst S. destruct Hs as [<-|[<-|[<-|[]]]].
    - apply T; [|cbn; lia|cbn; lia].
      apply (M (2 / 10) (1 / 10) (1 / 100) (1 / 10))%R; [exact (V 2 1 ltac:(lia))|exact (V 1 1 ltac:(lia))|exact (V 1 2 ltac:(lia))|exact (V 1 1 ltac:(lia))|exact (V 1 3 ltac:(lia))|lra..].
    - apply T; [|cbn; lia|cbn; lia].
      apply (M (7 / 10) (2 / 10) (2 / 1000) (999 / 1000))%R; [exact (V 7 1 ltac:(lia))|exact (V 2 1 ltac:(lia))|exact (V 2 3 ltac:(lia))|exact (V 999 3 ltac:(lia))|exact (V 1 3 ltac:(lia))|lra..].
    - apply T; [|cbn; lia|cbn; lia].
      apply (M (9 / 10) (3 / 10) (2 / 1000) (3 / 1000))%R; [exact (V 9 1 ltac:(lia))|exact (V 3 1 ltac:(lia))|exact (V 2 3 ltac:(lia))|exact (V 3 3 ltac:(lia))|exact (V 1 3 ltac:(lia))|lra..]. }
  destruct K as [sc [zs [K1 [K2 [K3 [K4 [K5 [K6 K7]]]]]]]].
  assert (HN : s_n S = 4%nat) by (subst S; exact R4).
  destruct (run_four S HL sc zs K1 K2 K3 K4 HN K5 K6 K7 D G0 h Gf HH G HG r Hr) as [b1 [b2 [Eb [P1 [P2 _]]]]].
  exists b1, b2. auto.
Qed.
Print Assumptions C66_four_ladder.

(** all hypotheses met: conversions by value, a data file of two lines, each configuration *)
Example C66_case : forall A s time, RandOK A -> Decimals (A := A) dec_lf dec_atof /\ two_columns (A := A) dec_atof two_lines two_tokens /\
  exists S, launch (A := A) dec_lf dec_atof s (ship_file s) (unlines two_lines) (ship_ranks s) time = OK S /\ Legal S /\
  exists D G0 h Gf, history S D G0 h Gf.
Proof.
  intros A s time RK. assert (T : two_columns (A := A) dec_atof two_lines two_tokens).
  { split; [cbn; lia|]. split; [exact two_clean|]. split; [exact two_ok|].
    intros ts t [<-|[<-|[]]]; cbn [In]; intros; intuition (subst; reflexivity). }
  split; [apply dec_decimals|]. split; [exact T|]. eexists. split; [apply launch_eq, dec_decimals|].
  assert (HL := launch_legal A RK _ _ (dec_decimals A) s _ _ T time _ (launch_eq A _ _ (dec_decimals A) s (unlines two_lines) (ship_ranks s) time)).
  split; [exact HL|]. destruct (history_exists _ HL) as [D [G0 [h [Gf HH]]]]. exists D, G0, h, Gf. exact HH.
Qed.
(** the additional hypothesis of C66_rows for the regression model is met with the library functions libm0 *)
Example C66_start_case : forall time S, launch (A := B64 libm0) dec_lf dec_atof SReg (ship_file SReg) (unlines two_lines) 4 time = OK S ->
  LibmSpecial libm0 /\ LibmNan libm0 /\ two_lines <> [] /\ forall r, (r < 4)%nat ->
  inside (nth 2 (fst (u_init (s_user S) (seed_of (s_cfg S) (s_n S) (s_env S) r))) (bof 0)) (Bdiv mode_NE (bof 1) (bof 100), bof 30).
Proof.
  intros time S E. split; [exact libm0_special|]. split; [exact libm0_nan|]. split; [discriminate|]. intros r _.
  rewrite launch_eq in E by apply dec_decimals.
  assert (EI : u_init (s_user S) = init_parm_set (A := B64 libm0) (ship_draws (B64 libm0) SReg) (ship_box (B64 libm0) SReg)).
  { replace S with (mkSetup (ini_cfg (ship_ini (B64 libm0) SReg)) (ship_user (B64 libm0) SReg) 4 (file_env dec_atof (lit " ") (Some (unlines two_lines)) 2 time) 2) by congruence. reflexivity. }
  rewrite EI. clear EI E. generalize (seed_of (s_cfg S) (s_n S) (s_env S) r). intros sd.
  assert (K : forall g, fst (r8_logunif_ab (A := B64 libm0) (Bdiv mode_NE (bof 1) (bof 100)) (bof 30) g) = Bmult mode_NE (Bdiv mode_NE (bof 1) (bof 100)) (bof 1)).
  { intros g. unfold r8_logunif_ab. destruct (drand48_b64 libm0 g) as [_ F].
    destruct (drand48 (A := B64 libm0) g) as [u g']. cbn [fst] in *.
    change (@nlog (B64 libm0) (@ndiv (B64 libm0) (bof 30) (Bdiv mode_NE (bof 1) (bof 100)))) with
      (if is_nan (Bdiv mode_NE (bof 30) (Bdiv mode_NE (bof 1) (bof 100))) then B754_nan else (B754_zero false : b64)).
    replace (is_nan (Bdiv mode_NE (bof 30) (Bdiv mode_NE (bof 1) (bof 100)))) with false by reflexivity.
    destruct u as [b|b| |b m e H]; try discriminate F; reflexivity. }
  unfold init_parm_set. change (ship_box (B64 libm0) SReg) with [(bof (-20), bof 20); (bof (-50), bof 50); (Bdiv mode_NE (bof 1) (bof 100), bof 30)].
  revert K. generalize (bof 0) as z. pose proof (ship_span SReg libm0) as SP.
  change (ship_box (B64 libm0) SReg) with [(bof (-20), bof 20); (bof (-50), bof 50); (Bdiv mode_NE (bof 1) (bof 100), bof 30)] in SP.
  assert (KI : inside (Bmult mode_NE (Bdiv mode_NE (bof 1) (bof 100)) (bof 1)) (Bdiv mode_NE (bof 1) (bof 100), bof 30)).
  { replace (Bmult mode_NE (Bdiv mode_NE (bof 1) (bof 100)) (bof 1)) with (Bdiv mode_NE (bof 1) (bof 100)) by (apply B2SF_inj; reflexivity).
    destruct (Forall_inv (Forall_inv_tail (Forall_inv_tail SP))) as [[F1 [F2 F3]] _]. cbn [fst snd] in *.
    split; [exact F1|]. cbn [fst snd]. split; [apply Rle_refl|exact F3]. }
  revert KI. clear SP. generalize (bof (-20)) (bof 20) (bof (-50)) (bof 50). generalize (Bdiv mode_NE (bof 1) (bof 100)) (bof 30).
  intros lo hi a1 b1 a2 b2 KI z K. cbn [ship_draws init_draws].
  destruct (r8_unif_ab (A := B64 libm0) a1 b1 (srand48 sd)) as [v1 g1]. destruct (r8_unif_ab (A := B64 libm0) a2 b2 g1) as [v2 g2].
  specialize (K g2). destruct (r8_logunif_ab (A := B64 libm0) lo hi g2) as [v3 g3]. cbn [fst nth] in *. subst v3. exact KI.
Qed.
