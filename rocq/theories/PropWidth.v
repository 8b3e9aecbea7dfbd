(** Property C91: the widths of the proposals in binary64. *)
From Coq Require Import ZArith Arith List Ascii String Bool Reals Lia Lra Psatz.
From Flocq Require Import Core Relative IEEE754.BinarySingleNaN.
From Verif Require Import Base Arith B64 B64Facts Bytes Rand Mh Ladder Tune Mpi MpiMeta Spmd Prog Seq ListAux MhSpec SeqWf Refine
  SeqTotal System RandRange UserModels Boundary Readin Loader Inputs Demo Runs SeqFiles History Views RunHist HistCount HistRows CountLemmas
  ReadFacts LoadFacts Shipped LadderRuns TuneOpt TuneSteps TuneStacks TuneRuns TuneB64 PropData Whole PropWhole Kepler Kepler64 Decide64 PropKepler PropDecide
  Reg64 PropReg LogUnif64 PropLogUnif Width64.
Import ListNotations.
Open Scope list_scope.
Open Scope R_scope.

Lemma four_dl : 4 * / 2 ^ 40 = / 2 ^ 38.
Proof. change (2 ^ 40) with (2 ^ (38 + 2)). rewrite pow_add. replace (2 ^ 2) with 4 by lra. field. Qed.

(** C91.  [log_near]: see C89.  [exp_mid L]: for arguments up to 100 in size the library's exp is finite and off by no more than
    2^-51 of its value.  Then all candidates for a width inside its range, enlarged by 2^-38, are inside that range. *)
Theorem C91_candidates : forall L, log_near L -> exp_mid L -> forall (C : Cfg (B64 L)) (U : User (B64 L)) m ip (b h : b64) out, (2 <= m <= 2 ^ 31)%Z ->
  let lo : b64 := nth (Z.to_nat ip) (u_sigmin U) (bof 0) in let hi : b64 := nth (Z.to_nat ip) (u_sigmax U) (bof 0) in
  let J : b64 := sigma_jumpin_ratio C in
  let width (x : b64) := is_finite x = true /\ B2R lo * (1 - / 2 ^ 38) <= B2R x <= B2R hi * (1 + / 2 ^ 38) in
  is_finite lo = true -> is_finite hi = true -> is_finite J = true -> / 2 ^ 60 <= B2R lo -> B2R hi <= 2 ^ 60 -> 1 <= B2R J <= 2 ^ 20 ->
  B2R lo * B2R J <= B2R hi -> width b -> is_finite h = true -> 1 <= B2R h <= 2 ^ 20 ->
  check_bounce C U m (create_logspace_array (A := B64 L) b h m) ip = OK out ->
  List.length out = Z.to_nat m /\ forall x, In x out -> width x.
Proof.
  intros L HL HE C U m ip b h out Hm lo hi J width H1 H2 H3 H4 H5 H6 H7 Hb H8 H9 H. unfold width in *. rewrite <- four_dl in *. split.
  - pose proof (bounce_cases64 L C U m ip _ _ H) as E. cbv zeta in E. rewrite E.
    match goal with |- List.length (if ?x then _ else if ?y then _ else _) = _ => destruct x, y; exact (arr_len L _ _ _) end.
  - exact (bounce_64 L HL HE C U m ip Hm H1 H2 H3 H4 H5 H6 H7 b h out Hb H8 H9 H).
Qed.
Print Assumptions C91_candidates.

(** So all widths used in all batches of all runs, and all lines of all the files gaussian_prop.chain<r>, are finite and in the
    range enlarged by 2^-38. *)
Theorem C91_run : forall L, log_near L -> exp_mid L -> forall S : Setup (B64 L), Legal S ->
  let C := s_cfg S in let U := s_user S in
  let lo p : b64 := nth (Z.to_nat p) (u_sigmin U) (bof 0) in let hi p : b64 := nth (Z.to_nat p) (u_sigmax U) (bof 0) in
  let J : b64 := sigma_jumpin_ratio C in let h : b64 := sigma_scale_half_ratio C in
  let inside (w : list b64) := forall p, (0 <= p < N_parm C)%Z -> let x := nth (Z.to_nat p) w (bof 0) in
     is_finite x = true /\ B2R (lo p) * (1 - / 2 ^ 38) <= B2R x <= B2R (hi p) * (1 + / 2 ^ 38) in
  (forall p, (0 <= p < N_parm C)%Z -> is_finite (lo p) = true /\ is_finite (hi p) = true /\ / 2 ^ 60 <= B2R (lo p) /\ B2R (hi p) <= 2 ^ 60 /\
     B2R (lo p) * B2R J <= B2R (hi p)) ->
  is_finite J = true -> 1 <= B2R J <= 2 ^ 20 -> is_finite h = true -> 1 <= B2R h <= 2 ^ 20 ->
  (n_iter_in_tune C <= INT_MAX)%Z -> is_nan (ar_best C : b64) = false -> is_nan (ar_accept_diff C : b64) = false ->
  (forall p, (0 <= p < N_parm C)%Z -> let g := nth (Z.to_nat p) (u_gp U) (bof 0) : b64 in is_finite g = true /\ B2R (lo p) <= B2R g <= B2R (hi p)) ->
  (forall D G0 hh Gf, history S D G0 hh Gf ->
     forall s, In s hh -> forall b, In b (sr_batches s) -> forall r, (r < s_n S)%nat -> inside (l_sig (loc_at (br_pre b) r))) /\
  (forall k tr X, execution S k tr X -> forall r, (r < s_n S)%nat -> forall ev, In ev (file (FSigma r) tr) -> exists w, ev = EvSigma r w /\ inside w).
Proof.
  intros L HL HE S HS C U lo hi J h inside H1 H2 H3 H4 H5 H6 H7 H8 H9.
  pose proof HS as [_ [VC _]]. pose proof (vc_n _ _ VC) as Hn. pose proof (vc_nmax _ _ VC) as Hx. pose proof (vc_tune _ _ VC) as Ht.
  set (W := fun (p : Z) (x : b64) => is_finite x = true /\ B2R (lo p) * (1 - / 2 ^ 38) <= B2R x <= B2R (hi p) * (1 + / 2 ^ 38)).
  assert (P38 : 0 < / 2 ^ 38) by (apply Rinv_0_lt_compat, pow_lt; lra).
  assert (P60 : 0 < / 2 ^ 60) by (apply Rinv_0_lt_compat, pow_lt; lra).
  assert (Hgp : Width64.inside S W (u_gp U)).
  { intros p Hp. destruct (H9 p Hp) as [F R]. destruct (H1 p Hp) as [_ [_ [Q1 [_ Q3]]]]. split; [exact F|].
    assert (0 <= B2R (lo p) * / 2 ^ 38) by (apply Rmult_le_pos; lra). assert (0 <= B2R (hi p) * / 2 ^ 38) by (apply Rmult_le_pos; lra).
    change (B2R (lo p) * (1 - / 2 ^ 38) <= B2R (nth (Z.to_nat p) (u_gp U) (bof 0) : b64) <= B2R (hi p) * (1 + / 2 ^ 38)). lra. }
  assert (Hc : forall row p, Width64.inside S W row -> (0 <= p < N_parm C)%Z -> forall out,
    check_bounce C U (zn (s_n S)) (create_logspace_array (nth (Z.to_nat p) row (nof 0)) (sigma_scale_half_ratio C) (zn (s_n S))) p = OK out -> forall x, In x out -> W p x).
  { intros row p HW Hp out E. destruct (H1 p Hp) as [Q1 [Q2 [Q3 [Q4 Q5]]]].
    refine (proj2 (C91_candidates L HL HE C U (zn (s_n S)) p (nth (Z.to_nat p) row (nof 0)) h out _ Q1 Q2 H2 Q3 Q4 H3 Q5 (HW p Hp) H4 H5 E)).
    unfold zn. unfold INT_MAX in Hx. lia. }
  pose proof (run_inside S HS W Hc _ (comparable_B64 L) (rates_ok_B64 L C (conj Ht H6) H7 H8) Hgp) as RI.
  split.
  - intros D G0 hh Gf HH. exact (proj2 (RI D G0 hh Gf HH)).
  - intros k tr X HX r Hr ev Hev. destruct (history_exists S HS) as [D [G0 [hh [Gf HH]]]].
    destruct (sigma_file S HS D G0 hh Gf HH k tr X HX r Hr) as [rest [E _]].
    assert (I : In ev (file (FSigma r) tr ++ rest)) by (apply in_or_app; auto). rewrite <- E in I. destruct I as [<-|I].
    + exists (u_gp U). split; [reflexivity|exact Hgp].
    + apply in_map_iff in I. destruct I as [s [<- Hs]]. exists (l_sig (loc_at (sr_pre s) r)). split; [reflexivity|].
      destruct (stack_widths S HS D _ _ _ HH s Hs (sr_pre s) (or_introl eq_refl)) as [_ Ww]. rewrite (Ww r Hr).
      apply (proj1 (RI D G0 hh Gf HH)); auto. unfold states. right. apply in_or_app. left. apply in_concat. exists (sstates s).
      split; [apply in_map; exact Hs|]. unfold sstates. left. reflexivity.
Qed.
Print Assumptions C91_run.

(** ** the shipped configurations *)
Definition two60 : b64 := @B754_finite prec emax false 4503599627370496 8 eq_refl.
Definition two_60 : b64 := @B754_finite prec emax false 4503599627370496 (-112) eq_refl.
Lemma two60_val : B2R two60 = 2 ^ 60.
Proof. unfold two60, B2R, F2R. cbn [cond_Zopp Fnum Fexp]. change (bpow radix2 8) with 256. replace (2 ^ 60) with (2 ^ (52 + 8)) by reflexivity. rewrite pow_add. replace (2 ^ 8) with 256 by lra. f_equal. replace (IZR 4503599627370496) with (IZR (2 ^ Z.of_nat 52)) by reflexivity. symmetry. apply pow_IZR. Qed.
Lemma two_60_val : B2R two_60 = / 2 ^ 60.
Proof.
  assert (E : B2R two_60 = bpow radix2 (-60)). { unfold two_60, B2R, F2R. cbn [cond_Zopp Fnum Fexp]. change 4503599627370496 with (bpow radix2 52). rewrite <- bpow_plus. reflexivity. }
  rewrite E. change (-60)%Z with (- (60))%Z. rewrite bpow_opp. f_equal. rewrite <- IZR_Zpower by lia. change (Zpower radix2 60) with (Z.pow 2 (Z.of_nat 60)). rewrite <- pow_IZR. reflexivity.
Qed.

(** a test that implies the conditions of [C91_run] *)
Definition wtest L (C : Cfg (B64 L)) (U : User (B64 L)) : bool :=
  let J : b64 := sigma_jumpin_ratio C in let h : b64 := sigma_scale_half_ratio C in
  is_finite J && is_finite h && Bleb (bof 1) J && Bleb J (bof 512) && Bleb (bof 1) h && Bleb h (bof 512) &&
  (n_iter_in_tune C <=? INT_MAX)%Z && negb (is_nan (ar_best C : b64)) && negb (is_nan (ar_accept_diff C : b64)) &&
  forallb (fun p => let lo : b64 := nth p (u_sigmin U) (bof 0) in let hi : b64 := nth p (u_sigmax U) (bof 0) in let g : b64 := nth p (u_gp U) (bof 0) in
    is_finite lo && is_finite hi && is_finite g && Bleb two_60 lo && Bleb hi two60 && Bleb (Bmult mode_NE lo (bof 1024)) hi && Bleb lo g && Bleb g hi)
    (seq 0 (Z.to_nat (N_parm C))).

Lemma Bleb_R : forall x y : b64, Bleb x y = true -> is_finite x = true -> is_finite y = true -> B2R x <= B2R y.
Proof. intros x y E Fx Fy. rewrite (Bleb_correct _ _ _ _ Fx Fy) in E. revert E. case Rle_bool_spec; auto. discriminate. Qed.

Lemma wtest_ok : forall L (C : Cfg (B64 L)) (U : User (B64 L)), wtest L C U = true ->
  let lo p : b64 := nth (Z.to_nat p) (u_sigmin U) (bof 0) in let hi p : b64 := nth (Z.to_nat p) (u_sigmax U) (bof 0) in
  let J : b64 := sigma_jumpin_ratio C in let h : b64 := sigma_scale_half_ratio C in
  (forall p, (0 <= p < N_parm C)%Z -> is_finite (lo p) = true /\ is_finite (hi p) = true /\ / 2 ^ 60 <= B2R (lo p) /\ B2R (hi p) <= 2 ^ 60 /\
     B2R (lo p) * B2R J <= B2R (hi p)) /\
  is_finite J = true /\ 1 <= B2R J <= 2 ^ 20 /\ is_finite h = true /\ 1 <= B2R h <= 2 ^ 20 /\
  (n_iter_in_tune C <= INT_MAX)%Z /\ is_nan (ar_best C : b64) = false /\ is_nan (ar_accept_diff C : b64) = false /\
  (forall p, (0 <= p < N_parm C)%Z -> let g := nth (Z.to_nat p) (u_gp U) (bof 0) : b64 in is_finite g = true /\ B2R (lo p) <= B2R g <= B2R (hi p)).
Proof.
  intros L C U H lo hi J h. unfold wtest in H. cbv zeta in H. fold J h in H. rewrite !andb_true_iff in H.
  destruct H as [[[[[[[[[T1 T2] T3] T4] T5] T6] T7] T8] T9] T10].
  destruct (bof_ok 1 ltac:(lia)) as [V1 F1]. destruct (bof_ok 512 ltac:(lia)) as [V5 F5]. destruct (bof_ok 1024 ltac:(lia)) as [VK FK].
  apply Bleb_R in T3, T4, T5, T6; auto. rewrite V1 in T3, T5. rewrite V5 in T4, T6.
  assert (P20 : 2 ^ 20 = 1048576) by lra.
  assert (HP : forall p, (0 <= p < N_parm C)%Z -> is_finite (lo p) = true /\ is_finite (hi p) = true /\ is_finite (nth (Z.to_nat p) (u_gp U) (bof 0) : b64) = true /\
    / 2 ^ 60 <= B2R (lo p) /\ B2R (hi p) <= 2 ^ 60 /\ B2R (lo p) * B2R J <= B2R (hi p) /\ B2R (lo p) <= B2R (nth (Z.to_nat p) (u_gp U) (bof 0) : b64) <= B2R (hi p)).
  { intros p Hp. rewrite forallb_forall in T10. specialize (T10 (Z.to_nat p) ltac:(apply in_seq; lia)).
    cbv zeta in T10. fold (lo p) (hi p) in T10. set (g := nth (Z.to_nat p) (u_gp U) (bof 0) : b64) in *. rewrite !andb_true_iff in T10.
    destruct T10 as [[[[[[[A1 A2] A3] A4] A5] A6] A7] A8]. apply Bleb_R in A4, A5, A7, A8; auto. rewrite two_60_val in A4. rewrite two60_val in A5.
    assert (P : 0 < / 2 ^ 60) by (apply Rinv_0_lt_compat, pow_lt; lra).
    assert (HA : B2R (lo p) <= 2 ^ 60) by lra.
    assert (E60 : bpow radix2 70 = 2 ^ 60 * 1024). { change 70%Z with (60 + 10)%Z. rewrite bpow_plus. change (bpow radix2 10) with 1024. f_equal. rewrite <- IZR_Zpower by lia. change (Zpower radix2 60) with (Z.pow 2 (Z.of_nat 60)). rewrite <- pow_IZR. reflexivity. }
    destruct (bmult_ok (lo p) (bof 1024) A1 FK) as [VM FM]. { apply (rnd_small _ 70); [lia|]. rewrite VK, E60, Rabs_pos_eq by lra. lra. }
    apply Bleb_R in A6; auto. rewrite VM, VK in A6.
    destruct (rnd_ex (B2R (lo p) * 1024)) as [e [Ae Re]].
    { apply Rle_trans with (/ 2 ^ 60); [|lra]. rewrite <- two_60_val. unfold two_60, B2R, F2R. cbn [cond_Zopp Fnum Fexp]. change 4503599627370496 with (bpow radix2 52). rewrite <- bpow_plus. apply bpow_le. lia. }
    apply Rabs_le_inv in Ae. pose proof (near2 (B2R (lo p) * 1024) e ltac:(lra) Ae) as N. rewrite <- Re in N.
    assert (B2R (lo p) * B2R J <= B2R (lo p) * 512) by (apply Rmult_le_compat_l; lra).
    repeat split; auto; lra. }
  apply Z.leb_le in T7. apply negb_true_iff in T8, T9.
  split; [intros p Hp; destruct (HP p Hp) as [? [? [? [? [? [? ?]]]]]]; auto 10|]. repeat (split; [first [assumption|lra]|]).
  intros p Hp. destruct (HP p Hp) as [? [? [? [? [? [? ?]]]]]]. auto.
Qed.

Lemma ship_wtest : forall L s, wtest L (ini_cfg (ship_ini (B64 L) s)) (ship_user (B64 L) s) = true.
Proof. intros L s. destruct s; vm_compute; reflexivity. Qed.

(** In every run of every shipped configuration every line of every file gaussian_prop.chain<r> has widths that are finite,
    and in the range enlarged by 2^-38; in particular positive. *)
Theorem C91_shipped : forall L, log_near L -> exp_mid L -> forall scan_lf atof, Decimals (A := B64 L) scan_lf atof ->
  forall s ls tss, two_columns atof ls tss -> forall time S,
  launch scan_lf atof s (ship_file s) (unlines ls) (ship_ranks s) time = OK S ->
  forall k tr X, execution S k tr X -> forall r, (r < ship_ranks s)%nat ->
  forall ev, In ev (file (FSigma r) tr) -> exists w, ev = EvSigma r w /\
    forall p, (0 <= p < N_parm (s_cfg S))%Z -> let x := nth (Z.to_nat p) w (bof 0) : b64 in
      is_finite x = true /\ 0 < B2R x /\
      B2R (nth (Z.to_nat p) (u_sigmin (s_user S)) (bof 0) : b64) * (1 - / 2 ^ 38) <= B2R x <= B2R (nth (Z.to_nat p) (u_sigmax (s_user S)) (bof 0) : b64) * (1 + / 2 ^ 38).
Proof.
  intros L HL HE scan_lf atof HD s ls tss HT time S E k tr X HX r Hr ev Hev.
  pose proof (launch_legal _ (RandOK_b64 L) _ _ HD s ls tss HT time S E) as HS.
  rewrite launch_eq in E by exact HD. injection E as E.
  assert (EC : s_cfg S = ini_cfg (ship_ini (B64 L) s)) by (subst S; reflexivity).
  assert (EU : s_user S = ship_user (B64 L) s) by (subst S; reflexivity).
  assert (En : s_n S = ship_ranks s) by (subst S; reflexivity).
  pose proof (ship_wtest L s) as T. rewrite <- EC, <- EU in T. apply wtest_ok in T. cbv zeta in T.
  destruct T as [T1 [T2 [T3 [T4 [T5 [T6 [T7 [T8 T9]]]]]]]].
  destruct (C91_run L HL HE S HS T1 T2 T3 T4 T5 T6 T7 T8 T9) as [_ K].
  destruct (K k tr X HX r ltac:(rewrite En; exact Hr) ev Hev) as [w [-> Kw]]. exists w. split; [reflexivity|]. intros p Hp x.
  destruct (Kw p Hp) as [F R]. fold x in F, R. split; [exact F|]. split; [|exact R].
  destruct (T1 p Hp) as [_ [_ [Q _]]]. assert (P60 : 0 < / 2 ^ 60) by (apply Rinv_0_lt_compat, pow_lt; lra).
  assert (P38 : / 2 ^ 38 < 1). { rewrite <- Rinv_1. apply Rinv_lt_contravar; [rewrite Rmult_1_l; apply pow_lt; lra|apply Rlt_pow_R1; [lra|lia]]. }
  eapply Rlt_le_trans; [|apply R]. apply Rmult_lt_0_compat; lra.
Qed.
Print Assumptions C91_shipped.

(** a range whose lower end is missed *)
Definition w_lo : b64 := @B754_finite prec emax false 9007199254740991 (-53) eq_refl.
Definition w_x : b64 := @B754_finite prec emax false 9007199254740990 (-53) eq_refl.
Definition w_user L : User (B64 L) := let u := demo_user (B64 L) in mkUser (B64 L) (u_logll u) (u_logprior u) (u_bound u) (u_init u) [w_lo] [w_lo] [bof 1000].

Lemma w_vals : B2R w_lo = 1 - / 2 ^ 53 /\ B2R w_x = 1 - 2 * / 2 ^ 53.
Proof.
  assert (V : bpow radix2 (-53) = / 2 ^ 53). { change (-53)%Z with (- (53))%Z. rewrite bpow_opp. f_equal. rewrite <- IZR_Zpower by lia. change (Zpower radix2 53) with (Z.pow 2 (Z.of_nat 53)). rewrite <- pow_IZR. reflexivity. }
  assert (T : 2 ^ 53 = IZR 9007199254740992). { rewrite pow_IZR. reflexivity. }
  assert (I : IZR 9007199254740992 * / 2 ^ 53 = 1). { rewrite <- T. apply Rinv_r. apply pow_nonzero. lra. }
  unfold w_lo, w_x, B2R, F2R. cbn [cond_Zopp Fnum Fexp]. rewrite V. clear V T. split; lra.
Qed.
Lemma w_div : Bdiv mode_NE (Bmult mode_NE w_lo (Bsqrt mode_NE (bof 300))) (Bsqrt mode_NE (bof 300)) = w_x.
Proof. apply B2SF_inj. vm_compute. reflexivity. Qed.

Lemma w_first : forall L, log_near L -> (forall x : b64, is_finite x = true -> Rabs (B2R x) <= 100 -> is_finite (l_exp L x) = true /\ B2R (l_exp L x) = rnd (exp (B2R x))) ->
  forall b q : b64, is_finite q = true -> Bdiv mode_NE b q = w_x -> is_finite b = true -> 1 <= B2R b * B2R q <= 1000 ->
  is_finite (nth 0 (create_logspace_array (A := B64 L) b q 2) (bof 0) : b64) = true /\ B2R (nth 0 (create_logspace_array (A := B64 L) b q 2) (bof 0) : b64) < B2R w_lo.
Proof.
  intros L HL HE b q Fq ED Fb Hbq. destruct w_vals as [VL VX]. pose proof u53_pos as U. set (v := / 2 ^ 53) in *.
  assert (E : nth 0 (create_logspace_array (A := B64 L) b q 2) (bof 0) =
    l_exp L (Bplus mode_NE (l_log L w_x) (Bmult mode_NE (Bdiv mode_NE (Bminus mode_NE (l_log L (Bmult mode_NE b q)) (l_log L w_x)) (bof 1)) (bof 0)))).
  { rewrite <- ED. reflexivity. }
  assert (B10 : bpow radix2 10 = 1024) by reflexivity.
  destruct (bmult_ok b q Fb Fq) as [VM FM]. { apply (rnd_small _ 10); [lia|]. rewrite B10, Rabs_pos_eq; lra. }
  destruct (rnd_ex (B2R b * B2R q)) as [e [Ae Re]]. { apply Rle_trans with 1; [|lra]. change 1 with (bpow radix2 0). apply bpow_le. lia. }
  rewrite Re in VM.
  assert (P83 : 1000 <= 2 ^ 83). { apply Rle_trans with (2 ^ 10); [lra|]. apply Rle_pow; [lra|lia]. }
  assert (N83 : / 2 ^ 83 <= / 1000) by (apply Rinv_le_contravar; lra).
  destruct (log_64n L HL _ _ _ FM VM Ae ltac:(lra)) as [G2 N2]. fold v in N2. set (l2 := l_log L (Bmult mode_NE b q)) in *.
  assert (L2 : Rabs (ln (B2R b * B2R q)) <= 10).
  { replace 10 with (INR 10) by (rewrite INR_IZR_INZ; reflexivity). apply ln_abs_pow. replace (2 ^ 10) with 1024 by lra. lra. }
  destruct (HL w_x eq_refl ltac:(rewrite VX; lra)) as [G1 N1]. set (l1 := l_log L w_x) in *. rewrite VX in N1.
  assert (X1 : ln (1 - 2 * v) <= - (2 * v)). { rewrite <- (ln_exp (- (2 * v))). left. apply ln_increasing; [lra|]. replace (1 - 2 * v) with (1 + - (2 * v)) by ring. apply exp_ineq1. lra. }
  assert (X2 : - (3 * v) <= ln (1 - 2 * v)).
  { rewrite <- (ln_exp (- (3 * v))). pose proof (exp_neg_le (3 * v) ltac:(lra)) as E3. assert (E4 : exp (- (3 * v)) < 1 - 2 * v).
    { eapply Rle_lt_trans; [exact E3|]. apply (Rmult_lt_reg_r (1 + 3 * v)); [lra|]. rewrite Rinv_l by lra. nra. }
    left. apply ln_increasing; [apply exp_pos|exact E4]. }
  assert (V100 : / 2 ^ 100 <= v / 100000).
  { unfold v. change 100%nat with (53 + 47)%nat. rewrite pow_add, Rinv_mult. unfold Rdiv. apply Rmult_le_compat_l; [lra|]. apply Rinv_le_contravar; [lra|]. apply Rle_trans with (2 ^ 20); [lra|apply Rle_pow; [lra|lia]]. }
  rewrite (Rabs_left1 (ln (1 - 2 * v))) in N1 by lra. 
  assert (M1 : - (31 / 10 * v) <= B2R l1 <= - (19 / 10 * v)). { unfold Rdiv in N1. apply Rabs_le_inv in N1. assert (v * v <= v / 1000) by nra. fold v in N1. nra. }
  assert (B1000 : 32 <= bpow radix2 1000) by (change 32 with (bpow radix2 5); apply bpow_le; lia).
  apply Rabs_le_inv in N2. apply Rabs_le_inv in L2.
  destruct (bsub_near l2 l1 12 G2 G1 ltac:(lra)) as [Fd Nd]. { apply Rabs_le. lra. }
  set (d := Bminus mode_NE l2 l1) in *. fold v in Nd. apply Rabs_le_inv in Nd.
  destruct (bof_ok 1 ltac:(lia)) as [W1 Y1]. destruct (bof_ok 0 ltac:(lia)) as [W0 Y0].
  destruct (bdiv_ok d (bof 1) Fd ltac:(rewrite W1; lra)) as [_ Ft]. { rewrite W1. apply (rnd_small _ 4); [lia|]. change (bpow radix2 4) with 16. apply Rabs_le. lra. }
  set (t := Bdiv mode_NE d (bof 1)) in *.
  destruct (bmult_ok t (bof 0) Ft Y0) as [Vp Fp]. { rewrite W0, Rmult_0_r. apply (rnd_small _ 0); [lia|]. rewrite Rabs_R0. apply bpow_ge_0. }
  rewrite W0, Rmult_0_r, rnd_0 in Vp. set (p := Bmult mode_NE t (bof 0)) in *.
  destruct (bplus_ok l1 p G1 Fp) as [Vy Fy]. { rewrite Vp, Rplus_0_r. apply (rnd_small _ 0); [lia|]. change (bpow radix2 0) with 1. apply Rabs_le. lra. }
  rewrite Vp, Rplus_0_r, rnd_id in Vy by apply fmt_B2R. set (y := Bplus mode_NE l1 p) in *.
  destruct (HE y Fy) as [Fe Ve]. { rewrite Vy. apply Rabs_le. lra. }
  assert (K : is_finite (l_exp L y) = true /\ B2R (l_exp L y) < B2R w_lo).
  { split; [exact Fe|]. rewrite Ve, VL, Vy. set (z := exp (B2R l1)).
    assert (Z1 : z <= 1 - 18 / 10 * v).
    { unfold z. apply Rle_trans with (exp (- (19 / 10 * v))); [apply exp_mono; lra|]. eapply Rle_trans; [apply exp_neg_le; lra|]. apply (Rmult_le_reg_r (1 + 19 / 10 * v)); [lra|]. rewrite Rinv_l by lra. nra. }
    assert (Z0 : 0 < z) by apply exp_pos. pose proof (rnd_err z 0 ltac:(lia)) as R. change (bpow radix2 0) with 1 in R. rewrite (Rabs_pos_eq z) in R by lra. specialize (R ltac:(lra)).
    assert (V54 : bpow radix2 (0 - 54) = v / 2). { change (0 - 54)%Z with (-53 + -1)%Z. rewrite bpow_plus. change (bpow radix2 (-1)) with (/ 2). unfold Rdiv. f_equal. unfold v. change (-53)%Z with (- (53))%Z. rewrite bpow_opp. f_equal. rewrite <- IZR_Zpower by lia. change (Zpower radix2 53) with (Z.pow 2 (Z.of_nat 53)). rewrite <- pow_IZR. reflexivity. }
    rewrite V54 in R. apply Rabs_le_inv in R. lra. }
  change (nth 0 (create_logspace_array (A := B64 L) b q 2) (bof 0)) with (nth 0 (create_logspace_array (A := B64 L) b q 2) (bof 0) : b64) in E.
  rewrite <- E in K. exact K.
Qed.

Lemma exp_small : forall x, Rabs x <= 100 -> bpow radix2 (-1000) <= exp x <= bpow radix2 1000.
Proof.
  intros x A. apply Rabs_le_inv in A.
  assert (E : exp 100 <= bpow radix2 1000).
  { replace 100 with (INR 100) by (rewrite INR_IZR_INZ; reflexivity). eapply Rle_trans; [apply exp_nat3|].
    change 100%nat with (Z.to_nat 100). rewrite pow_IZR, <- IZR_Zpower by lia. apply IZR_le. apply Z.leb_le. vm_compute. reflexivity. }
  split; [|eapply Rle_trans; [|exact E]; apply exp_mono; lra].
  apply Rle_trans with (exp (- (100))); [|apply exp_mono; lra]. rewrite exp_Ropp. change (-1000)%Z with (- (1000))%Z. rewrite bpow_opp.
  apply Rinv_le_contravar; [apply exp_pos|exact E].
Qed.
Lemma round_mid : forall L, (forall x : b64, is_finite x = true -> Rabs (B2R x) <= 100 -> is_finite (l_exp L x) = true /\ B2R (l_exp L x) = rnd (exp (B2R x))) -> exp_mid L.
Proof.
  intros L HE x F A. destruct (HE x F A) as [F1 V]. split; [exact F1|]. rewrite V. destruct (rnd_ex _ (proj1 (exp_small _ A))) as [e [Ae Re]]. rewrite Re.
  replace (exp (B2R x) * (1 + e) - exp (B2R x)) with (exp (B2R x) * e) by ring.
  pose proof (exp_pos (B2R x)). rewrite Rabs_mult, (Rabs_pos_eq (exp (B2R x))) by lra. unfold Rdiv. apply Rmult_le_compat_l; [lra|].
  eapply Rle_trans; [exact Ae|]. apply Rinv_le_contravar; [apply pow_lt; lra|apply Rle_pow; [lra|lia]].
Qed.

(** Not in the range itself: with correctly rounded exp, jumpin 300 and the lower end 1 - 2^-53 the least candidate for that width is
    below it, by 2^-53. *)
Theorem C91_exact_refuted : forall L, log_near L ->
  (forall x : b64, is_finite x = true -> Rabs (B2R x) <= 100 -> is_finite (l_exp L x) = true /\ B2R (l_exp L x) = rnd (exp (B2R x))) ->
  exists (C : Cfg (B64 L)) (U : User (B64 L)) out, let lo : b64 := nth 0 (u_sigmin U) (bof 0) in let hi : b64 := nth 0 (u_sigmax U) (bof 0) in
  let J : b64 := sigma_jumpin_ratio C in let h : b64 := sigma_scale_half_ratio C in
  is_finite lo = true /\ is_finite hi = true /\ J = bof 300 /\ h = bof 20 /\ / 2 ^ 60 <= B2R lo /\ B2R hi <= 2 ^ 60 /\ B2R lo * B2R J <= B2R hi /\
  check_bounce C U 2 (create_logspace_array (A := B64 L) lo h 2) 0 = OK out /\ exists x : b64, In x out /\ is_finite x = true /\ B2R x < B2R lo.
Proof.
  intros L HL HE. destruct w_vals as [VL VX]. pose proof u53_pos as UV.
  pose proof (round_mid L HE) as HM.
  set (q := Bsqrt mode_NE (bof 300) : b64). set (b1 := Bmult mode_NE w_lo q : b64).
  destruct (bof_ok 20 ltac:(lia)) as [V20 F20]. destruct (bof_ok 1000 ltac:(lia)) as [VK FK]. destruct (bof_ok 300 ltac:(lia)) as [V3 F3].
  destruct (bof_ok 18 ltac:(lia)) as [V18 F18]. destruct (bof_ok 17 ltac:(lia)) as [V17 F17].
  assert (Fq : is_finite q = true) by (vm_compute; reflexivity). assert (F1 : is_finite b1 = true) by (vm_compute; reflexivity).
  assert (Q : 17 <= B2R q <= 18). { rewrite <- V17, <- V18. split; apply Bleb_R; auto; vm_compute; reflexivity. }
  assert (B : 17 <= B2R b1 <= 18). { rewrite <- V17, <- V18. split; apply Bleb_R; auto; vm_compute; reflexivity. }
  assert (P62 : 1000 <= 2 ^ 62). { apply Rle_trans with (2 ^ 10); [lra|]. apply Rle_pow; [lra|lia]. }
  assert (P20 : 2 ^ 20 = 1048576) by lra.
  assert (N62 : / 2 ^ 62 <= / 1000) by (apply Rinv_le_contravar; lra).
  assert (P60 : 1000 <= 2 ^ 60). { apply Rle_trans with (2 ^ 10); [lra|]. apply Rle_pow; [lra|lia]. }
  assert (N60 : / 2 ^ 60 <= / 1000) by (apply Rinv_le_contravar; lra).
  assert (D : 0 < / 2 ^ 40 <= / 1000). { rewrite dl_v. lra. }
  destruct (arr_range L HL HM w_lo (bof 20) 2 eq_refl F20 ltac:(lra) ltac:(rewrite V20; lra) ltac:(lia)) as [_ [[Fa Ra] _]].
  destruct (arr_range L HL HM b1 q 2 F1 Fq ltac:(lra) ltac:(lra) ltac:(lia)) as [Xb [_ [Fz _]]].
  destruct (w_first L HL HE b1 q Fq w_div F1) as [Fw Rw]. { split; nra. }
  set (a := nth 0 (create_logspace_array (A := B64 L) w_lo (bof 20) 2) (bof 0) : b64) in *.
  set (ar := create_logspace_array (A := B64 L) b1 q 2) in *.
  assert (T1 : Bltb a w_lo = true). { rewrite (Bltb_correct _ _ _ _ Fa (eq_refl : is_finite w_lo = true)). apply Rlt_bool_true. rewrite V20, VL in Ra. rewrite VL. nra. }
  assert (T2 : Bltb (bof 1000) (nth 1 ar (bof 0)) = false).
  { change (Z.to_nat (2 - 1)) with 1%nat in Fz. rewrite (Bltb_correct _ _ _ _ FK Fz). apply Rlt_bool_false.
    destruct (Xb (nth 1 ar (bof 0))) as [_ R]; [apply nth_In; unfold ar; rewrite arr_len; cbv; lia|]. rewrite VK. eapply Rle_trans; [apply R|]. apply Rle_trans with (18 * 18 * 2); [|lra].
    apply Rmult_le_compat; try lra; [apply Rmult_le_pos; lra|]. apply Rmult_le_compat; lra. }
  exists (demo_cfg (B64 L)), (w_user L), ar. cbv zeta. split; [reflexivity|]. split; [reflexivity|]. split; [reflexivity|]. split; [reflexivity|].
  change (nth 0 (u_sigmin (w_user L)) (bof 0)) with w_lo. change (nth 0 (u_sigmax (w_user L)) (bof 0)) with (bof 1000).
  change (sigma_jumpin_ratio (demo_cfg (B64 L))) with (bof 300). change (sigma_scale_half_ratio (demo_cfg (B64 L))) with (bof 20).
  split; [lra|]. split; [rewrite VK; lra|]. split; [rewrite VK, V3; lra|]. split.
  - assert (E : check_bounce (demo_cfg (B64 L)) (w_user L) 2 (create_logspace_array (A := B64 L) w_lo (bof 20) 2) 0 =
      let* al := zget (if Bltb a w_lo then ar else create_logspace_array (A := B64 L) w_lo (bof 20) 2) 1 in
      OK (if Bltb (bof 1000) al then create_logspace_array (A := B64 L) (Bdiv mode_NE (bof 1000) q) q 2 else (if Bltb a w_lo then ar else create_logspace_array (A := B64 L) w_lo (bof 20) 2))) by reflexivity.
    rewrite E, T1. change (zget ar 1) with (OK (nth 1 ar (bof 0))). cbn [rbind]. rewrite T2. reflexivity.
  - exists (nth 0 ar (bof 0)). split; [apply nth_In; unfold ar; rewrite arr_len; cbv; lia|]. split; assumption.
Qed.
Print Assumptions C91_exact_refuted.

(** correctly rounded functions meet these conditions *)
Example C91_case : log_near nan_libm /\ exp_mid nan_libm /\
  (forall x : b64, is_finite x = true -> Rabs (B2R x) <= 100 -> is_finite (l_exp nan_libm x) = true /\ B2R (l_exp nan_libm x) = rnd (exp (B2R x))) /\
  forall s time, Decimals (A := B64 nan_libm) dec_lf dec_atof /\ two_columns (A := B64 nan_libm) dec_atof two_lines two_tokens /\
  exists S, launch (A := B64 nan_libm) dec_lf dec_atof s (ship_file s) (unlines two_lines) (ship_ranks s) time = OK S /\ Legal S /\
    wtest nan_libm (s_cfg S) (s_user S) = true.
Proof.
  assert (R : forall x : b64, is_finite x = true -> Rabs (B2R x) <= 100 -> is_finite (l_exp nan_libm x) = true /\ B2R (l_exp nan_libm x) = rnd (exp (B2R x))).
  { intros x F A. assert (E : l_exp nan_libm x = to_b64 (exp (B2R x))) by (destruct x; try discriminate; reflexivity). rewrite E.
    apply to_b64_big. pose proof (exp_pos (B2R x)). rewrite Rabs_pos_eq by lra. apply exp_small. exact A. }
  split; [exact full_log|]. split; [apply round_mid; exact R|]. split; [exact R|]. intros s time.
  destruct (C66_case (B64 nan_libm) s time (RandOK_b64 nan_libm)) as [T1 [T2 [S [T3 [T4 _]]]]]. split; [exact T1|]. split; [exact T2|]. exists S. split; [exact T3|]. split; [exact T4|].
  rewrite launch_eq in T3 by exact T1. injection T3 as <-. exact (ship_wtest nan_libm s).
Qed.
