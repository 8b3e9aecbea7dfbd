(** What tuning does to the row of one rank. *)
From Coq Require Import ZArith Arith List Bool Lia.
From Verif Require Import Base Arith Rand Mh Ladder Tune Mpi MpiMeta Spmd Prog Seq ListAux MhSpec SeqWf Refine
  SeqTotal System SeqFiles History Views TuneOpt.
Import ListNotations.
Open Scope Z_scope.

Section Steps.
Context {A : Arith}.
Variable C : Cfg A.
Variable U : User A.
Variable n : nat.
Variable D : Data A.
Hypothesis RK : RandOK A.
Hypothesis VC : ValidCfg C n.
Hypothesis VU : ValidUser C U.
Notation row := (list (num A)).
Notation gst := (gst (A := A)).
Notation wf := (wf C n).
Notation hl := (haslen (N_parm C)).
Let UO : UserOK C U := vu_ok C U VU.
Let Hn : (2 <= n)%nat := vc_n C n VC.
Notation z0 := (nof 0 : num A).

(** acceptance rate of a trial chain: k steps from x with cached log-posterior lp *)
Definition trial_rate (x : row) (lp : num A) (sig : row) (beta : num A) (k g : Z) : num A :=
  ndiv (nof (ms_acc (mhn U D sig beta (Z.to_nat k) (mkMs x lp g 0)))) (nof k).

(** matrix cell *)
Definition cell (m : list row) (p j : Z) : num A := nth (Z.to_nat j) (nth (Z.to_nat p) m []) z0.

Lemma zget_dflt : forall {X} (l : list X) i v (d : X), zget l i = OK v -> 0 <= i < Z.of_nat (length l) /\ v = nth (Z.to_nat i) l d.
Proof. intros X l i v d H. exact (zget_nth_d C n VC l i v d H). Qed.

Lemma gen_cells : forall (sg : list row) rk al, gen_sigma_alltune C U (zn n) sg rk = OK al ->
  Z.of_nat (length al) = N_parm C /\
  forall p, 0 <= p < N_parm C ->
    check_bounce C U (zn n) (create_logspace_array (nth (Z.to_nat p) (nth (Z.to_nat rk) sg []) z0) (sigma_scale_half_ratio C) (zn n)) p
    = OK (nth (Z.to_nat p) al []).
Proof.
  intros sg rk al H. unfold gen_sigma_alltune in H. pose proof (vc_np C n VC) as Hp.
  apply (for_from_inv (fun i (out : list row) => Z.of_nat (length out) = i /\ forall p, 0 <= p < i ->
    check_bounce C U (zn n) (create_logspace_array (nth (Z.to_nat p) (nth (Z.to_nat rk) sg []) z0) (sigma_scale_half_ratio C) (zn n)) p
    = OK (nth (Z.to_nat p) out []))) in H.
  - destruct H as [H1 H2]. rewrite Z2Nat.id in * by lia. split; [lia|]. intros p Hpp. apply H2. lia.
  - split; auto. intros; lia.
  - intros i out out' Hi [H1 H2] H3. rinv. rewrite app_length. cbn [length]. split; [lia|].
    intros p Hpp. destruct (Z.eq_dec p (Z.of_nat (length out))) as [->|Hne].
    + rewrite app_nth2 by lia. replace (Z.to_nat (Z.of_nat (length out)) - length out)%nat with 0%nat by lia. cbn [nth].
      destruct (zget_dflt sg rk _ [] E) as [_ Er]. destruct (zget_dflt _ _ _ z0 E0) as [_ Es]. rewrite <- Er, <- Es. assumption.
    + rewrite app_nth1 by lia. apply H2. lia.
Qed.

Lemma matrix_rows : forall (sg : list row) rk al jp mat, tune_matrix (zn n) sg rk al jp = OK mat ->
  length mat = n /\
  forall j, (j < n)%nat -> nth j mat [] = lset (nth (Z.to_nat rk) sg []) (Z.to_nat jp) (cell al jp (Z.of_nat j)).
Proof.
  intros sg rk al jp mat H. unfold tune_matrix in H. unfold zn in H. rewrite Nat2Z.id in H.
  apply (for_from_inv (fun i (out : list row) => Z.of_nat (length out) = i /\ forall j, Z.of_nat j < i ->
    nth j out [] = lset (nth (Z.to_nat rk) sg []) (Z.to_nat jp) (cell al jp (Z.of_nat j)))) in H.
  - destruct H as [H1 H2]. split; [lia|]. intros j Hj. apply H2. lia.
  - split; auto. intros; lia.
  - intros i out out' Hi [H1 H2] H3. rinv. rewrite app_length. cbn [length]. split; [lia|].
    intros j Hj. destruct (Z.eq_dec (Z.of_nat j) (Z.of_nat (length out))) as [He|Hne].
    + rewrite app_nth2 by lia. replace (j - length out)%nat with 0%nat by lia. cbn [nth].
      destruct (zget_dflt sg rk _ [] E) as [_ ->]. destruct (zget_dflt al jp _ [] E0) as [_ Er]. destruct (zget_dflt _ _ _ z0 E1) as [_ Es]. rewrite <- He in Es.
      apply zset_ok_inv in E2. destruct E2 as [_ ->]. unfold cell. rewrite <- Er, <- Es. reflexivity.
    + rewrite app_nth1 by lia. apply H2. lia.
Qed.

(** rates of one parameter *)
Lemma parm_rates : forall rk al x lp jp G ars G' ars', wf G -> hl x -> 0 <= rk < zn n ->
  seq_tune_parm C U n D rk al x lp jp (G, ars) = OK (G', ars') ->
  exists rs, ars' = ars ++ [rs] /\ length rs = n /\
  forall j, (j < n)%nat ->
    nth j rs z0 = trial_rate x lp (lset (sigt_at G (Z.to_nat rk)) (Z.to_nat jp) (cell al jp (Z.of_nat j)))
                    (nth (Z.to_nat rk) (l_beta (loc_at G j)) z0) (n_iter_in_tune C) (l_g (loc_at G j)).
Proof.
  intros rk al x lp jp G ars G' ars' W Hx Hrk H. unfold seq_tune_parm in H. rinv.
  destruct (tune_matrix_shape C n Hn _ _ _ _ _ _ (wf_sigrow _ _ _ W) E) as [M1 M2].
  destruct (matrix_rows _ _ _ _ _ E) as [_ MR].
  pose proof (dist_view C n VC G v W M1) as [R1 R2].
  pose proof (seq_distribute_wf C n Hn G v W M1 M2) as W1.
  apply (tab_ok n _ _ (z0, 0)) in E0. destruct E0 as [L0 T0].
  exists (map fst v0). split; auto. split; [rewrite map_length; auto|]. intros j Hj.
  specialize (T0 j Hj). unfold tune_of in T0. rewrite (getloc_ok C n) in T0 by auto. cbn [rbind] in T0.
  rewrite (zget_z _ rk z0) in T0 by (rewrite (wf_beta _ _ _ W1) by (apply (loc_in C n); auto); auto).
  cbn [rbind] in T0.
  rewrite (iter_batch_mh_tune_spec U D (N_parm C)) in T0; auto.
  2:{ apply UO. }
  2:{ apply (wf_sig _ _ _ W1). apply (loc_in C n); auto. }
  2:{ apply (vc_tune C n VC). }
  destruct (R2 j Hj) as [S1 [S2 [_ [_ S5]]]].
  change (nth j (g_locs (seq_distribute G v)) dloc) with (loc_at (seq_distribute G v) j) in T0.
  assert (T1 : forall a b : num A * Z, OK a = OK b -> fst a = fst b) by (intros a b K; injection K; intros ->; reflexivity).
  apply T1 in T0. cbn [fst] in T0.
  rewrite S1, S2, S5 in T0. rewrite (MR j Hj) in T0.
  rewrite (map_nth2 fst v0 j (z0, 0)) by lia. rewrite <- T0. reflexivity.
Qed.

Lemma parms_rates : forall rk al x lp, hl x -> 0 <= rk < zn n -> forall k a G ars G' ars', wf G -> length ars = a ->
  foldM (map Z.of_nat (seq a k)) (seq_tune_parm C U n D rk al x lp) (G, ars) = OK (G', ars') ->
  length ars' = (a + k)%nat /\ (forall p, (p < a)%nat -> nth p ars' [] = nth p ars []) /\
  forall p, (a <= p < a + k)%nat -> length (nth p ars' []) = n /\
  forall j, (j < n)%nat -> exists g,
    nth j (nth p ars' []) z0 = trial_rate x lp (lset (sigt_at G (Z.to_nat rk)) p (cell al (Z.of_nat p) (Z.of_nat j)))
                    (nth (Z.to_nat rk) (l_beta (loc_at G j)) z0) (n_iter_in_tune C) g.
Proof.
  intros rk al x lp Hx Hrk. induction k as [|k IH]; intros a G ars G' ars' W La H; cbn [seq map foldM] in H; rinv.
  - split; [lia|]. split; auto. intros; lia.
  - destruct (seq_tune_parm_wf C U n Hn D _ _ _ _ _ _ _ _ _ W E) as [W1 L1].
    destruct (parm_rates _ _ _ _ _ _ _ _ _ W Hx Hrk E) as [rs [Ea [Lrs Rs]]].
    destruct (tune_parm_view C U n D VC _ _ _ _ _ _ _ _ _ W E) as [[_ [_ S1]] R1].
    subst a. destruct (IH (Datatypes.S (length ars)) _ _ _ _ W1 L1 H) as [L2 [Old New]].
    split; [lia|]. subst. split.
    + intros p Hp. rewrite Old by lia. rewrite app_nth1 by lia. reflexivity.
    + intros p Hp. destruct (Nat.eq_dec p (length ars)) as [->|Hne].
      * rewrite Old by lia. rewrite app_nth2 by lia. replace (length ars - length ars)%nat with 0%nat by lia. cbn [nth].
        split; auto. intros j Hj. exists (l_g (loc_at G j)). rewrite (Rs j Hj). rewrite Nat2Z.id. reflexivity.
      * destruct (New p ltac:(lia)) as [N1 N2]. split; auto. intros j Hj. destruct (N2 j Hj) as [gg Eg]. exists gg. rewrite Eg.
        destruct (S1 j Hj) as [_ [_ ->]]. unfold sigt_at. rewrite R1. reflexivity.
Qed.

(** ** Decision *)
Section Decide.
Variable P : num A -> Prop.
Hypothesis HP : comparable P.
Variable ars : list row.
Hypothesis La : Z.of_nat (length ars) = N_parm C.
Hypothesis Lr : forall r, In r ars -> Z.of_nat (length r) = zn n.
(** distance of a rate from ar_best *)
Definition dist (p j : Z) : num A := nabs (nsub (cell ars p j) (ar_best C)).
Hypothesis HE : forall p j, 0 <= p < N_parm C -> 0 <= j < zn n -> P (dist p j).
Hypothesis HD : P (ar_accept_diff C).

(** one width is changed iff some trial rate is within ar_accept_diff of ar_best; the trial used is then such a one,
    and the closest one of its parameter *)
Lemma decide_spec : forall g ip ir g', decide_sigma_to_change C (zn n) ars g = OK (ip, ir, g') ->
  (0 <= ip < N_parm C /\ 0 <= ir < zn n /\ nltb (dist ip ir) (ar_accept_diff C) = true /\
   (forall k, 0 <= k < zn n -> nltb (dist ip k) (dist ip ir) = false) /\
   (forall k, 0 <= k < ir -> nltb (dist ip ir) (dist ip k) = true)) \/
  ((forall p j, 0 <= p < N_parm C -> 0 <= j < zn n -> nltb (dist p j) (ar_accept_diff C) = false) /\
   ip = -1 /\ (ir = 0 \/ ir = -1)).
Proof.
  intros g ip ir g' H. pose proof (vc_np C n VC) as Hp. unfold decide_sigma_to_change in H.
  assert (Ma : mat_n n ars) by (intros r Hr; specialize (Lr r Hr); unfold zn in *; lia).
  destruct (calc_SD_total C n VC ars La Ma) as [sd [Esd Lsd]]. rewrite Esd in H. cbn [rbind] in H.
  destruct (argmax_total C n VC ars sd (N_parm C) Lsd Hp) as [ip1 [E1 Hip1]]. rewrite E1 in H. cbn [rbind] in H.
  destruct (closest_oneparm_spec P HP C (zn n) ltac:(unfold zn; lia) ars z0 La Lr HE ip1 Hip1) as [ir1 [E2 [Hir1 [B1 F1]]]].
  rewrite E2 in H. cbn [rbind] in H.
  destruct (closest_all_spec P HP C (zn n) ltac:(unfold zn; lia) ars z0 La Lr HE Hp) as [ip2 [ir2 [E3 [Hip2 [Hir2 [B2 F2]]]]]].
  rewrite E3 in H. cbn [rbind] in H.
  change (off C ars z0) with dist in *.
  assert (F3 : forall k, 0 <= k < ir2 -> nltb (dist ip2 ir2) (dist ip2 k) = true) by (intros k Hk; apply F2; auto; lia).
  destruct (nltb (dist ip1 ir1) (ar_accept_diff C)) eqn:N1; destruct (nltb (dist ip2 ir2) (ar_accept_diff C)) eqn:N2.
  - destruct (drand48 g) as [u g1]. destruct (nltb (nlit 5 1) u); injection H; intros; subst; left; auto 12.
  - injection H; intros; subst; left; auto 12.
  - injection H; intros; subst; left; auto 12.
  - right. split.
    + intros p j Hpp Hj. destruct (nltb (dist p j) (ar_accept_diff C)) eqn:N3; auto.
      rewrite <- N2. symmetry. 
      apply not_false_is_true. intros K. 
      pose proof (cmp_trans _ HP (ar_accept_diff C) (dist ip2 ir2) (dist p j) HD (HE _ _ Hip2 Hir2) (HE _ _ Hpp Hj) K (B2 p j Hpp Hj)). congruence.
    + destruct (drand48 g) as [u g1]. destruct (nltb (nlit 5 1) u); injection H; intros; subst; auto.
Qed.

Lemma race_spec : forall al new, race_all_parm C (zn n) al ars = OK new ->
  Z.of_nat (length new) = N_parm C /\
  forall p, 0 <= p < N_parm C -> exists j, 0 <= j < zn n /\ nth (Z.to_nat p) new z0 = cell al p j /\
    (forall k, 0 <= k < zn n -> nltb (dist p k) (dist p j) = false) /\
    (forall k, 0 <= k < j -> nltb (dist p j) (dist p k) = true).
Proof.
  intros al new H. unfold race_all_parm in H. pose proof (vc_np C n VC) as Hp.
  apply (for_from_inv (fun i (out : row) => Z.of_nat (length out) = i /\ forall p, 0 <= p < i -> exists j, 0 <= j < zn n /\ nth (Z.to_nat p) out z0 = cell al p j /\
    (forall k, 0 <= k < zn n -> nltb (dist p k) (dist p j) = false) /\
    (forall k, 0 <= k < j -> nltb (dist p j) (dist p k) = true))) in H.
  - destruct H as [H1 H2]. rewrite Z2Nat.id in * by lia. split; [lia|]. intros p Hpp. apply H2. lia.
  - split; auto. intros; lia.
  - intros i out out' Hi [H1 H2] H3. rewrite Z2Nat.id in Hi by lia.
    destruct (for_from (Z.to_nat (zn n)) 0 _ []) as [errs|] eqn:E0; [|discriminate]. cbn [rbind] in H3.
    apply (for_from_inv (fun i0 (es : row) => Z.of_nat (length es) = i0 /\ forall j, 0 <= j < i0 -> nth (Z.to_nat j) es z0 = dist i j)) in E0.
    + destruct E0 as [Le Ee]. assert (Le1 : length errs = n) by (unfold zn in *; lia). assert (Ee1 : forall j, 0 <= j < zn n -> nth (Z.to_nat j) errs z0 = dist i j) by (intros j Hj; apply Ee; unfold zn in *; lia). clear Le Ee. rename Le1 into Le, Ee1 into Ee.
      destruct (argmin_spec P HP errs z0) as [jm [Ej [Hjm [B1 B2]]]].
      * intros ->. cbn in Le. lia.
      * apply Forall_forall. intros e Hin. destruct (In_nth _ _ z0 Hin) as [q [Hq <-]].
        rewrite <- (Nat2Z.id q). rewrite Ee by (unfold zn; lia). apply HE; unfold zn; lia.
      * replace (Z.of_nat (length errs)) with (zn n) in * by (unfold zn; lia). rewrite Ej in H3. cbn [rbind] in H3.
        assert (Lo : Z.of_nat (length out) = i) by exact H1. clear H1.
        destruct (zget al i) as [r|] eqn:Er; [|discriminate]. cbn [rbind] in H3.
        destruct (zget r jm) as [v|] eqn:Ev; [|discriminate]. cbn [rbind] in H3. injection H3; intros <-.
        rewrite app_length. cbn [length]. split; [lia|]. intros p Hpp. destruct (Z.eq_dec p i) as [->|Hne].
        -- exists jm. split; [lia|]. split.
           ++ rewrite app_nth2 by lia. replace (Z.to_nat i - length out)%nat with 0%nat by lia. cbn [nth].
              destruct (zget_dflt al _ _ [] Er) as [_ ->]. destruct (zget_dflt _ _ _ z0 Ev) as [_ ->]. reflexivity.
           ++ unfold zn in *. split; intros k Hk; [specialize (B1 k Hk)|specialize (B2 k Hk)];
                rewrite !Ee in * by lia; auto.
        -- rewrite app_nth1 by lia. apply H2. lia.
    + split; auto. intros; lia.
    + intros j es es' Hj [K1 K2] K3. unfold zn in Hj. rewrite Nat2Z.id in Hj.
      rewrite (ar_err_off C (zn n) ars z0 La Lr) in K3 by (unfold zn; lia). cbn [rbind] in K3. injection K3; intros <-.
      rewrite app_length. cbn [length]. split; [lia|]. intros q Hq. destruct (Z.eq_dec q j) as [->|Hne].
      * rewrite app_nth2 by lia. replace (Z.to_nat j - length es)%nat with 0%nat by lia. reflexivity.
      * rewrite app_nth1 by lia. apply K2. lia.
Qed.
End Decide.

Lemma acc_range : forall sigma beta k s, 0 <= ms_acc s -> 0 <= ms_acc (mhn U D sigma beta k s) <= ms_acc s + Z.of_nat k.
Proof.
  intros sigma beta k s Hs. unfold mhn. induction k as [|k IH]; [cbn; lia|].
  change (Nat.iter (Datatypes.S k) (mhstep U D sigma beta) s) with (mhstep U D sigma beta (Nat.iter k (mhstep U D sigma beta) s)).
  set (t := Nat.iter k (mhstep U D sigma beta) s) in *. clearbody t.
  assert (Hu : forall a, 0 <= a -> 0 <= u32 a <= a).
  { intros a Ha. unfold u32. assert (0 < UINT_MOD) by reflexivity. split; [apply Z.mod_pos_bound; auto|apply Z.mod_le; auto]. }
  unfold mhstep. assert (Q := Hu (ms_acc t + 1) ltac:(lia)). rewrite Nat2Z.inj_succ.
  destruct (nltb _ _); cbn [ms_acc]; [lia|]. destruct (nltb _ _); cbn [ms_acc]; lia.
Qed.

(** the candidates for a rank: row p of [al] are those of parameter p *)
Definition candidates (row : row) (al : list (list (num A))) : Prop :=
  Z.of_nat (length al) = N_parm C /\
  forall p, 0 <= p < N_parm C ->
    length (nth (Z.to_nat p) al []) = n /\
    check_bounce C U (zn n) (create_logspace_array (nth (Z.to_nat p) row z0) (sigma_scale_half_ratio C) (zn n)) p = OK (nth (Z.to_nat p) al []).

(** the trial rates: cell (p,j) is that of a chain run by rank j from the state of the tuned rank, at its beta,
    with width p replaced by candidate j *)
Definition trials (G : gst) (rk : nat) (al ars : list (list (num A))) : Prop :=
  Z.of_nat (length ars) = N_parm C /\
  forall p, 0 <= p < N_parm C -> length (nth (Z.to_nat p) ars []) = n /\
    forall j, 0 <= j < zn n -> exists g,
      cell ars p j = trial_rate (x_at G rk) (lp_at G rk) (lset (sigt_at G rk) (Z.to_nat p) (cell al p j))
                       (beta_at G rk) (n_iter_in_tune C) g.

(** what one tuning step does to the row of its rank *)
Definition one_of_three (row row' : row) (al ars : list (list (num A))) : Prop :=
  (exists p j, 0 <= p < N_parm C /\ 0 <= j < zn n /\ row' = lset row (Z.to_nat p) (cell al p j) /\
     nltb (dist ars p j) (ar_accept_diff C) = true /\
     (forall k, 0 <= k < zn n -> nltb (dist ars p k) (dist ars p j) = false) /\
     (forall k, 0 <= k < j -> nltb (dist ars p j) (dist ars p k) = true)) \/
  ((forall p j, 0 <= p < N_parm C -> 0 <= j < zn n -> nltb (dist ars p j) (ar_accept_diff C) = false) /\
   (row' = u_gp U \/
    (Z.of_nat (length row') = N_parm C /\
     forall p, 0 <= p < N_parm C -> exists j, 0 <= j < zn n /\ nth (Z.to_nat p) row' z0 = cell al p j /\
       (forall k, 0 <= k < zn n -> nltb (dist ars p k) (dist ars p j) = false) /\
       (forall k, 0 <= k < j -> nltb (dist ars p j) (dist ars p k) = true)))).

(** the acceptance rates that can occur are comparable *)
Definition rates_ok (P : num A -> Prop) : Prop :=
  P (ar_accept_diff C) /\
  forall a, 0 <= a <= n_iter_in_tune C -> P (nabs (nsub (ndiv (nof a) (nof (n_iter_in_tune C))) (ar_best C))).

Lemma irank_spec : forall P, comparable P -> rates_ok P -> forall G rk G', wf G -> (rk < n)%nat ->
  seq_tune_irank C U n D G (Z.of_nat rk) = OK G' ->
  exists al ars, candidates (sigt_at G rk) al /\ trials G rk al ars /\ one_of_three (sigt_at G rk) (sigt_at G' rk) al ars.
Proof.
  intros P HP [HD HR] G rk G' W Hrk H. unfold seq_tune_irank in H.
  pose proof (vc_np C n VC) as Hnp. pose proof (vc_tune C n VC) as Hnt.
  destruct (gen_sigma_alltune_total C U n VC VU (sigt (g_ro G)) (Z.of_nat rk)) as [al [Eal [Lal Mal]]];
    [apply (wf_sigt _ _ _ W)|apply (wf_sigrow _ _ _ W)|unfold zn; lia|].
  rewrite Eal in H. cbn [rbind] in H.
  rewrite (zget_z (lps (g_ro G)) _ z0) in H by (rewrite (wf_lps _ _ _ W); lia). cbn [rbind] in H.
  rewrite (zget_z (transit (g_ro G)) _ []) in H by (rewrite (wf_tr _ _ _ W); lia). cbn [rbind] in H.
  rewrite Nat2Z.id in H.
  assert (Hx : hl (x_at G rk)) by (apply (wf_trrow _ _ _ W); apply nth_In; rewrite (wf_tr _ _ _ W); lia).
  fold (x_at G rk) in H. fold (lp_at G rk) in H.
  destruct (foldM (zseq (N_parm C)) _ (G, [])) as [[G1 ars]|] eqn:E2; [|discriminate]. cbn [rbind] in H.
  destruct (tune_parms_view C U n D VC _ _ _ _ _ _ _ _ _ W E2) as [S1 R1].
  destruct (seq_tune_parms_wf C U n Hn D _ _ _ _ _ _ _ _ _ W E2) as [W1 _].
  unfold zseq in E2. destruct (parms_rates (Z.of_nat rk) al _ _ Hx ltac:(unfold zn; lia) _ 0%nat G [] _ _ W eq_refl E2) as [La [_ Rt]].
  rewrite Nat2Z.id in Rt. cbn [plus] in La.
  destruct (gen_cells _ _ _ Eal) as [_ GC]. rewrite Nat2Z.id in GC.
  assert (HC : candidates (sigt_at G rk) al).
  { split; [lia|]. intros p Hp. split; [|apply GC; auto]. apply Mal. apply nth_In. lia. }
  assert (HT : trials G rk al ars).
  { split; [lia|]. intros p Hp. destruct (Rt (Z.to_nat p) ltac:(lia)) as [L1 K]. split; auto. intros j Hj.
    unfold zn in Hj. destruct (K (Z.to_nat j) ltac:(lia)) as [g Eg]. exists g. rewrite !Z2Nat.id in Eg by lia.
    unfold cell at 1. rewrite Eg. f_equal. unfold beta_at.
    rewrite (wf_same _ _ _ W (loc_at G (Z.to_nat j)) (loc_at G rk)); auto; apply (loc_in C n); auto; lia. }
  assert (Lr : forall r, In r ars -> Z.of_nat (length r) = zn n).
  { intros r Hr. destruct (In_nth _ _ [] Hr) as [q [Hq <-]]. destruct (Rt q ltac:(lia)) as [L1 _]. unfold zn. lia. }
  assert (HE : forall p j, 0 <= p < N_parm C -> 0 <= j < zn n -> P (dist ars p j)).
  { intros p j Hp Hj. destruct HT as [_ HT]. destruct (HT p Hp) as [_ K]. destruct (K j Hj) as [g Eg]. unfold dist. rewrite Eg.
    apply HR. pose proof (acc_range (lset (sigt_at G rk) (Z.to_nat p) (cell al p j)) (beta_at G rk) (Z.to_nat (n_iter_in_tune C))
      (mkMs (x_at G rk) (lp_at G rk) g 0)) as Q. cbn [ms_acc] in Q. lia. }
  exists al, ars. split; auto. split; auto. clear Rt HT.
  rewrite (getloc_ok C n) in H by (auto; unfold root; lia). cbn [rbind] in H.
  destruct (decide_sigma_to_change C (zn n) ars _) as [[[ip ir] g]|] eqn:Ed; [|discriminate]. cbn [rbind] in H.
  destruct (modify_sigma_prop C U (zn n) _ ip ir _ al ars) as [t|] eqn:Em; [|discriminate]. cbn [rbind] in H.
  destruct (with_g0 G1 g) as [G2|]; [|discriminate]. cbn [rbind] in H. injection H as H.
  assert (Et : sigt (g_ro G') = t) by (rewrite <- H; reflexivity).
  rewrite R1 in Em. unfold modify_sigma_prop in Em.
  pose proof (wf_sigt _ _ _ W) as Lsg.
  destruct (decide_spec P HP ars ltac:(lia) Lr HE HD _ _ _ _ Ed) as [[Hip [Hir [N1 [N2 N3]]]]|[N1 [-> Hir]]].
  - left. exists ip, ir. split; auto. split; auto. split; [|auto].
    destruct (Z.leb_spec 0 ip); [|lia]. rinv.
    destruct (zget_dflt _ _ _ [] E) as [_ ->]. destruct (zget_dflt _ _ _ [] E0) as [_ ->]. destruct (zget_dflt _ _ _ z0 E1) as [_ ->].
    apply zset_ok_inv in E3. destruct E3 as [_ ->]. apply zset_ok_inv in Em. destruct Em as [_ Em].
    unfold sigt_at. rewrite Et, Em. rewrite Nat2Z.id. rewrite nth_lset_eq by lia. reflexivity.
  - right. split; auto. cbn [Z.leb Z.compare] in Em.
    destruct (0 <=? ir) eqn:Eir.
    + cbn [rbind] in Em. apply zset_ok_inv in Em. destruct Em as [_ Em]. left.
      unfold sigt_at. rewrite Et, Em, Nat2Z.id. rewrite nth_lset_eq by lia. reflexivity.
    + destruct (race_all_parm C (zn n) al ars) as [new|] eqn:Er; [|discriminate]. cbn [rbind] in Em.
      apply zset_ok_inv in Em. destruct Em as [_ Em]. right.
      unfold sigt_at. rewrite Et, Em, Nat2Z.id. rewrite nth_lset_eq by lia.
      exact (race_spec P HP ars ltac:(lia) Lr HE al new Er).
Qed.

(** ** All ranks, one after the other *)
Lemma tune_chain : forall flags G G', wf G -> length flags = n -> seq_tune_all C U n D flags G = OK G' ->
  exists Gs : nat -> gst, Gs 0%nat = G /\ Gs n = G' /\ (forall r, (r <= n)%nat -> wf (Gs r) /\ same_chain n G (Gs r)) /\
  forall r, (r < n)%nat ->
    (if nth r flags 0 =? 1 then seq_tune_irank C U n D (Gs r) (Z.of_nat r) = OK (Gs (Datatypes.S r)) else Gs (Datatypes.S r) = Gs r) /\
    sigt_at (Gs r) r = sigt_at G r /\ sigt_at G' r = sigt_at (Gs (Datatypes.S r)) r.
Proof.
  intros flags G G' W Lf H. unfold seq_tune_all, zseq, zn in H. rewrite Nat2Z.id in H.
  assert (K : forall k a G, wf G -> (a + k = n)%nat ->
    foldM (map Z.of_nat (seq a k)) (fun r G => let* f := zget flags r in if f =? 1 then seq_tune_irank C U n D G r else OK G) G = OK G' ->
    exists Gs : nat -> gst, Gs a = G /\ Gs n = G' /\ (forall r, (a <= r <= n)%nat -> wf (Gs r) /\ same_chain n G (Gs r)) /\
    forall r, (a <= r < n)%nat ->
    (if nth r flags 0 =? 1 then seq_tune_irank C U n D (Gs r) (Z.of_nat r) = OK (Gs (Datatypes.S r)) else Gs (Datatypes.S r) = Gs r) /\
    sigt_at (Gs r) r = sigt_at G r /\ sigt_at G' r = sigt_at (Gs (Datatypes.S r)) r /\
    (forall q, (q < a)%nat -> sigt_at G' q = sigt_at G q)).
  2:{ destruct (K n 0%nat G W eq_refl H) as [Gs [K1 [K2 [K3 K4]]]]. exists Gs. split; auto. split; auto. split; [intros; apply K3; lia|].
      intros r Hr. destruct (K4 r ltac:(lia)) as [Q1 [Q2 [Q3 _]]]. auto. }
  clear G W H. induction k as [|k IH]; intros a G W Hak H; cbn [seq map foldM] in H.
  - injection H as <-. exists (fun _ => G). split; auto. split; auto. split; [intros; split; auto; apply same_chain_refl|]. intros; lia.
  - rewrite (zget_z flags _ 0) in H by lia. cbn [rbind] in H. rewrite Nat2Z.id in H.
    destruct (if nth a flags 0 =? 1 then _ else _) as [G1|] eqn:E1; [|discriminate]. cbn [rbind] in H.
    assert (V : wf G1 /\ same_chain n G G1 /\ forall q, q <> a -> sigt_at G1 q = sigt_at G q).
    { destruct (nth a flags 0 =? 1).
      - split; [eapply (seq_tune_irank_wf C U n UO Hn); eauto|].
        destruct (tune_irank_view C U n D VC G (Z.of_nat a) G1 W ltac:(unfold zn; lia) E1) as [V1 V2]. split; auto.
        intros q Hq. apply V2. rewrite Nat2Z.id. exact Hq.
      - injection E1 as <-. split; auto. split; auto. apply same_chain_refl. }
    destruct V as [W1 [V1 V2]].
    destruct (IH (Datatypes.S a) G1 W1 ltac:(lia) H) as [Gs [K1 [K2 [K3 K4]]]].
    exists (fun r => if Nat.eqb r a then G else Gs r). rewrite Nat.eqb_refl. split; auto.
    split; [destruct (Nat.eqb_spec n a); [lia|auto]|].
    assert (F : forall q, (q <= a)%nat -> sigt_at G' q = sigt_at G1 q).
    { intros q Hq. destruct (Nat.eq_dec (Datatypes.S a) n) as [He|Hne].
      - rewrite <- K2, <- He, K1. reflexivity.
      - destruct (K4 (Datatypes.S a) ltac:(lia)) as [_ [_ [_ Q]]]. apply Q. lia. }
    split.
    + intros r Hr. destruct (Nat.eqb_spec r a); [split; auto; apply same_chain_refl|]. destruct (K3 r ltac:(lia)) as [Q1 Q2]. split; auto.
      eapply same_chain_trans; eauto.
    + intros r Hr. destruct (Nat.eqb_spec (Datatypes.S r) a); [lia|]. destruct (Nat.eqb_spec r a) as [->|Hne].
      * rewrite K1. split.
        { destruct (nth a flags 0 =? 1); auto. injection E1 as <-. reflexivity. }
        split; auto. split; [apply F; lia|]. intros q Hq. rewrite F by lia. apply V2. lia.
      * destruct (K4 r ltac:(lia)) as [Q1 [Q2 [Q3 Q4]]]. split; auto. split; [rewrite Q2; apply V2; lia|]. split; auto.
        intros q Hq. rewrite F by lia. apply V2. lia.
Qed.
End Steps.
