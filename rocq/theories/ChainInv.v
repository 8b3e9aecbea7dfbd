(** Invariants of the pair (parameter vector, cached log-posterior) of every rank: what holds for the
    initial pair and is kept by a Metropolis step, by an executed swap and by a change of beta, holds
    for every state of a run and for every row of every chain file. *)
From Coq Require Import ZArith Arith List Bool Lia.
From Verif Require Import Base Arith Rand Mh Ladder Tune Mpi MpiMeta Spmd Prog Seq ListAux MhSpec SeqWf Refine
  SeqTotal System Runs SeqFiles History Views RunHist HistCount HistRows SwapLemmas.
Import ListNotations.
Open Scope Z_scope.

(** rank, vector, cached value, beta *)
Record StepInv {A} (S : Setup A) (D : Data A) (P : nat -> list (num A) -> num A -> num A -> Prop) : Prop := {
  si_step : forall r sigma b s, (r < s_n S)%nat -> haslen (N_parm (s_cfg S)) sigma -> haslen (N_parm (s_cfg S)) (ms_x s) ->
    P r (ms_x s) (ms_lp s) b ->
    P r (ms_x (mhstep (s_user S) D sigma b s)) (ms_lp (mhstep (s_user S) D sigma b s)) b;
  si_swap : forall i j xi li bi xj lj bj g, (i < s_n S)%nat -> (j < s_n S)%nat -> P i xi li bi -> P j xj lj bj ->
    (i = j -> xi = xj /\ li = lj /\ bi = bj) ->
    swap_ok (nsub (nsub (nadd (logpost_at (s_user S) D xi bj) (logpost_at (s_user S) D xj bi)) li) lj) g = true ->
    P i xj (logpost_at (s_user S) D xj bi) bi /\ P j xi (logpost_at (s_user S) D xi bj) bj
}.

Record ChainInv {A} (S : Setup A) (D : Data A) (P : nat -> list (num A) -> num A -> num A -> Prop) : Prop := {
  ci_base : StepInv S D P;
  ci_init : forall r, (r < s_n S)%nat ->
    let x := fst (u_init (s_user S) (seed_of (s_cfg S) (s_n S) (s_env S) r)) in
    let b := nth r (Beta_Values (s_cfg S)) (nof 0) in P r x (logpost_at (s_user S) D x b) b;
  ci_ladder : 0 < Tune_Ladder (s_cfg S) -> forall r x lp b b', (r < s_n S)%nat -> P r x lp b -> P r x lp b'
}.

Section Inv.
Context {A : Arith}.
Variable S : Setup A.
Hypothesis HL : Legal S.
Notation C := (s_cfg S).
Notation U := (s_user S).
Notation n := (s_n S).
Let RK := proj1 HL.
Let VC := proj1 (proj2 HL).
Let VU := proj1 (proj2 (proj2 HL)).
Variable D : Data A.
Variable P : nat -> list (num A) -> num A -> num A -> Prop.
Hypothesis HP : StepInv S D P.

Definition holds (G : gst (A := A)) : Prop := forall r, (r < n)%nat -> P r (x_at G r) (lp_at G r) (beta_at G r).

Lemma x_len : forall G r, wf C n G -> (r < n)%nat -> haslen (N_parm C) (x_at G r).
Proof.
  intros G r W Hr. unfold x_at. pose proof (wf_trrow _ _ _ W) as F.
  apply F. apply nth_In. rewrite (wf_tr _ _ _ W). auto.
Qed.
Lemma sig_len : forall G r, wf C n G -> (r < n)%nat -> haslen (N_parm C) (l_sig (loc_at G r)).
Proof.
  intros G r W Hr. unfold loc_at. pose proof (wf_sig _ _ _ W) as F. 
  apply F. apply nth_In. rewrite (wf_locs _ _ _ W). auto.
Qed.

Lemma mhn_inv : forall r sigma b k s, (r < n)%nat -> haslen (N_parm C) sigma -> haslen (N_parm C) (ms_x s) ->
  P r (ms_x s) (ms_lp s) b -> P r (ms_x (mhn U D sigma b k s)) (ms_lp (mhn U D sigma b k s)) b.
Proof.
  intros r sigma b k. induction k as [|k IH]; intros s Hr Hs Hx H; [exact H|].
  change (mhn U D sigma b (Datatypes.S k) s) with (mhstep U D sigma b (mhn U D sigma b k s)).
  apply (si_step _ _ _ HP); auto. apply mhn_len; auto. apply (uo_bound _ _ (vu_ok _ _ VU)).
Qed.

Lemma swap_holds : forall w, attempt S D w -> holds (sw_pre w) -> holds (sw_post w).
Proof.
  intros w [_ [Hi [Hj [Hd [SL [HX _]]]]]] H r Hr. destruct (HX r Hr) as [H1 H2].
  rewrite H1, H2, (beta_same S _ _ SL) by auto.
  destruct (sw_done w); [|apply H; auto].
  assert (Hi' : (sw_i w < n)%nat) by lia.
  destruct (si_swap _ _ _ HP (sw_i w) (sw_j w) _ _ _ _ _ _ (sw_g w) Hi' Hj (H _ Hi') (H _ Hj)) as [K1 K2].
  - intros ->. auto.
  - symmetry. exact Hd.
  - destruct (Nat.eqb_spec r (sw_j w)) as [Ej|Ej], (Nat.eqb_spec r (sw_i w)) as [Ei|Ei].
    + subst r. rewrite Ei in *. exact K1.
    + subst r. exact K2.
    + subst r. exact K1.
    + apply H; auto.
Qed.

Lemma swap_step_holds : forall G i G' d, wf C n G -> holds G -> 0 <= i < zn n - 1 -> seq_swap C U n D G i = OK (G', d) -> holds G'.
Proof.
  intros G i G' d W H Hi HS r Hr.
  destruct (seq_swap_view C U n D RK VC _ _ _ _ W Hi HS) as [j [g1 [Ej [Hj [Hs [HLc [Hd [HT HPp]]]]]]]].
  cbn zeta in *. unfold zn in *. set (ni := Z.to_nat i) in *. set (nj := Z.to_nat j) in *.
  assert (Hni : (ni < n)%nat) by (unfold ni; lia). assert (Hnj : (nj < n)%nat) by (unfold nj; lia).
  assert (EB : beta_at G' r = beta_at G r). { unfold beta_at. destruct (HLc r Hr) as [_ [_ [_ ->]]]. reflexivity. }
  assert (L1 : length (transit (g_ro G)) = n) by apply (wf_tr _ _ _ W).
  assert (L2 : length (lps (g_ro G)) = n) by apply (wf_lps _ _ _ W).
  rewrite EB. unfold x_at at 1, lp_at at 1. rewrite HT, HPp.
  destruct (swap_ok (swap_sum U D G ni nj) g1) eqn:Ok; [|apply H; auto].
  destruct (si_swap _ _ _ HP ni nj _ _ _ _ _ _ g1 Hni Hnj (H _ Hni) (H _ Hnj)) as [K1 K2]; [intros ->; auto|exact Ok|].
  destruct (Nat.eq_dec r nj) as [Erj|Erj].
  - subst r. rewrite !nth_lset_eq by (rewrite lset_length, ?L1, ?L2; auto). exact K2.
  - rewrite !(nth_lset_ne _ nj r) by auto. destruct (Nat.eq_dec r ni) as [Eri|Eri].
    + subst r. rewrite !nth_lset_eq by (rewrite ?L1, ?L2; auto). exact K1.
    + rewrite !nth_lset_ne by auto. apply H; auto.
Qed.

Lemma g0_holds : forall G g G', wf C n G -> holds G -> with_g0 G g = OK G' -> holds G'.
Proof.
  intros G g G' W H HG r Hr. destruct (with_g0_view C n VC _ _ _ W HG) as [R V].
  unfold x_at, lp_at, beta_at. destruct (V r Hr) as [_ [_ [_ [-> _]]]]. rewrite R. apply H; auto.
Qed.

Lemma batch_holds : forall G nb G' lg, wf C n G -> holds G -> seq_batch C U n D G nb = OK (G', lg) -> holds G'.
Proof.
  intros G nb G' lg W H HB r Hr. destruct (seq_batch_view C U n D VC VU _ _ _ _ W HB) as [_ [_ V]].
  specialize (V r Hr). cbn zeta in V. destruct V as [V1 [_ [V3 _]]].
  unfold beta_at. rewrite V3. fold (beta_at G r).
  change (x_at G' r) with (ms_x (ms_at G' r)). change (lp_at G' r) with (ms_lp (ms_at G' r)). rewrite V1.
  apply mhn_inv; auto.
  - apply sig_len; auto.
  - apply (x_len G r W Hr).
  - apply H; auto.
Qed.

Lemma dist_holds : forall G, wf C n G -> holds G -> holds (seq_distribute G (sigt (g_ro G))).
Proof.
  intros G W H r Hr. destruct (dist_view C n VC G (sigt (g_ro G)) W (wf_sigt _ _ _ W)) as [R V].
  unfold x_at, lp_at, beta_at. destruct (V r Hr) as [_ [_ [_ [_ ->]]]]. rewrite R. apply H; auto.
Qed.

(** within a stack *)
Lemma holds_stack : forall G0 h Gf, history S D G0 h Gf -> forall s, In s h -> holds (sr_in s) ->
  holds (sr_pre s) /\ Forall (ball C n holds) (sr_batches s) /\ holds (sr_mid s).
Proof.
  intros G0 h Gf HH s Hs Hin. destruct (history_count S HL _ _ _ _ HH) as [_ [F _]]. rewrite Forall_forall in F.
  destruct (F s Hs) as [_ [_ [_ [_ [Wi [Wp [_ [_ [_ [Ep [_ [_ [_ [HB _]]]]]]]]]]]]]].
  assert (Hp : holds (sr_pre s)) by (rewrite Ep; apply dist_holds; auto).
  destruct (bruns_all C U n D RK VC VU holds g0_holds batch_holds swap_step_holds _ _ _ _ _ _ _ _ _ _ HB (conj Wp Hp)) as [K1 [_ K2]].
  auto.
Qed.
End Inv.

Section Run.
Context {A : Arith}.
Variable S : Setup A.
Hypothesis HL : Legal S.
Notation C := (s_cfg S).
Notation U := (s_user S).
Notation n := (s_n S).
Let RK := proj1 HL.
Let VC := proj1 (proj2 HL).
Let VU := proj1 (proj2 (proj2 HL)).
Variable D : Data A.

Lemma init_beta : forall G0 h Gf, history S D G0 h Gf -> forall r, (r < n)%nat ->
  beta_at G0 r = nth r (Beta_Values C) (nof 0) /\ l_beta (loc_at G0 r) = firstn n (Beta_Values C).
Proof.
  intros G0 h Gf HH r Hr. pose proof HH as [_ [[lg HI] _]]. destruct (init_view S HL _ _ _ HI) as [_ [V _]].
  destruct (V r Hr) as [E1 [E2 [E3 _]]]. unfold beta_at. rewrite E3. cbn [l_beta]. split; auto.
  clear - Hr. revert r Hr. generalize (Beta_Values C), n.
  induction l as [|a l IH]; intros [|m] [|r] Hr; cbn; auto; try lia. apply IH. lia.
Qed.

(** the initial pair is that of the initial vector *)
Lemma init_pair : forall G0 h Gf, history S D G0 h Gf -> forall r, (r < n)%nat ->
  x_at G0 r = fst (u_init U (seed_of C n (s_env S) r)) /\ lp_at G0 r = logpost_at U D (x_at G0 r) (beta_at G0 r).
Proof.
  intros G0 h Gf HH r Hr. rewrite (proj1 (init_beta _ _ _ HH r Hr)). pose proof HH as [_ [[lg HI] _]].
  destruct (init_view S HL _ _ _ HI) as [_ [V _]]. destruct (V r Hr) as [E1 [E2 [E3 _]]]. auto.
Qed.

Variable P : nat -> list (num A) -> num A -> num A -> Prop.
Hypothesis HC : ChainInv S D P.
Let HP := ci_base S D P HC.
Notation holds := (holds S P).

Theorem holds_always : forall G0 h Gf, history S D G0 h Gf ->
  holds G0 /\ Forall (sall C n holds) h /\ wf C n Gf /\ holds Gf.
Proof.
  intros G0 h Gf HH.
  assert (H0 : holds G0).
  { intros r Hr. destruct (init_pair _ _ _ HH r Hr) as [E1 E2]. destruct (init_beta _ _ _ HH r Hr) as [EB _].
    rewrite E2, EB, E1. apply (ci_init _ _ _ HC); auto. }
  split; auto. apply (history_all S HL holds D G0 h Gf HH H0).
  - apply (g0_holds S HL P).
  - apply (batch_holds S HL D P HP).
  - apply (swap_step_holds S HL D P HP).
  - apply (dist_holds S HL P).
  - intros G nsw npr G' W H HA HG r Hr. destruct (ladder_view C n VC _ _ _ _ W HG) as [R _].
    unfold x_at, lp_at. rewrite R. unfold adapts in HA. apply andb_true_iff in HA. destruct HA as [_ HA].
    apply Z.ltb_lt in HA. eapply (ci_ladder _ _ _ HC HA); auto. apply H; auto.
  - intros G rk G' W H Hrk HT r Hr. destruct (tune_irank_view C U n D VC _ _ _ W Hrk HT) as [[R1 [R2 V]] _].
    unfold x_at, lp_at, beta_at. destruct (V r Hr) as [_ [_ ->]]. rewrite R1, R2. apply H; auto.
Qed.

Lemma file_rows_are : forall r (ev : event A) h, In ev (chain_rows r h) ->
  exists b, In b (hbatches h) /\ In ev (file (FChain r) (br_rows b)).
Proof.
  intros r ev h H. rewrite chain_rows_hb in H. apply in_concat in H. destruct H as [l [Hl He]].
  apply in_map_iff in Hl. destruct Hl as [b [<- Hb]]. eauto.
Qed.

Lemma hb_count : forall h, Forall (scount C U n D) h -> forall b, In b (hbatches h) -> exists base, bcount C U n D base b.
Proof.
  intros h F b Hb. unfold hbatches in Hb. apply in_concat in Hb. destruct Hb as [l [Hl Hb]]. apply in_map_iff in Hl.
  destruct Hl as [s [<- Hs]]. rewrite Forall_forall in F. specialize (F s Hs).
  destruct F as [_ [_ [_ [_ [_ [_ [_ [_ [_ [_ [_ [F _]]]]]]]]]]]]. rewrite Forall_forall in F. exists (sr_from s). auto.
Qed.

Lemma hb_all : forall (Q : gst (A := A) -> Prop) h, Forall (sall C n Q) h -> forall b, In b (hbatches h) ->
  (wf C n (br_pre b) /\ Q (br_pre b)) /\ (wf C n (br_mid b) /\ Q (br_mid b)) /\ (wf C n (br_post b) /\ Q (br_post b)).
Proof.
  intros Q h F b Hb. unfold hbatches in Hb. apply in_concat in Hb. destruct Hb as [l [Hl Hb]]. apply in_map_iff in Hl.
  destruct Hl as [s [<- Hs]]. rewrite Forall_forall in F. specialize (F s Hs).
  destruct F as [_ [_ [F _]]]. rewrite Forall_forall in F. apply F. auto.
Qed.

Lemma batch_rows_hold : forall b base, bcount C U n D base b -> holds (br_pre b) -> forall r, (r < n)%nat ->
  forall ev, In ev (file (FChain r) (br_rows b)) ->
  exists q, ev = EvRow r q /\ P r (r_parm q) (r_lp q) (beta_at (br_pre b) r).
Proof.
  intros b base [_ [_ [W [_ [HB _]]]]] H r Hr ev He.
  destruct (seq_batch_view C U n D VC VU _ _ _ _ W HB) as [_ [_ V]]. specialize (V r Hr). cbn zeta in V.
  destruct V as [_ [_ [_ [_ V]]]]. rewrite V in He.
  destruct (i_save_begin C <=? _); [|contradiction]. apply in_map_iff in He. destruct He as [j [<- _]].
  eexists. split; [reflexivity|]. unfold ms_row. cbn [r_parm r_lp]. apply (mhn_inv S HL D P HP); auto.
  - apply (sig_len S); auto.
  - apply (x_len S _ r W Hr).
  - apply H; auto.
Qed.

(** every row of every chain file, at every moment of every execution *)
Theorem rows_hold : forall k tr X, execution S k tr X -> dataset S D -> forall r, (r < n)%nat ->
  forall ev, In ev (file (FChain r) tr) -> exists q b, ev = EvRow r q /\ P r (r_parm q) (r_lp q) b.
Proof.
  intros k tr X HE HD r Hr ev He.
  destruct (history_exists S HL) as [D' [G0 [h [Gf HH]]]].
  assert (D' = D) by (eapply dataset_unique; [apply HH|exact HD]). subst D'.
  destruct (history_prefix S HL _ _ _ _ HH _ _ _ HE r Hr) as [rest Hp].
  assert (Hin : In ev (EvRow r (mkRow (x_at G0 r) (lp_at G0 r) 0 0) :: chain_rows r h)).
  { rewrite Hp. apply in_or_app. auto. }
  destruct (holds_always _ _ _ HH) as [H0 [F _]].
  destruct Hin as [<-|Hin].
  - exists (mkRow (x_at G0 r) (lp_at G0 r) 0 0), (beta_at G0 r). split; auto. apply H0; auto.
  - apply file_rows_are in Hin. destruct Hin as [b [Hb Hin]].
    destruct (history_count S HL _ _ _ _ HH) as [_ [FC _]]. destruct (hb_count _ FC b Hb) as [base HB].
    destruct (hb_all _ _ F b Hb) as [[_ Hpre] _].
    destruct (batch_rows_hold b base HB Hpre r Hr ev Hin) as [q [-> Hq]]. eauto.
Qed.

(** every state between two swap attempts *)
Lemma swaps_hold : forall G ws G', swaps G ws G' -> Forall (attempt S D) ws -> holds G ->
  Forall (fun w => holds (sw_pre w) /\ holds (sw_post w)) ws /\ holds G'.
Proof.
  induction 1 as [|w ws G' H IH]; intros F HG; auto. pose proof (Forall_inv F) as Hw. pose proof (Forall_inv_tail F) as Ft.
  pose proof (swap_holds S D P HP w Hw HG) as Hp. destruct (IH Ft Hp). split; auto.
Qed.
End Run.
