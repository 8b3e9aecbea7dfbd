(** Properties of the heap blocks and open files of one rank. *)
From Coq Require Import ZArith List Bool Lia.
From Verif Require Import Heap HeapFacts HeapSpec HeapRank HeapCaps HeapBad.
Import ListNotations.
Open Scope Z_scope.
Open Scope hcmd.

(** ** C78: one rank never uses memory wrongly, and what it holds does not grow with the run.
    The number N of parameters of input.ini is the number K of the user functions. *)

(** the blocks that are live when a rank ends *)
Definition kept (blank root : bool) : list pv :=
  [FoutPre; FoutSuf; results_dir; Beta_Values; Data_file; sigma_parm_min; sigma_parm_max] ++
  (if blank then [] else [Delimiter]) ++ (if root then [logpost_all_ranks] else []).
(** 28 + 2N lines of 100 bytes (and the block of the delimiter if it is "blank") that can no more be freed *)
Definition unreachable_blocks (N : Z) (blank : bool) : list (pv * Z) :=
  repeat (para_line, 100) (Z.to_nat (2 * N - 1)) ++ repeat (para_line, 100) 16 ++ (if blank then [(Delimiter, 100)] else []) ++ repeat (para_line, 100) 13.

Section Claim.
Variables LL n N nl nd kd Nb Tn LM Nswap : Z.
Variables (tl blank : bool) (r : Z).
Hypothesis Hn : 2 <= n.
Hypothesis HN : 1 <= N.
Hypothesis Hnl : 1 <= nl.
Hypothesis Hkd : 0 <= kd <= nd.
Hypothesis HNb : n <= Nb.
Hypothesis HT : 1 <= Tn.
Hypothesis Hr : 0 <= r < n.
Let prog := main_heap LL n N N nl nd kd Nb Tn LM Nswap tl blank r.

Lemma sat_h0 : sat R0 h0.
Proof. intros v. exact I. Qed.
Lemma files_pos : forall t s s', 0 <= files s -> hrun s t = Some s' -> 0 <= files s'.
Proof.
  assert (HS : forall s e s', 0 <= files s -> hstep s e = Some s' -> 0 <= files s').
  { intros s e s' P H. destruct e; cbn in H; repeat match type of H with (if ?b then _ else _) = _ => destruct b eqn:? | (match ?x with _ => _ end) = _ => destruct x eqn:? end;
      try discriminate; injection H as <-; cbn; auto; try lia; try (unfold hlose; destruct (var s v); cbn; lia). }
  induction t as [|e t IH]; intros s s' P H; cbn in H; [congruence|]. destruct (hstep s e) eqn:E; [|discriminate]. eauto.
Qed.
Lemma total_repeat : forall k, total (repeat (para_line, DEST) k) = 100 * Z.of_nat k.
Proof. induction k as [|k IH]; [reflexivity|]. cbn [repeat total fold_right snd]. unfold total in IH. rewrite IH. change DEST with 100. lia. Qed.
Theorem C78_safe : forall t, tr prog t ->
  exists s, hrun h0 t = Some s /\ files s = 0 /\ (forall v, live s v <-> In v (kept blank (r =? 0))) /\ lost s = unreachable_blocks N blank.
Proof.
  intros t Ht. destruct (t_main LL n N N nl nd kd Nb Tn LM Nswap tl blank r Hn HN eq_refl Hnl Hkd HNb HT Hr t Ht h0 sat_h0 eq_refl) as [s [[G _] [S [L F]]]].
  exists s. split; [exact G|]. split; [exact F|]. split.
  - intros v. specialize (S v). unfold live.
    assert (E : forall q, end_spec n N Nb blank r v = q -> (q <> Dead <-> In v (kept blank (r =? 0)))).
    { intros q <-. unfold end_spec, sigs, ini_spec, blankq, root, kept. destruct v, blank, (r =? 0); cbn; intuition congruence. }
    specialize (E _ eq_refl). rewrite <- E. destruct (end_spec n N Nb blank r v) as [| |a b k]; cbn in S.
    + destruct (var s v); intuition congruence.
    + destruct (var s v); intuition congruence.
    + destruct S as [ini [-> _]]. split; [discriminate|auto].
  - rewrite L. cbn [lost h0]. rewrite app_nil_r. reflexivity.
Qed.

Theorem C78_bounded : 0 <= LL -> 1 <= LM -> forall t1 t2, tr prog (t1 ++ t2) ->
  exists s, hrun h0 t1 = Some s /\ 0 <= files s <= 1 /\
    held s <= 3602 + 2 * LL + Nb + nl * nd + 5 * (n * N) + 212 * N + 9 * n + LM * (2 * N + 3) + Tn * (N + 1).
Proof.
  intros HL HM t1 t2 Ht.
  destruct (t_main LL n N N nl nd kd Nb Tn LM Nswap tl blank r Hn HN eq_refl Hnl Hkd HNb HT Hr _ Ht h0 sat_h0 eq_refl) as [s' [[G B] [S [L F]]]].
  rewrite hrun_app in G. destruct (hrun h0 t1) as [s|] eqn:E; [|discriminate]. exists s. split; [reflexivity|]. split.
  - split; [|eapply B; eauto]. eapply files_pos; [|exact E]. cbn. lia.
  - pose proof (caps_tr (cap LL n N nl nd Nb Tn LM) _ _ Ht ltac:(apply c_main; assumption)) as FA. apply Forall_app in FA. destruct FA as [F1 F2].
    destruct (cap_run _ t1 h0 s ltac:(intros v; exact I) F1 E) as [I1 _]. destruct (cap_run _ t2 s s' I1 F2 G) as [_ [l [L2 P]]].
    pose proof (held_le _ _ I1 ltac:(eapply cap_pos; eassumption)) as HH.
    assert (CS : fold_right (fun v a => cap LL n N nl nd Nb Tn LM v + a) 0 all_pv + 2900 + 200 * N <= memory LL n N nl nd Nb Tn LM) by (eapply cap_sum; eassumption). unfold memory in CS.
    assert (T : total (lost s) <= 2900 + 200 * N).
    { rewrite L2 in L. apply (f_equal total) in L. rewrite total_app in L. cbn [lost h0] in L. rewrite app_nil_r in L. unfold end_lost, PLS, ini_lost, blankl in L.
      rewrite !total_app, total_repeat in L. change (total (repeat (para_line, DEST) 16)) with 1600 in L. change (total (repeat (para_line, DEST) 13)) with 1300 in L.
      change DEST with 100 in L. assert (total (if blank then [(Delimiter, 100)] else []) <= 100) by (destruct blank; cbn; lia). lia. }
    lia.
Qed.
End Claim.
Print Assumptions C78_safe.
Print Assumptions C78_bounded.

(** N_parm of input.ini is not the number of parameters of the user functions: every path goes wrong *)

Ltac et HO := repeat match goal with
  | |- evs _ (if ?b then _ else _) => destruct b
  | |- evs _ (when ?b _) => unfold when; destruct b
  | |- evs _ (Then _ _) => split
  | |- evs _ Nop => exact I
  | |- evs _ (Do _) => apply HO; exact I
  | |- evs _ (rd _ _) => apply HO; exact I
  | |- evs _ (wr _ _) => apply HO; exact I
  | |- evs _ (For _ _ _) => let z := fresh "z" in let Hz := fresh "Hz" in intros z Hz; cbv beta
  | |- evs ?k (Many ?c) => change (evs k c)
  | |- evs _ (Pick _ _) => let z := fresh "z" in let Hz := fresh "Hz" in intros z Hz; cbv beta in *
  | |- evs _ (rdvec _ _) => intros ? ?; apply HO; exact I
  | |- evs _ (wrvec _ _) => intros ? ?; apply HO; exact I
  end.
Section Mismatch.
Variables LL n N K nl nd kd Nb Tn LM Nswap : Z.
Variables (tl blank : bool) (r : Z).
Hypothesis HN : 1 <= N.
Hypothesis HK : 1 <= K.
Let prog := main_heap LL n N K nl nd kd Nb Tn LM Nswap tl blank r.
(** everything up to the check of the step widths, for a claim about sigma_parm_min *)
Lemma to_scale : forall (J : hst -> Prop) (ok : ev -> Prop), (forall s e s', J s -> ok e -> hstep s e = Some s' -> J s') ->
  (forall e, match e with Malloc sigma_parm_min a b => a = N /\ b = 1 | Wr sigma_parm_min _ _ => False | _ => True end -> ok e) ->
  bad J (calc_sigma_scale_boundary N K) -> bad J prog.
Proof.
  intros J ok HJ HO HB. unfold prog, main_heap.
  assert (O1 : evs ok (read_onepara LL)). { unfold read_onepara, get_line. et HO. }
  assert (OC : forall k, evs ok (calls LL k)). { induction k; cbn [calls evs]; auto. }
  assert (OS : forall v, match v with sigma_parm_min => False | _ => True end -> evs ok (scan_str LL v)).
  { intros v Hv. unfold scan_str. split; [exact O1|]. intros z Hz i Hi. apply HO. destruct v; exact I || contradiction. }
  apply (bad_r J ok HJ).
  { unfold read_input_ini, read_chains_grid, read_chain_out_name, read_beta_values, read_data_desc, read_sampling_para, drop_para.
    et HO; try exact O1; try apply OC; try (apply OS; exact I). }
  apply (bad_r J ok HJ). { unfold mpi_get_nlines, when. destruct (root r); cbn [evs]; repeat split; apply HO; exact I. }
  apply (bad_r J ok HJ). { apply HO. exact I. }
  apply (bad_r J ok HJ). { unfold mpi_data_loader, read_data, all_data, ife. et HO. }
  apply (bad_r J ok HJ). { apply HO. exact I. }
  apply bad_l. unfold mpi_gen_init_parm, ife, init_parm_set, read_parm_range, saved, drop_para.
  assert (OD : evs ok (calls LL (Z.to_nat (2 * K));; Do (Free para_line);; Do (SetNull para_line))). { split; [apply OC|split; apply HO; exact I]. }
  assert (OM : evs ok (Do (Malloc sigma_parm_min N 1))). { apply HO. split; reflexivity. }
  assert (OX : evs ok (Do (Malloc sigma_parm_max N 1))). { apply HO. exact I. }
  destruct (root r).
  - apply (bad_r J ok HJ). { cbn [evs]. repeat split; apply HO; exact I. }
    apply bad_l. apply (bad_r J ok HJ); [exact OD|]. apply (bad_r J ok HJ). { intros z Hz. apply HO. exact I. }
    apply (bad_r J ok HJ); [exact OM|]. apply (bad_r J ok HJ); [exact OX|]. exact HB.
  - apply (bad_r J ok HJ). { cbn [evs]. repeat split; apply HO; exact I. }
    apply (bad_r J ok HJ). { apply HO. exact I. }
    apply bad_l. apply (bad_r J ok HJ); [exact OD|]. apply (bad_r J ok HJ). { intros z Hz. apply HO. exact I. }
    apply (bad_r J ok HJ); [exact OM|]. apply (bad_r J ok HJ); [exact OX|]. exact HB.
Qed.
Lemma hlose_var : forall s v, var (hlose s v) = var s.
Proof. intros s v. unfold hlose. destruct (var s v); reflexivity. Qed.
Lemma few_bad : N < K -> forall t, tr prog t -> hrun h0 t = None.
Proof.
  intros HL t Ht.
  set (J := fun s => match var s sigma_parm_min with Live a _ _ => a = N | _ => True end).
  set (ok := fun e => match e with Malloc sigma_parm_min a b => a = N | _ => True end).
  assert (HJ : forall s e s', J s -> ok e -> hstep s e = Some s' -> J s').
  { intros s e s' H1 H2 H3. unfold J, ok in *. destruct e; cbn in H3;
      repeat match type of H3 with (if ?b then _ else _) = _ => destruct b eqn:? | (match ?x with _ => _ end) = _ => destruct x eqn:? end; try discriminate; injection H3 as <-;
      cbn [var hset]; rewrite ?hlose_var; try exact H1; destruct (pv_eq v sigma_parm_min) as [->|]; auto.
    rewrite Heqc in H1. exact H1. }
  refine (to_scale J ok HJ _ _ t Ht h0 I).
  - intros e He. unfold ok. destruct e; auto. destruct v; auto. apply He.
  - unfold calc_sigma_scale_boundary. apply bad_l. apply (bad_for J ok HJ _ _ _ N); [lia|intros; exact I|].
    apply bad_do. intros s Hs. unfold J in Hs. cbn. destruct (var s sigma_parm_min); auto. subst n1. rewrite Z.ltb_irrefl, andb_false_r. reflexivity.
Qed.
Lemma many_bad : K < N -> forall t, tr prog t -> hrun h0 t = None.
Proof.
  intros HL t Ht.
  set (J := fun s => match var s sigma_parm_min with Live _ b ini => b = 1 /\ ini K = false | _ => True end).
  set (ok := fun e => match e with Malloc sigma_parm_min a b => b = 1 | Wr sigma_parm_min i _ => i <> K | _ => True end).
  assert (HJ : forall s e s', J s -> ok e -> hstep s e = Some s' -> J s').
  { intros s e s' H1 H2 H3. unfold J, ok in *. destruct e; cbn in H3;
      repeat match type of H3 with (if ?b then _ else _) = _ => destruct b eqn:? | (match ?x with _ => _ end) = _ => destruct x eqn:? end; try discriminate; injection H3 as <-;
      cbn [var hset]; rewrite ?hlose_var; try exact H1; destruct (pv_eq v sigma_parm_min) as [->|]; auto.
    rewrite Heqc in H1. destruct H1 as [-> H1]. split; auto. rewrite H1, orb_false_r. apply Z.eqb_neq. lia. }
  refine (to_scale J ok HJ _ _ t Ht h0 I).
  - intros e He. unfold ok. destruct e; auto; destruct v; auto; try apply He; try contradiction.
  - unfold calc_sigma_scale_boundary. apply (bad_r J ok HJ). { intros z Hz. cbn. lia. } apply (bad_r J ok HJ). { intros z Hz. exact I. }
    apply (bad_for J ok HJ _ _ _ K); [lia|intros; split; exact I|]. apply bad_l.
    apply bad_do. intros s Hs. unfold J in Hs. cbn. destruct (var s sigma_parm_min); auto. destruct Hs as [-> Hs]. rewrite Z.mul_1_r, Z.add_0_r, Hs, andb_false_r. reflexivity.
Qed.
End Mismatch.

(** there are paths *)
Ltac op := repeat match goal with
  | |- open (if ?b then _ else _) => destruct b
  | |- open (when ?b _) => unfold when; destruct b
  | |- open (ife ?b _ _) => unfold ife; destruct b
  | |- open (rd _ _) => exact I | |- open (wr _ _) => exact I
  | |- open (Then _ _) => split
  | |- open (Or _ _) => first [left; exact I | left]
  | |- open Nop => exact I
  | |- open (Do _) => exact I
  | |- open (For _ _ _) => let z := fresh "z" in let Hz := fresh "Hz" in intros z Hz; cbv beta
  | |- open (Many _) => exact I
  | |- open (rdvec _ _) => intros ? ?; exact I | |- open (wrvec _ _) => intros ? ?; exact I
  | |- open (rdrow _ _ _) => intros ? ?; exact I | |- open (wrrow _ _ _) => intros ? ?; exact I
  end.
Lemma o_one : forall LL, open (read_onepara LL).
Proof. intros LL. unfold read_onepara, get_line. op. exists 0. split; [unfold below; change DEST with 100; lia|op]. Qed.
Lemma o_calls : forall LL k, open (calls LL k).
Proof. induction k; cbn [calls]; op; [apply o_one|apply IHk]. Qed.
Lemma o_scan : forall LL v, open (scan_str LL v).
Proof. intros LL v. unfold scan_str. op; [apply o_one|]. exists 0. split; [unfold below; change DEST with 100; lia|op]. Qed.
Lemma o_ini : forall LL Nb blank, open (read_input_ini LL Nb blank).
Proof.
  intros. unfold read_input_ini, read_chains_grid, read_chain_out_name, read_beta_values, read_data_desc, read_sampling_para, drop_para.
  op; try apply o_calls; try apply o_one; try apply o_scan.
Qed.
Lemma o_data : forall LL nl nd r, 0 <= LL -> open (mpi_data_loader LL nl nd r).
Proof. intros LL nl nd r H. unfold mpi_data_loader, read_data, all_data. op. exists 0. split; [lia|op]. Qed.
Lemma o_gen : forall LL n N K r, open (mpi_gen_init_parm LL n N K r).
Proof. intros. unfold mpi_gen_init_parm, init_parm_set, read_parm_range, drop_para, calc_sigma_scale_boundary, saved. op; apply o_calls. Qed.
Lemma o_calc : forall n N K nl kd r, open (mpi_init_calc_logllpp n N K nl kd r).
Proof. intros. unfold mpi_init_calc_logllpp, logll_beta, log_prior, saved. op. Qed.
Lemma o_main : forall LL n N K nl nd kd Nb Tn LM Nswap tl blank r, 0 <= LL -> open (main_heap LL n N K nl nd kd Nb Tn LM Nswap tl blank r).
Proof.
  intros. unfold main_heap, mpi_get_nlines, init_gaussian_proposal, save_sigma_gauss_prop, mpi_gather_sigma_prop_root, saved, mpi_entire_flow.
  op; try apply o_ini; try (apply o_data; assumption); try apply o_gen; try apply o_calc.
Qed.

Theorem C78_mismatch_refuted : forall LL n N K nl nd kd Nb Tn LM Nswap tl blank r, 0 <= LL -> 1 <= N -> 1 <= K -> N <> K ->
  let prog := main_heap LL n N K nl nd kd Nb Tn LM Nswap tl blank r in
  (exists t, tr prog t) /\ forall t, tr prog t -> hrun h0 t = None.
Proof.
  intros LL n N K nl nd kd Nb Tn LM Nswap tl blank r HL HN HK HD prog. split; [apply has; apply o_main; auto|].
  destruct (Z.lt_trichotomy N K) as [H|[H|H]]; [apply few_bad; auto|lia|apply many_bad; auto].
Qed.
Print Assumptions C78_mismatch_refuted.

(** the regression model as shipped, 4 ranks: a path of the root with a batch of 10, a change of the ladder and a tuning of the widths *)
Definition ex := main_heap 60 4 3 3 100 3 3 16 100 20 1 true true 0.
Lemma ex_meets : forall e, meets e (mpi_entire_flow 4 3 3 100 3 100 20 1 true 0) -> meets e ex.
Proof.
  intros e H. unfold ex, main_heap.
  apply m_r; [apply o_ini|]. apply m_r; [unfold mpi_get_nlines; op|]. apply m_r; [op|]. apply m_r; [apply o_data; lia|]. apply m_r; [op|]. apply m_r; [apply o_gen|].
  apply m_r; [op|]. apply m_r; [apply o_calc|]. apply m_r; [op|]. apply m_r; [op|]. apply m_r; [op|]. apply m_r; [unfold init_gaussian_proposal; op|].
  apply m_r; [unfold save_sigma_gauss_prop, saved; op|]. apply m_r; [unfold mpi_gather_sigma_prop_root; op|]. apply m_r; [op|]. apply m_r; [op|]. apply m_l; [exact H|op].
Qed.
Example C78_case_batch : exists t, tr ex t /\ In (Malloc chain_IterParm_root 10 3) t.
Proof.
  apply ex_meets. unfold mpi_entire_flow. apply m_r; [op|]. apply m_l; [|op]. apply m_many.
  apply m_r; [unfold mpi_distribute_sigma_prop_root; op|]. apply m_r; [unfold save_sigma_gauss_prop, saved; op|]. apply m_l; [|op].
  unfold mpi_static_sigma_stack. apply m_r; [op|]. apply m_r; [op|]. apply m_r; [op|]. apply m_r; [unfold saved; op|]. apply m_l; [|op].
  apply m_many. apply m_l.
  - apply m_pick with (z := 10); [lia|]. unfold mpi_run_a_batch, ife. cbn [root Z.eqb]. apply m_r; [op|]. apply m_l; [apply m_do|].
    unfold iter_batch_mh, mh_iteration, do_gaussian_propose, para_boundary, logll_beta, log_prior, saved. op.
  - intros z Hz. exists 0. split; [unfold below; lia|]. unfold mpi_judge_and_swap, ife. cbn [root Z.eqb]. split; [|op]. exists 1. split; [unfold below; lia|]. unfold logll_beta, log_prior. op.
Qed.
Example C78_case_ladder : exists t, tr ex t /\ In (Malloc T_ladder 4 1) t.
Proof.
  apply ex_meets. unfold mpi_entire_flow. apply m_r; [op|]. apply m_l; [|op]. apply m_many.
  apply m_r; [unfold mpi_distribute_sigma_prop_root; op|]. apply m_r; [unfold save_sigma_gauss_prop, saved; op|]. apply m_l; [|op].
  unfold mpi_static_sigma_stack. apply m_r; [op|]. apply m_r; [op|]. apply m_r; [op|]. apply m_r; [unfold saved; op|]. apply m_r; [op|]. apply m_l; [|op].
  unfold when. apply m_orr. unfold mpi_adjust_ladder. apply m_l; [|op]. unfold when. cbn [root Z.eqb]. unfold tune_ladder_use_3_neighb, ladder_step. apply m_l; [apply m_do|op].
Qed.
Example C78_case_tune : exists t, tr ex t /\ In (Malloc std_Parm 3 1) t.
Proof.
  apply ex_meets. unfold mpi_entire_flow. apply m_r; [op|]. apply m_l; [|op]. apply m_many.
  apply m_r; [unfold mpi_distribute_sigma_prop_root; op|]. apply m_r; [unfold save_sigma_gauss_prop, saved; op|].
  apply m_r; [unfold mpi_static_sigma_stack, saved; op|]. apply m_orr. apply m_r; [unfold mpi_find_ranks2tune; op|].
  apply m_for0; [lia| |intros; op]. apply m_r; [op|]. apply m_orr. unfold mpi_tune_sigma_irank, when, ife. cbn [root Z.eqb negb].
  apply m_r; [op|]. apply m_r; [op|]. apply m_r; [op|]. apply m_r; [op|]. apply m_r; [unfold gen_sigma_alltune; op|]. apply m_r; [op|]. apply m_r; [op|].
  apply m_r. { unfold replicate_OneSigmaOrigin_Nvaried, tune_oneparm_Nvaried, mpi_distribute_sigma_prop_root, mpi_tune_sigma_iparmNrank, iter_batch_mh_tune, mh_iteration,
    do_gaussian_propose, para_boundary, logll_beta, log_prior. op. }
  apply m_r; [op|]. apply m_r; [op|]. apply m_l; [|op]. apply m_l.
  - unfold decide_sigma_to_change, calc_SD_allParm, calc_closest_ar, argvec. apply m_l; [apply m_do|]. op. exists 0. split; [unfold below; lia|]. unfold calc_closest_ar_oneparm. op.
  - unfold modify_sigma_prop_rankintune. left. exists 0. split; [unfold below; lia|]. exists 0. split; [unfold below; lia|]. op.
Qed.
(** and what all its paths end with *)
Example C78_case : forall t, tr ex t -> exists s, hrun h0 t = Some s /\ files s = 0 /\ live s logpost_all_ranks /\ length (lost s) = 35%nat /\ held s <= 7320.
Proof.
  intros t Ht. destruct (C78_safe 60 4 3 100 3 3 16 100 20 1 true true 0 ltac:(lia) ltac:(lia) ltac:(lia) ltac:(lia) ltac:(lia) ltac:(lia) ltac:(lia) t Ht) as [s [G [F [V L]]]].
  exists s. split; auto. split; auto. split; [apply V; cbn; tauto|]. split; [rewrite L; reflexivity|].
  rewrite <- (app_nil_r t) in Ht.
  destruct (C78_bounded 60 4 3 100 3 3 16 100 20 1 true true 0 ltac:(lia) ltac:(lia) ltac:(lia) ltac:(lia) ltac:(lia) ltac:(lia) ltac:(lia) ltac:(lia) ltac:(lia) t [] Ht) as [s2 [G2 [_ H]]].
  rewrite G in G2. injection G2 as <-. lia.
Qed.
