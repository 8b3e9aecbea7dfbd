(** A bound of every block that is allocated: the memory that a rank holds at any moment. *)
From Coq Require Import ZArith List Bool Lia.
From Verif Require Import Heap.
Import ListNotations.
Open Scope Z_scope.
Open Scope hcmd.

Section Cap.
Variable cap : pv -> Z.
Definition ev_ok (e : ev) : Prop := match e with Malloc v a b => 0 <= a * b <= cap v | _ => True end.
Fixpoint caps (c : cmd) : Prop :=
  match c with
  | Nop => True
  | Do e => ev_ok e
  | Then a b => caps a /\ caps b
  | Or a b => caps a /\ caps b
  | For lo hi f => forall z, lo <= z < hi -> caps (f z)
  | Many c => caps c
  | Pick P f => forall z, P z -> caps (f z)
  end.
Lemma caps_tr : forall c t, tr c t -> caps c -> List.Forall ev_ok t.
Proof.
  intros c t H. induction H; cbn; intros C; auto; try (apply Forall_app; split); try tauto.
  - apply IHtr1. apply C. lia.
  - apply IHtr2. intros z Hz. apply C. lia.
Qed.
Definition capinv (s : hst) : Prop := forall v, match var s v with Live a b _ => 0 <= a * b <= cap v | _ => True end.
Definition total (l : list (pv * Z)) : Z := fold_right (fun x a => snd x + a) 0 l.
Lemma total_app : forall l m, total (l ++ m) = total l + total m.
Proof. induction l as [|x l IH]; intros m; cbn; [reflexivity|]. fold (total (l ++ m)). rewrite IH. unfold total. lia. Qed.
Lemma inv_set : forall s v c, capinv s -> match c with Live a b _ => 0 <= a * b <= cap v | _ => True end -> capinv (hset s v c).
Proof. intros s v c I H w. unfold hset. cbn. destruct (pv_eq v w) as [<-|]; auto. apply I. Qed.
Lemma lose_step : forall s v, capinv s -> capinv (hlose s v) /\ exists l, lost (hlose s v) = l ++ lost s /\ 0 <= total l.
Proof.
  intros s v I. unfold hlose. pose proof (I v) as Iv. destruct (var s v) eqn:E; [| | |]; try (split; [exact I|exists []; cbn; split; [reflexivity|lia]]).
  split; [exact I|]. exists [(v, n1 * n2)]. cbn. split; auto. lia.
Qed.
Lemma cap_step : forall s e s', capinv s -> ev_ok e -> hstep s e = Some s' -> capinv s' /\ exists l, lost s' = l ++ lost s /\ 0 <= total l.
Proof.
  intros s e s' I He H. destruct e; cbn in H, He.
  - destruct ((0 <=? n1) && (0 <=? n2)); [|discriminate]. injection H as <-. destruct (lose_step s v I) as [I' L]. split; auto. apply inv_set; auto.
  - destruct (var s v) eqn:E; try discriminate; injection H as <-; (split; [try apply inv_set; auto|exists []; cbn; split; [auto|lia]]).
  - destruct (var s v) eqn:E; try discriminate. destruct (1 <=? n1); [|discriminate]. injection H as <-. split; [apply inv_set; auto|exists []; cbn; split; [auto|lia]].
  - injection H as <-. destruct (lose_step s v I) as [I' L]. split; auto. apply inv_set; auto.
  - destruct (var s v) eqn:E; try discriminate. destruct (_ && _); [|discriminate]. injection H as <-. split; [auto|exists []; cbn; split; [auto|lia]].
  - pose proof (I v) as Iv. destruct (var s v) eqn:E; try discriminate. destruct (_ && _); [|discriminate]. injection H as <-. split; [apply inv_set; auto|exists []; cbn; split; [auto|lia]].
  - injection H as <-. split; [exact I|exists []; cbn; split; [auto|lia]].
  - destruct (1 <=? files s); [|discriminate]. injection H as <-. split; [exact I|exists []; cbn; split; [auto|lia]].
Qed.
Lemma cap_run : forall t s s', capinv s -> List.Forall ev_ok t -> hrun s t = Some s' -> capinv s' /\ exists l, lost s' = l ++ lost s /\ 0 <= total l.
Proof.
  induction t as [|e t IH]; intros s s' I F H; cbn in H.
  - injection H as <-. split; auto. exists []. cbn. split; [auto|lia].
  - destruct (hstep s e) as [s1|] eqn:E; [|discriminate]. inversion F; subst. destruct (cap_step _ _ _ I H2 E) as [I1 [l1 [L1 P1]]].
    destruct (IH _ _ I1 H3 H) as [I2 [l2 [L2 P2]]]. split; auto. exists (l2 ++ l1). rewrite total_app, L2, L1, app_assoc. split; [auto|lia].
Qed.
Lemma held_le : forall s, capinv s -> (forall v, 0 <= cap v) -> held s <= fold_right (fun v a => cap v + a) 0 all_pv + total (lost s).
Proof.
  intros s I P. unfold held. fold (total (lost s)). apply Z.add_le_mono_r. induction all_pv as [|v l IH]; cbn; [lia|].
  pose proof (I v). pose proof (P v). destruct (var s v); lia.
Qed.
End Cap.

Section Rank.
Variables LL n N nl nd kd Nb Tn LM Nswap : Z.
Variables (tl blank : bool) (r : Z).
Hypothesis (HL : 0 <= LL) (Hn : 2 <= n) (HN : 1 <= N) (Hnl : 1 <= nl) (Hkd : 0 <= kd <= nd) (HNb : n <= Nb) (HT : 1 <= Tn) (HM : 1 <= LM).
Definition cap (v : pv) : Z :=
  match v with
  | para_line | FoutPre | FoutSuf | results_dir | Data_file | Delimiter => DEST
  | line_buf => LL + DEST
  | Beta_Values => Nb
  | line => LL + 1
  | sigma_parm_min | sigma_parm_max | sigma_gaussian_prop | chain_Parm_slave | chain_Parm_root | chain_Parm_ichain | chain_Parm_jchain | ptr_one_chain_new
  | chain_single_tune | ptr_one_chain_new_tune | sigma_gaussian_prop_rankintune | std_Parm => N
  | data_NlineNdim => nl * nd
  | transit_BetaParm_root | sigma_RanksParm_root | sigma_tune1parm_NvariedParm | ar_ParmNvaried | sigma_alltune_ParmNvaried => n * N
  | logpost_all_ranks | running_Beta_Values | tune_ranks | doubleInt_Nswaps | doubleInt_Nprops | scaled_arr | oneparm_arerr_Nvaried | T_ladder | swap_ar_i_ip1 => n
  | chain_IterParm_root | chain_IterParm_slave => LM * N
  | accumul_accept | accumul | logpost => LM
  | chain_IterParm => Tn * N
  | logpost_tune => Tn
  end.
Definition memory : Z := 3602 + 2 * LL + Nb + nl * nd + 5 * (n * N) + 212 * N + 9 * n + LM * (2 * N + 3) + Tn * (N + 1).
Lemma DEST100 : DEST = 100.
Proof. reflexivity. Qed.
Lemma cap_sum : fold_right (fun v a => cap v + a) 0 all_pv + 2900 + 200 * N <= memory.
Proof. unfold all_pv, cap, memory. cbn [fold_right]. rewrite DEST100. lia. Qed.
Lemma cap_pos : forall v, 0 <= cap v.
Proof. pose proof DEST100. intros v. destruct v; cbn [cap]; nia. Qed.
Ltac ct := repeat match goal with
  | |- caps _ (if ?b then _ else _) => destruct b
  | |- caps _ (when ?b _) => unfold when; destruct b
  | |- caps _ (ife ?b _ _) => unfold ife; destruct b
  | |- caps _ (rd _ _) => exact I | |- caps _ (wr _ _) => exact I
  | |- caps _ (Then _ _) => split
  | |- caps _ (Or _ _) => split
  | |- caps _ Nop => exact I
  | |- caps _ (Do _) => first [exact I | cbn [caps ev_ok cap]; lia | cbn [caps ev_ok cap]; nia]
  | |- caps _ (For _ _ _) => let z := fresh "z" in let Hz := fresh "Hz" in intros z Hz; cbv beta
  | |- caps ?k (Many ?c) => change (caps k c)
  | |- caps _ (Pick _ _) => let z := fresh "z" in let Hz := fresh "Hz" in intros z Hz; cbv beta in *
  | |- caps _ (rdvec _ _) => intros ? ?; exact I | |- caps _ (wrvec _ _) => intros ? ?; exact I
  | |- caps _ (rdrow _ _ _) => intros ? ?; exact I | |- caps _ (wrrow _ _ _) => intros ? ?; exact I
  end.
Lemma c_one : caps cap (read_onepara LL).
Proof. pose proof DEST100. unfold read_onepara, get_line, below. ct. Qed.
Lemma c_calls : forall k, caps cap (calls LL k).
Proof. induction k as [|k IH]; cbn [calls]; ct; [apply c_one|apply IH]. Qed.
Lemma c_scan : forall v, caps cap (scan_str LL v).
Proof. intros v. unfold scan_str. ct. apply c_one. Qed.
Lemma c_ini : caps cap (read_input_ini LL Nb blank).
Proof.
  pose proof DEST100. unfold read_input_ini, read_chains_grid, read_chain_out_name, read_beta_values, read_data_desc, read_sampling_para, drop_para.
  ct; try apply c_calls; try apply c_one; try apply c_scan.
Qed.
Lemma c_mh : forall c lp new b i, caps cap (mh_iteration N N nl kd c lp new b i).
Proof. intros. unfold mh_iteration, do_gaussian_propose, para_boundary, logll_beta, log_prior. ct. Qed.
Lemma c_iter : forall c m, 1 <= m <= LM -> caps cap (iter_batch_mh N N nl kd r c m).
Proof. intros. unfold iter_batch_mh, saved. ct. apply c_mh. Qed.
Lemma c_batch : forall m, 1 <= m <= LM -> caps cap (mpi_run_a_batch n N N nl kd r m).
Proof. intros. unfold mpi_run_a_batch. ct; try (apply c_iter; lia). Qed.
Lemma c_stack : caps cap (mpi_static_sigma_stack n N N nl kd LM Nswap tl r).
Proof.
  unfold mpi_static_sigma_stack, saved, mpi_judge_and_swap, logll_beta, log_prior, mpi_adjust_ladder, tune_ladder_use_3_neighb, ladder_step. ct; try (apply c_batch; assumption).
Qed.
Lemma c_tune : forall q, caps cap (mpi_tune_sigma_irank n N N nl kd Tn r q).
Proof.
  intros q. unfold mpi_tune_sigma_irank, gen_sigma_alltune, replicate_OneSigmaOrigin_Nvaried, tune_oneparm_Nvaried, mpi_distribute_sigma_prop_root, mpi_tune_sigma_iparmNrank,
    iter_batch_mh_tune, decide_sigma_to_change, modify_sigma_prop_rankintune, race_all_parm, calc_SD_allParm, calc_closest_ar_oneparm, calc_closest_ar, argvec, init_gaussian_proposal.
  ct; try apply c_mh.
Qed.
Lemma c_flow : caps cap (mpi_entire_flow n N N nl kd Tn LM Nswap tl r).
Proof.
  unfold mpi_entire_flow, mpi_distribute_sigma_prop_root, save_sigma_gauss_prop, saved, mpi_find_ranks2tune. ct; try apply c_stack; try apply c_tune.
Qed.
Lemma c_main : caps cap (main_heap LL n N N nl nd kd Nb Tn LM Nswap tl blank r).
Proof.
  unfold main_heap, mpi_get_nlines, mpi_data_loader, read_data, all_data, mpi_gen_init_parm, init_parm_set, read_parm_range, drop_para, calc_sigma_scale_boundary,
    mpi_init_calc_logllpp, logll_beta, log_prior, init_gaussian_proposal, save_sigma_gauss_prop, mpi_gather_sigma_prop_root, saved.
  ct; try apply c_ini; try apply c_flow; try apply c_calls.
Qed.
End Rank.
