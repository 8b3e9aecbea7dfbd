(** What the functions of one rank need and leave. *)
From Coq Require Import ZArith List Bool Lia.
From Verif Require Import Heap HeapFacts HeapSpec.
Import ListNotations.
Open Scope Z_scope.
Open Scope hcmd.

Section Rank.
Variables LL n N K nl nd kd Nb Tn LM Nswap : Z.
Variables (tl blank : bool).
Variable r : Z.
Hypothesis Hn : 2 <= n.
Hypothesis HN : 1 <= N.
Hypothesis HK : K = N.
Hypothesis Hnl : 1 <= nl.
Hypothesis Hkd : 0 <= kd <= nd.
Hypothesis HNb : n <= Nb.
Hypothesis HT : 1 <= Tn.
Hypothesis Hr : 0 <= r < n.
Local Notation root := (root r).
Local Notation full v := (fun R : spec => R v = Up n N (n * N)).

Ltac same := apply t_for_same; [lia|let z := fresh "z" in let Hz := fresh "Hz" in intros z Hz].
Ltac up v n1 n2 g := eapply (t_for_up _ _ v n1 n2 g); [lia|num|look|cbv beta; num|let z := fresh "z" in let Hz := fresh "Hz" in intros z Hz; cbv beta].
Lemma t_saved_nop : forall R, trif 0 0 R (saved Nop) R [].
Proof. intros R. unfold saved. fin go. Qed.
Lemma t_saved : forall R c, trif 1 1 R c R [] -> trif 0 0 R (saved c) R [].
Proof. intros R c H. unfold saved. fin ltac:(sq; sq1 ltac:(exact H); one). Qed.

(** *** data *)
Definition dataok (R : spec) : Prop := R data_NlineNdim = Up nl nd (nl * nd).

Lemma t_dline : forall R, R line = Any ->
  trif 1 1 R (Pick (fun l => 0 <= l <= LL) (fun l => Do (Free line);; Do (Malloc line (l + 1) 1);; wrvec line (l + 1);; rdvec line (l + 1))) R [].
Proof. intros R H. apply t_pick. intros l Hl. fin ltac:(go; sq1 vn; rv). Qed.
Lemma t_read_data : forall R, R line = Dead -> R data_NlineNdim = Up nl nd 0 -> trif 0 0 R (read_data LL nl nd) (upd R data_NlineNdim (Up nl nd (nl * nd))) [].
Proof.
  intros R H1 H2. unfold read_data.
  assert (L : trif 1 1 (upd R line Any) (For 0 nl (fun i => Pick (fun l => 0 <= l <= LL) (fun l => Do (Free line);; Do (Malloc line (l + 1) 1);; wrvec line (l + 1);; rdvec line (l + 1));;
    For 0 nd (fun j => Do (Wr data_NlineNdim i j)))) (upd (upd R line Any) data_NlineNdim (Up nl nd (nl * nd))) []).
  { up data_NlineNdim nl nd (fun i => i * nd). fin ltac:(sq1 ltac:(apply t_dline; look); up data_NlineNdim nl nd (fun j => z * nd + j); fin one). }
  fin ltac:(sq; sq; sq1 ltac:(eapply t_weak; [|exact L|apply le_refl]; le_tac); go).
Qed.
Lemma t_all_rd : forall R f, f <= 1 -> dataok R -> trif f f R (all_data nl nd (Rd data_NlineNdim)) R [].
Proof. intros R f Hf H. unfold all_data, dataok in *. same. same. one. Qed.
Lemma t_all_wr : forall R, R data_NlineNdim = Up nl nd 0 -> trif 0 0 R (all_data nl nd (Wr data_NlineNdim)) (upd R data_NlineNdim (Up nl nd (nl * nd))) [].
Proof.
  intros R H. unfold all_data. up data_NlineNdim nl nd (fun i => i * nd). fin ltac:(up data_NlineNdim nl nd (fun j => z * nd + j); fin one).
Qed.
Lemma t_loader : forall R, R line = Dead -> R data_NlineNdim = Up nl nd 0 ->
  trif 0 0 R (mpi_data_loader LL nl nd r) (upd R data_NlineNdim (Up nl nd (nl * nd))) [].
Proof.
  intros R H1 H2. unfold mpi_data_loader, ife. destruct root.
  - fin ltac:(sq1 ltac:(apply t_read_data; look); apply t_all_rd; [lia|unfold dataok; look]).
  - apply t_all_wr; look.
Qed.
Lemma t_nlines : forall R, trif 0 0 R (mpi_get_nlines r) R [].
Proof. intros R. unfold mpi_get_nlines, when. destruct root; [fin go|one]. Qed.

(** *** the user functions *)
Lemma t_logll : forall f R x, f <= 1 -> dataok R -> R x = Up N 1 N -> trif f f R (logll_beta K nl kd x) R [].
Proof. intros f R x Hf H1 H2. unfold logll_beta, dataok in *. fin ltac:(sq1 rv; same; same; one). Qed.
Lemma t_prior : forall f R x, f <= 1 -> R x = Up N 1 N -> trif f f R (log_prior K x) R [].
Proof. intros f R x Hf H2. unfold log_prior. rv. Qed.
Lemma t_bound : forall f R x, f <= 1 -> R x = Up N 1 N -> trif f f R (para_boundary K x) R [].
Proof.
  intros f R x Hf H2. unfold para_boundary. fin ltac:(sq1 rv; same; fin ltac:(sq1 ltac:(apply t_or; [one|unfold wr; old]); apply t_or; [one|unfold wr; old])).
Qed.
Lemma t_scale : forall R, R sigma_parm_min = Up N 1 0 -> R sigma_parm_max = Up N 1 0 ->
  trif 0 0 R (calc_sigma_scale_boundary N K) (upd (upd R sigma_parm_min (Up N 1 N)) sigma_parm_max (Up N 1 N)) [].
Proof. intros R H1 H2. unfold calc_sigma_scale_boundary. fin ltac:(sq1 vn; sq1 vn; same; fin go). Qed.
Definition sigs (R : spec) : spec := upd (upd R sigma_parm_min (Up N 1 N)) sigma_parm_max (Up N 1 N).
Definition PLS := repeat (para_line, DEST) (Z.to_nat (2 * K - 1)).
Lemma t_init_set : forall R Q f, dead R [line_buf; para_line; sigma_parm_min; sigma_parm_max] ->
  (forall v, Q v <> R v -> v <> line_buf /\ v <> para_line /\ v <> sigma_parm_min /\ v <> sigma_parm_max) ->
  trif 0 0 R (For 0 K (fun i => Do (f i))) Q [] ->
  trif 0 0 R (init_parm_set LL N K f) (sigs Q) PLS.
Proof.
  intros R Q f H HQ HF. opend.
  assert (E : forall v, In v [line_buf; para_line; sigma_parm_min; sigma_parm_max] -> R v = Dead -> Q v = Dead).
  { intros v Hv HR. destruct (Q v) eqn:EQ; auto; exfalso; destruct (HQ v) as [A1 [A2 [A3 A4]]]; try congruence; cbn in Hv; intuition congruence. }
  pose proof (E sigma_parm_min ltac:(cbn; auto) ltac:(assumption)). pose proof (E sigma_parm_max ltac:(cbn; auto) ltac:(assumption)).
  unfold init_parm_set, sigs, PLS.
  eapply t_post; [sq1 ltac:(apply t_range; [lia|look|look]); sq1 ltac:(exact HF); sq; sq; apply t_scale; look|reflexivity|le_tac].
Qed.

(** *** start values *)
Ltac flow := idtac; repeat first [sq | sq1 rv].
Lemma t_gen_init : forall R, dead R [line_buf; para_line; sigma_parm_min; sigma_parm_max; chain_Parm_slave] -> R transit_BetaParm_root = Up n N 0 ->
  trif 0 0 R (mpi_gen_init_parm LL n N K r) (sigs (if root then upd R transit_BetaParm_root (Up n N (n * N)) else R)) PLS.
Proof.
  intros R H HT0. opend. unfold mpi_gen_init_parm, ife. destruct root.
  - eapply t_post; [sq1 ltac:(apply t_saved_nop);
      sq1 ltac:(apply (t_init_set R (upd R transit_BetaParm_root (Up n N N))); [mkdead|intros v Hv; destruct (pv_eq transit_BetaParm_root v) as [<-|Hd];
         [repeat split; discriminate|rewrite upd_other in Hv by exact Hd; congruence]|fin ltac:(up transit_BetaParm_root n N (fun i : Z => i); fin one)]);
      unfold sigs; sq1 ltac:(up transit_BetaParm_root n N (fun i => i * N); fin vn); apply t_saved; same; rv|rewrite app_nil_r; reflexivity|unfold sigs; le_tac].
  - eapply t_post; [sq1 ltac:(apply t_saved_nop); sq;
      sq1 ltac:(eapply (t_init_set _ (upd R chain_Parm_slave (Up N 1 N))); [mkdead|intros v Hv; destruct (pv_eq chain_Parm_slave v) as [<-|Hd];
         [repeat split; discriminate|rewrite !upd_other in Hv by exact Hd; congruence]|fin ltac:(up chain_Parm_slave N 1 (fun i : Z => i); fin one)]);
      unfold sigs; flow; one|rewrite ?app_nil_r; reflexivity|unfold sigs; le_tac].
Qed.
Lemma t_init_calc : forall R, dataok R -> R Beta_Values = Up Nb 1 Nb -> R logpost_all_ranks = Up n 1 0 -> dead R [chain_Parm_root; chain_Parm_slave] ->
  (root = true -> R transit_BetaParm_root = Up n N (n * N)) ->
  trif 0 0 R (mpi_init_calc_logllpp n N K nl kd r) (if root then upd R logpost_all_ranks (Up n 1 n) else R) [].
Proof.
  intros R HD HB HL H HR. opend. unfold dataok in HD. unfold mpi_init_calc_logllpp, ife. destruct root.
  - specialize (HR eq_refl).
    fin ltac:(sq1 ltac:(same; rv); sq; sq1 ltac:(up chain_Parm_root N 1 (fun i : Z => i); fin go); sq; sq1 ltac:(apply t_logll; [lia|unfold dataok; look|look]);
      sq1 ltac:(apply t_prior; [lia|look]); sq; sq1 ltac:(apply t_saved; rv); sq1 ltac:(up logpost_all_ranks n 1 (fun i : Z => i); fin one); go).
  - fin ltac:(sq; sq1 vn; sq; sq1 ltac:(apply t_logll; [lia|unfold dataok; look|look]); sq1 ltac:(apply t_prior; [lia|look]); sq1 ltac:(apply t_saved; rv); go).
Qed.

(** *** sigma *)
Lemma t_save_sigma : forall R, R sigma_gaussian_prop = Up N 1 N -> trif 0 0 R (save_sigma_gauss_prop N) R [].
Proof. intros R H. unfold save_sigma_gauss_prop. apply t_saved. rv. Qed.
Lemma t_gather : forall R, R sigma_gaussian_prop = Up N 1 N -> (root = true -> R sigma_RanksParm_root = Up n N 0) ->
  trif 0 0 R (mpi_gather_sigma_prop_root n N r) (if root then upd R sigma_RanksParm_root (Up n N (n * N)) else R) [].
Proof.
  intros R H HR. unfold mpi_gather_sigma_prop_root, ife. destruct root; [|rv]. specialize (HR eq_refl).
  fin ltac:(sq1 ltac:(up sigma_RanksParm_root n N (fun i : Z => i); fin go); up sigma_RanksParm_root n N (fun i => i * N); fin vn).
Qed.
Lemma t_distribute : forall R m, m <> sigma_gaussian_prop -> R sigma_gaussian_prop = Up N 1 N -> (root = true -> R m = Up n N (n * N)) ->
  trif 0 0 R (mpi_distribute_sigma_prop_root n N r m) R [].
Proof.
  intros R m Hm H HR. unfold mpi_distribute_sigma_prop_root, ife. destruct root; [|vo]. specialize (HR eq_refl).
  fin ltac:(sq1 ltac:(same; fin go); same; rv).
Qed.

(** *** one batch *)
Lemma t_mh : forall R c lp new b i m, c <> lp -> c <> new -> lp <> new -> dataok R -> R sigma_gaussian_prop = Up N 1 N -> R running_Beta_Values = Up n 1 n ->
  new <> sigma_gaussian_prop -> new <> running_Beta_Values -> new <> data_NlineNdim ->
  0 <= b < n -> 0 <= i < m -> R c = Up m N (Z.max i 1 * N) -> R lp = Up m 1 (Z.max i 1) -> R new = Up N 1 0 ->
  trif 0 0 R (mh_iteration N K nl kd c lp new b i) (upd (upd R c (Up m N ((i + 1) * N))) lp (Up m 1 (i + 1))) [].
Proof.
  intros R c lp new b i m D1 D2 D3 HD HS HB E1 E2 E3 Hb Hi Hc Hlp Hnew. unfold dataok in HD. unfold mh_iteration, do_gaussian_propose.
  destruct (Z.ltb_spec 0 i) as [Hi0|Hi0]; cbn [when].
  - rewrite Z.max_l in Hc, Hlp by lia.
    fin ltac:(sq; sq1 ltac:(up new N 1 (fun j : Z => j); fin go); sq1 ltac:(apply t_bound; [lia|look]); sq;
      sq1 ltac:(apply t_logll; [lia|unfold dataok; look|look]); sq1 ltac:(apply t_prior; [lia|look]);
      apply (t_or 0 0 _ _ _ (upd (upd (upd R new (Up N 1 N)) c (Up m N ((i + 1) * N))) lp (Up m 1 (i + 1))));
      [fin ltac:(sq1 ltac:(up c m N (fun j => i * N + j); fin go); one)|fin ltac:(sq1 ltac:(up c m N (fun j => i * N + j); fin go); one)]).
  - assert (i = 0) as -> by lia. rewrite Z.max_r in Hc, Hlp by lia.
    fin ltac:(sq; sq1 ltac:(up new N 1 (fun j : Z => j); fin go); sq1 ltac:(apply t_bound; [lia|look]); sq;
      sq1 ltac:(apply t_logll; [lia|unfold dataok; look|look]); sq1 ltac:(apply t_prior; [lia|look]);
      apply (t_or 0 0 _ _ _ (upd R new (Up N 1 N)));
      [fin ltac:(sq1 ltac:(same; fin ltac:(sq; old)); unfold wr; old)|fin one]).
Qed.
(** the variables that are in use during the whole run *)
Definition runok (R : spec) : Prop :=
  R data_NlineNdim = Up nl nd (nl * nd) /\ R sigma_gaussian_prop = Up N 1 N /\ R running_Beta_Values = Up n 1 n /\
  R sigma_parm_min = Up N 1 N /\ R sigma_parm_max = Up N 1 N /\
  (root = true -> R transit_BetaParm_root = Up n N (n * N)) /\ (root = true -> R logpost_all_ranks = Up n 1 n) /\
  (root = true -> R sigma_RanksParm_root = Up n N (n * N)).
Ltac openr := match goal with H : runok _ |- _ =>
  let a := fresh "HD" in let b := fresh "HS" in let c := fresh "HB" in let d := fresh "Hmin" in let e := fresh "Hmax" in
  let g := fresh "Htr" in let h := fresh "Hlp" in let k := fresh "Hsr" in destruct H as [a [b [c [d [e [g [h k]]]]]]] end.
Ltac mkrun := unfold runok; simp; repeat split; auto.
Lemma t_batch_mh : forall R c m, c = chain_IterParm_root \/ c = chain_IterParm_slave -> runok R -> 1 <= m -> R c = Up m N N ->
  dead R [accumul_accept; accumul; logpost; ptr_one_chain_new] ->
  trif 0 0 R (iter_batch_mh N K nl kd r c m) (upd R c (Up m N (m * N))) [].
Proof.
  intros R c m Hc HR Hm H1 H. openr. opend. unfold iter_batch_mh.
  assert (L : trif 0 0 (upd (upd (upd (upd R accumul_accept (Up m 1 0)) accumul (Up m 1 0)) logpost (Up m 1 1)) ptr_one_chain_new (Up N 1 0))
      (For 0 m (fun i => mh_iteration N K nl kd c logpost ptr_one_chain_new r i;; wr accumul i;; wr accumul_accept i))
      (upd (upd (upd (upd (upd R accumul_accept (Up m 1 m)) accumul (Up m 1 m)) logpost (Up m 1 m)) ptr_one_chain_new (Up N 1 0)) c (Up m N (m * N))) []).
  { eapply t_weak; [|apply (t_for 0 ltac:(lia) (fun i => upd (upd (upd (upd (upd R accumul_accept (Up m 1 i)) accumul (Up m 1 i)) logpost (Up m 1 (Z.max i 1)))
      ptr_one_chain_new (Up N 1 0)) c (Up m N (Z.max i 1 * N))) 0 m); [lia|]|].
    { destruct Hc as [-> | ->]; le_tac. }
    2: { rewrite Z.max_l by lia. apply le_refl. }
    intros i Hi. replace (Z.max (i + 1) 1) with (i + 1) by lia.
    destruct Hc as [-> | ->]; 
      fin ltac:(sq1 ltac:(eapply (t_mh _ _ _ _ _ _ m); [discriminate|discriminate|discriminate|unfold dataok; look|look|look|discriminate|discriminate|discriminate|lia|lia|look|look|look]); go). }
  destruct Hc as [-> | ->];
    fin ltac:(sq; sq; sq; sq; sq; sq1 ltac:(eapply t_weak; [|exact L|apply le_refl]; le_tac);
      sq1 ltac:(apply t_or; [one|apply t_saved; same; fin ltac:(sq1 rv; go)]); go).
Qed.
Lemma t_batch : forall R m, runok R -> 1 <= m -> dead R [accumul_accept; accumul; logpost; ptr_one_chain_new; chain_IterParm_root; chain_IterParm_slave] ->
  trif 0 0 R (mpi_run_a_batch n N K nl kd r m) R [].
Proof.
  intros R m HR Hm H. pose proof HR as HR0. openr. opend. unfold mpi_run_a_batch, ife. destruct root eqn:Er.
  - specialize (Htr eq_refl). specialize (Hlp eq_refl). specialize (Hsr eq_refl).
    fin ltac:(sq1 ltac:(same; fin ltac:(sq1 rv; one)); sq; sq1 ltac:(up chain_IterParm_root m N (fun j : Z => j); fin go); sq;
      sq1 ltac:(eapply t_batch_mh; [auto|mkrun|lia|look|mkdead]); sq; sq1 ltac:(same; fin ltac:(sq; old)); sq1 ltac:(same; fin ltac:(sq1 vo; unfold wr; old)); go).
  - fin ltac:(sq; sq1 vn; sq1 ltac:(eapply t_batch_mh; [auto|mkrun; congruence|lia|look|mkdead]); sq1 rv; go).
Qed.
Lemma t_swap : forall R i, runok R -> 0 <= i < n - 1 -> dead R [chain_Parm_ichain; chain_Parm_jchain] -> trif 0 0 R (mpi_judge_and_swap n N K nl kd r i) R [].
Proof.
  intros R i HR Hi H. openr. opend. unfold mpi_judge_and_swap, ife, when. destruct root.
  - specialize (Htr eq_refl). specialize (Hlp eq_refl). specialize (Hsr eq_refl). apply t_pick. unfold below. intros j Hj.
    fin ltac:(sq; sq; sq1 rv; sq; sq1 ltac:(up chain_Parm_ichain N 1 (fun j : Z => j); fin go); sq;
      sq1 ltac:(apply t_logll; [lia|unfold dataok; look|look]); sq1 ltac:(apply t_prior; [lia|look]);
      sq1 ltac:(apply t_or; [one|fin ltac:(sq1 ltac:(same; fin ltac:(sq; sq; sq1 old; old)); sq1 ltac:(unfold wr; old); unfold wr; old)]); go).
  - destruct (r =? 1); [|one].
    fin ltac:(sq; sq1 vn; sq; sq1 ltac:(apply t_logll; [lia|unfold dataok; look|look]); sq1 ltac:(apply t_prior; [lia|look]); go).
Qed.
(** *** the ladder *)
Lemma t_ladder_step : forall R i, R running_Beta_Values = Up n 1 n -> R T_ladder = Up n 1 n -> R swap_ar_i_ip1 = Up (n - 1) 1 (n - 1) -> 1 <= i < n - 1 ->
  trif 0 0 R (ladder_step n i) R [].
Proof.
  intros R i H1 H2 H3 Hi. unfold ladder_step.
  fin ltac:(sq; sq; sq1 ltac:(apply t_or; [fin ltac:(sq; sq; sq; unfold wr; old)|apply t_or; [fin ltac:(sq; sq; sq; unfold wr; old)|fin ltac:(sq; sq; sq; unfold wr; old)]]);
    sq; sq1 ltac:(apply t_or; [one|fin ltac:(sq; sq; unfold wr; old)]); sq; apply t_or; [one|fin ltac:(sq; sq; unfold wr; old)]).
Qed.
Lemma t_tune_ladder : forall R, R running_Beta_Values = Up n 1 n -> R doubleInt_Nswaps = Up n 1 n -> R doubleInt_Nprops = Up n 1 n -> dead R [T_ladder; swap_ar_i_ip1] ->
  trif 0 0 R (tune_ladder_use_3_neighb n) R [].
Proof.
  intros R H1 H2 H3 H. opend. unfold tune_ladder_use_3_neighb.
  fin ltac:(sq; sq1 ltac:(up T_ladder n 1 (fun j : Z => j); fin go); sq; sq1 ltac:(up swap_ar_i_ip1 (n - 1) 1 (fun j : Z => j); fin go);
    sq1 ltac:(same; apply t_ladder_step; [look|look|look|lia]); sq1 ltac:(same; fin ltac:(sq; unfold wr; old)); go).
Qed.
Lemma t_adjust : forall R, R running_Beta_Values = Up n 1 n -> (root = true -> R doubleInt_Nswaps = Up n 1 n /\ R doubleInt_Nprops = Up n 1 n) -> dead R [T_ladder; swap_ar_i_ip1] ->
  trif 0 0 R (mpi_adjust_ladder n r) R [].
Proof.
  intros R H1 H2 H. unfold mpi_adjust_ladder, when, ife. destruct root.
  - destruct (H2 eq_refl). fin ltac:(sq1 ltac:(apply t_tune_ladder; [look|look|look|assumption]); same; rv).
  - fin ltac:(sq; vo).
Qed.
Definition flowdead : list pv := [accumul_accept; accumul; logpost; ptr_one_chain_new; chain_IterParm_root; chain_IterParm_slave; chain_Parm_ichain; chain_Parm_jchain;
  T_ladder; swap_ar_i_ip1; doubleInt_Nswaps; doubleInt_Nprops].
Lemma t_stack : forall R, runok R -> dead R flowdead -> trif 0 0 R (mpi_static_sigma_stack n N K nl kd LM Nswap tl r) R [].
Proof.
  intros R HR H. pose proof HR as HR0. openr. unfold flowdead in H. opend. unfold mpi_static_sigma_stack.
  set (q := if tl && root then n else 0).
  set (Q := upd (upd R doubleInt_Nswaps (Up n 1 q)) doubleInt_Nprops (Up n 1 q)).
  assert (HQ : runok Q) by (unfold Q; mkrun).
  assert (A : trif 0 0 (upd (upd R doubleInt_Nswaps (Up n 1 0)) doubleInt_Nprops (Up n 1 0))
     (when (tl && root) (For 0 n (fun i => wr doubleInt_Nswaps i;; wr doubleInt_Nprops i))) Q []).
  { unfold Q, q. destruct (tl && root); cbn [when]; [|one].
    eapply t_weak; [|apply (t_for 0 ltac:(lia) (fun i => upd (upd R doubleInt_Nswaps (Up n 1 i)) doubleInt_Nprops (Up n 1 i)) 0 n); [lia|intros i Hi; fin go]|apply le_refl]. le_tac. }
  assert (B : trif 0 0 Q (when root (saved (rdvec running_Beta_Values n))) Q []).
  { unfold when. destruct root; [|one]. apply t_saved. unfold Q. rv. }
  assert (W : forall i, 0 <= i < n - 1 -> trif 0 0 Q (when (tl && root) (rd doubleInt_Nprops i;; wr doubleInt_Nprops i;; rd doubleInt_Nswaps i;; wr doubleInt_Nswaps i)) Q []).
  { intros i Hi. unfold Q, q. destruct (tl && root); cbn [when]; [|one]. fin ltac:(sq; sq1 ltac:(unfold wr; old); sq; unfold wr; old). }
  assert (C : trif 0 0 Q (Many (Pick (fun m => 1 <= m <= LM) (mpi_run_a_batch n N K nl kd r);;
        For 0 Nswap (fun _ => Pick (below (n - 1)) (fun i => mpi_judge_and_swap n N K nl kd r i;;
          when (tl && root) (rd doubleInt_Nprops i;; wr doubleInt_Nprops i;; rd doubleInt_Nswaps i;; wr doubleInt_Nswaps i))))) Q []).
  { apply t_many; [lia|].
    fin ltac:(sq1 ltac:(apply t_pick; let m := fresh "m" in let Hm := fresh "Hm" in intros m Hm; apply t_batch; [exact HQ|lia|unfold Q; mkdead]);
      same; apply t_pick; let i := fresh "i" in let Hi := fresh "Hi" in intros i Hi; unfold below in Hi;
      fin ltac:(sq1 ltac:(apply t_swap; [exact HQ|lia|unfold Q; mkdead]); apply W; lia)). }
  assert (D : trif 0 0 Q (when tl (Or Nop (mpi_adjust_ladder n r))) Q []).
  { unfold when. destruct tl eqn:Et; [|one]. apply t_or; [one|]. apply t_adjust; [unfold Q; look| |unfold Q; mkdead].
    intros Er. unfold Q, q. rewrite Er. cbn [andb]. split; look. }
  fin ltac:(sq; sq; sq1 ltac:(exact A); sq1 ltac:(exact B); sq1 ltac:(exact C); sq1 ltac:(exact D); unfold Q; go).
Qed.
(** *** tuning *)
Lemma t_alltune : forall R q, 0 <= q < n -> R sigma_RanksParm_root = Up n N (n * N) -> R sigma_parm_min = Up N 1 N -> R sigma_parm_max = Up N 1 N -> R scaled_arr = Dead ->
  R sigma_alltune_ParmNvaried = Up N n 0 -> trif 0 0 R (gen_sigma_alltune n N q) (upd R sigma_alltune_ParmNvaried (Up N n (N * n))) [].
Proof.
  intros R q Hq H1 H2 H3 H4 H5. unfold gen_sigma_alltune.
  fin ltac:(sq; sq1 ltac:(up sigma_alltune_ParmNvaried N n (fun i => i * n);
    fin ltac:(sq; sq1 vn; sq; sq; sq1 ltac:(apply t_or; [one|fin ltac:(sq; vo)]); sq; sq; sq1 ltac:(apply t_or; [one|fin ltac:(sq; vo)]);
      up sigma_alltune_ParmNvaried N n (fun j => z * n + j); fin go)); go).
Qed.
Lemma t_replicate : forall R q, 0 <= q < n -> R sigma_RanksParm_root = Up n N (n * N) -> R sigma_tune1parm_NvariedParm = Up n N 0 ->
  trif 0 0 R (replicate_OneSigmaOrigin_Nvaried n N q) (upd R sigma_tune1parm_NvariedParm (Up n N (n * N))) [].
Proof.
  intros R q Hq H1 H2. unfold replicate_OneSigmaOrigin_Nvaried. up sigma_tune1parm_NvariedParm n N (fun i => i * N).
  fin ltac:(up sigma_tune1parm_NvariedParm n N (fun j => z * N + j); fin go).
Qed.
Lemma t_oneparm : forall R p, 0 <= p < N -> R sigma_alltune_ParmNvaried = Up N n (N * n) -> R sigma_tune1parm_NvariedParm = Up n N (n * N) ->
  trif 0 0 R (tune_oneparm_Nvaried n p) R [].
Proof. intros R p Hp H1 H2. unfold tune_oneparm_Nvaried. same. fin ltac:(sq; old). Qed.
Lemma t_mh_tune : forall R q, 0 <= q < n -> runok R -> R chain_IterParm = Up Tn N N -> dead R [logpost_tune; ptr_one_chain_new_tune] ->
  trif 0 0 R (iter_batch_mh_tune N K nl kd Tn q) (upd R chain_IterParm (Up Tn N (Tn * N))) [].
Proof.
  intros R q Hq HR H1 H. openr. opend. unfold iter_batch_mh_tune.
  assert (L : trif 0 0 (upd (upd R logpost_tune (Up Tn 1 1)) ptr_one_chain_new_tune (Up N 1 0))
      (For 0 Tn (mh_iteration N K nl kd chain_IterParm logpost_tune ptr_one_chain_new_tune q))
      (upd (upd (upd R logpost_tune (Up Tn 1 Tn)) ptr_one_chain_new_tune (Up N 1 0)) chain_IterParm (Up Tn N (Tn * N))) []).
  { eapply t_weak; [|apply (t_for 0 ltac:(lia) (fun i => upd (upd (upd R logpost_tune (Up Tn 1 (Z.max i 1)))
      ptr_one_chain_new_tune (Up N 1 0)) chain_IterParm (Up Tn N (Z.max i 1 * N))) 0 Tn); [lia|]|].
    { le_tac. }
    2: { rewrite Z.max_l by lia. apply le_refl. }
    intros i Hi. replace (Z.max (i + 1) 1) with (i + 1) by lia.
    fin ltac:(eapply (t_mh _ _ _ _ _ _ Tn); [discriminate|discriminate|discriminate|unfold dataok; look|look|look|discriminate|discriminate|discriminate|lia|lia|look|look|look]). }
  fin ltac:(sq; sq; sq; sq1 ltac:(eapply t_weak; [|exact L|apply le_refl]; le_tac); go).
Qed.
Lemma t_iparm : forall R q p, 0 <= q < n -> 0 <= p < N -> runok R -> R chain_single_tune = Up N 1 N -> dead R [chain_IterParm; logpost_tune; ptr_one_chain_new_tune] ->
  (root = true -> R ar_ParmNvaried = Up N n (p * n)) ->
  trif 0 0 R (mpi_tune_sigma_iparmNrank n N K nl kd Tn r q p) (if root then upd R ar_ParmNvaried (Up N n ((p + 1) * n)) else R) [].
Proof.
  intros R q p Hq Hp HR H1 H HA. pose proof HR as HR0. openr. opend. unfold mpi_tune_sigma_iparmNrank, when. destruct root eqn:Er.
  - specialize (HA eq_refl).
    fin ltac:(sq; sq1 ltac:(up chain_IterParm Tn N (fun j : Z => j); fin go); sq1 ltac:(apply t_mh_tune; [lia|mkrun|look|mkdead]);
      sq1 ltac:(sq; up ar_ParmNvaried N n (fun i => p * n + i); fin one); go).
  - fin ltac:(sq; sq1 ltac:(up chain_IterParm Tn N (fun j : Z => j); fin go); sq1 ltac:(apply t_mh_tune; [lia|mkrun; congruence|look|mkdead]); go).
Qed.
Lemma t_argvec : forall R v m, 1 <= m -> R v = Up m 1 m -> trif 0 0 R (argvec v m) R [].
Proof. intros R v m Hm H. unfold argvec. fin ltac:(sq; same; fin ltac:(sq; apply t_or; one)). Qed.
Lemma t_decide : forall R, R ar_ParmNvaried = Up N n (N * n) -> R std_Parm = Dead -> trif 0 0 R (decide_sigma_to_change n N) R [].
Proof.
  intros R H1 H2. unfold decide_sigma_to_change, calc_SD_allParm, calc_closest_ar_oneparm, calc_closest_ar.
  fin ltac:(sq; sq1 ltac:(up std_Parm N 1 (fun i : Z => i); fin ltac:(sq1 rv; sq1 rv; one)); sq1 ltac:(apply t_argvec; [lia|look]);
    sq1 ltac:(apply t_pick; let p := fresh "p" in let Hp := fresh "Hp" in intros p Hp; unfold below in Hp; fin ltac:(sq; rv)); sq1 ltac:(sq; same; rv); go).
Qed.
Lemma t_race : forall R, R ar_ParmNvaried = Up N n (N * n) -> R sigma_alltune_ParmNvaried = Up N n (N * n) -> R sigma_gaussian_prop_rankintune = Up N 1 0 ->
  R oneparm_arerr_Nvaried = Dead -> trif 0 0 R (race_all_parm n N) (upd R sigma_gaussian_prop_rankintune (Up N 1 N)) [].
Proof.
  intros R H1 H2 H3 H4. unfold race_all_parm.
  fin ltac:(sq; sq1 ltac:(up sigma_gaussian_prop_rankintune N 1 (fun i : Z => i);
    fin ltac:(sq1 ltac:(up oneparm_arerr_Nvaried n 1 (fun j : Z => j); fin go); sq1 ltac:(apply t_argvec; [lia|look]);
      apply t_pick; let k := fresh "k" in let Hk := fresh "Hk" in intros k Hk; unfold below in Hk; go)); go).
Qed.
Lemma t_modify : forall R q, 0 <= q < n -> R sigma_RanksParm_root = Up n N (n * N) -> R ar_ParmNvaried = Up N n (N * n) -> R sigma_alltune_ParmNvaried = Up N n (N * n) ->
  dead R [sigma_gaussian_prop_rankintune; oneparm_arerr_Nvaried] -> trif 0 0 R (modify_sigma_prop_rankintune n N K q) R [].
Proof.
  intros R q Hq H1 H2 H3 H. opend. unfold modify_sigma_prop_rankintune, init_gaussian_proposal. apply t_or.
  - apply t_pick. unfold below. intros p Hp. apply t_pick. intros k Hk. fin ltac:(sq; old).
  - fin ltac:(sq; sq1 ltac:(apply (t_or 0 0 _ _ _ (upd (upd R sigma_gaussian_prop_rankintune (Up N 1 0)) sigma_gaussian_prop_rankintune (Up N 1 N)));
      [rewrite HK; vn|apply t_race; look]); sq1 ltac:(same; fin ltac:(sq; old)); go).
Qed.
Definition tunedead : list pv := [chain_single_tune; ar_ParmNvaried; sigma_alltune_ParmNvaried; sigma_tune1parm_NvariedParm; chain_IterParm;
  logpost_tune; ptr_one_chain_new_tune; scaled_arr; sigma_gaussian_prop_rankintune; oneparm_arerr_Nvaried; std_Parm].
Lemma t_tune : forall R q, 0 <= q < n -> runok R -> dead R tunedead -> trif 0 0 R (mpi_tune_sigma_irank n N K nl kd Tn r q) R [].
Proof.
  intros R q Hq HR H. pose proof HR as HR0. openr. unfold tunedead in H. opend. unfold mpi_tune_sigma_irank, ife, when. destruct root eqn:Er; cbn [negb].
  - specialize (Htr eq_refl). specialize (Hlp eq_refl). specialize (Hsr eq_refl).
    fin ltac:(sq; sq; sq; sq; sq1 ltac:(apply t_alltune; [lia|look|look|look|look|look]);
      sq1 ltac:(sq; up chain_single_tune N 1 (fun j : Z => j); fin go); sq1 rv;
      sq1 ltac:(up ar_ParmNvaried N n (fun p => p * n); 
        fin ltac:(sq; sq; sq1 ltac:(sq1 ltac:(eapply t_replicate; [exact Hq|look|look]); apply t_oneparm; [lia|look|look]);
          sq1 ltac:(apply t_distribute; [discriminate|look|intros _; look]);
          sq1 ltac:(eapply t_post; [apply (t_iparm _ q z); [lia|lia|mkrun|look|mkdead|intros _; look]|reflexivity|rewrite Er; apply le_refl]); go));
      sq; sq; sq1 ltac:(sq1 ltac:(apply t_decide; look); apply t_modify; [lia|look|look|look|mkdead]); go).
  - fin ltac:(sq; sq; sq; sq1 go; sq; sq; sq1 vn;
      sq1 ltac:(same; fin ltac:(sq; sq1 go; sq; sq1 ltac:(apply t_distribute; [discriminate|look|congruence]);
          sq1 ltac:(eapply t_post; [apply (t_iparm _ q z); [lia|lia|mkrun; congruence|look|mkdead|congruence]|reflexivity|rewrite Er; apply le_refl]); go)); go).
Qed.
Lemma t_flow : forall R, runok R -> dead R flowdead -> dead R tunedead -> R tune_ranks = Dead -> trif 0 0 R (mpi_entire_flow n N K nl kd Tn LM Nswap tl r) R [].
Proof.
  intros R HR H1 H2 H3. unfold mpi_entire_flow.
  set (Q := upd R tune_ranks (Up n 1 0)).
  assert (HQ : runok Q) by (pose proof HR as HR0; openr; unfold Q; mkrun).
  assert (D1 : dead Q flowdead). { unfold Q, flowdead in *. opend. mkdead. }
  assert (T2 : forall k, dead (upd R tune_ranks (Up n 1 k)) tunedead). { intros k. unfold tunedead in *. opend. mkdead. }
  assert (T1 : forall k, runok (upd R tune_ranks (Up n 1 k))). { intros k. pose proof HR as HR0; openr; mkrun. }
  assert (M : trif 0 0 Q (Many (mpi_distribute_sigma_prop_root n N r sigma_RanksParm_root;; save_sigma_gauss_prop N;; mpi_static_sigma_stack n N K nl kd LM Nswap tl r;;
        Or Nop (mpi_find_ranks2tune n r;; For 0 n (fun i => rd tune_ranks i;; Or Nop (mpi_tune_sigma_irank n N K nl kd Tn r i))))) Q []).
  { apply t_many; [lia|]. pose proof HQ as HQ0. openr.
    fin ltac:(sq1 ltac:(apply t_distribute; [discriminate|look|assumption]); sq1 ltac:(apply t_save_sigma; look); sq1 ltac:(apply t_stack; assumption);
      apply t_or; [one|]; unfold Q; eapply t_post; 
      [sq1 ltac:(unfold mpi_find_ranks2tune, ife; 
          apply (fun a b => match root as b0 return trif 0 0 (upd R tune_ranks (Up n 1 0)) (if b0 then _ else _) (upd R tune_ranks (Up n 1 n)) [] with true => a | false => b end);
          [fin ltac:(sq; sq1 ltac:(up tune_ranks n 1 (fun i : Z => i); fin one); rv)|fin vn]);
        same; fin ltac:(sq; apply t_or; [one|apply t_tune; [lia|apply T1|apply T2]])|reflexivity|le_tac]). }
  fin ltac:(sq; sq1 ltac:(exact M); unfold Q; go).
Qed.

(** *** the whole run of a rank *)
Definition R0 : spec := fun _ => Dead.
Definition end_spec : spec := upd (sigs (ini_spec R0 Nb blank)) logpost_all_ranks (if root then Up n 1 n else Dead).
Definition end_lost : list (pv * Z) := PLS ++ ini_lost blank.
(** before the start values are made *)
Definition mid_spec : spec := upd (upd (ini_spec R0 Nb blank) data_NlineNdim (Up nl nd (nl * nd))) transit_BetaParm_root (Up n N 0).
Lemma t_before : forall c Q l, trif 0 0 mid_spec c Q l ->
  trif 0 0 R0 (read_input_ini LL Nb blank;; mpi_get_nlines r;; Do (Malloc data_NlineNdim nl nd);; mpi_data_loader LL nl nd r;; Do (Malloc transit_BetaParm_root n N);; c)
    Q (l ++ ini_lost blank).
Proof.
  intros c Q l H. eapply t_post; [sq1 ltac:(apply t_ini; [lia|mkdead]); unfold ini_spec, blankq; sq1 ltac:(apply t_nlines); sq; sq1 ltac:(apply t_loader; look); sq; 
    eapply t_weak; [|exact H|apply le_refl]; unfold mid_spec, ini_spec, blankq; le_tac|rewrite !app_nil_r; reflexivity|apply le_refl].
Qed.
Lemma t_main : trif 0 0 R0 (main_heap LL n N K nl nd kd Nb Tn LM Nswap tl blank r) end_spec end_lost.
Proof.
  unfold main_heap, end_lost. apply t_before. unfold mid_spec, ini_spec, end_spec, init_gaussian_proposal, sigs, when, ini_spec. fold (blankq blank).
  pose proof t_gen_init as G. pose proof t_init_calc as C. pose proof t_gather as A. pose proof t_flow as F. unfold runok, sigs in *. destruct root; cbn [negb].
  - eapply t_post; [sq1 ltac:(apply G; [mkdead|look]); sq; sq1 ltac:(apply C; [unfold dataok; look|look|look|mkdead|intros _; look]); sq; sq; sq; rewrite HK; sq1 vn;
      sq1 ltac:(apply t_save_sigma; look); sq1 ltac:(apply A; [look|intros _; look]); sq; sq1 ltac:(up running_Beta_Values n 1 (fun i : Z => i); fin go);
      sq1 ltac:(rewrite HK in F; apply F; [repeat split; try (intros _); look|unfold flowdead; mkdead|unfold tunedead; mkdead|look]); sq1 go; go
      |cbn; rewrite ?app_nil_r; reflexivity|le_tac].
  - eapply t_post; [sq1 ltac:(apply G; [mkdead|look]); sq; sq1 ltac:(apply C; [unfold dataok; look|look|look|mkdead|congruence]); sq; sq1 go; sq; rewrite HK; sq1 vn;
      sq1 ltac:(apply t_save_sigma; look); sq1 ltac:(apply A; [look|congruence]); sq; sq1 ltac:(up running_Beta_Values n 1 (fun i : Z => i); fin go);
      sq1 ltac:(rewrite HK in F; apply F; [repeat split; try congruence; look|unfold flowdead; mkdead|unfold tunedead; mkdead|look]); sq1 go; go
      |cbn; rewrite ?app_nil_r; reflexivity|le_tac].
Qed.
End Rank.
