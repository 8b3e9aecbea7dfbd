(** Configurations outside the limits: runs that cannot complete. *)
From Coq Require Import ZArith Arith List Bool Lia FunctionalExtensionality.
From Verif Require Import Base Arith B64 Rand Mh Ladder Tune Mpi MpiMeta Spmd Prog Seq ListAux MhSpec SeqWf Refine
  SeqTotal System Runs SeedRuns Views RunHist Failing.
Import ListNotations.
Open Scope Z_scope.

(** the same configuration with another n_iter_a_stack *)
Definition set_stack {A} (C : Cfg A) (k : Z) : Cfg A :=
  mkCfgP A (N_parm C) (N_iter C) k (n_iter_a_batch_base C) (n_iter_a_batch_rand C) (N_swap C) (Swapmode C)
    (N_begintune C) (N_stoptune C) (n_iter_in_tune C) (Tune_Ladder C) (N_stopTuneLadder C) (i_save_begin C)
    (init_rand_seed C) (ar_ok_lower C) (ar_ok_upper C) (ar_best C) (ar_accept_diff C) (sigma_scale_half_ratio C)
    (sigma_jumpin_ratio C) (scale_tune_ladder C) (zero_stretch C) (Beta_Values C).
(** another N_iter *)
Definition set_iter {A} (C : Cfg A) (k : Z) : Cfg A :=
  mkCfgP A (N_parm C) k (n_iter_a_stack C) (n_iter_a_batch_base C) (n_iter_a_batch_rand C) (N_swap C) (Swapmode C)
    (N_begintune C) (N_stoptune C) (n_iter_in_tune C) (Tune_Ladder C) (N_stopTuneLadder C) (i_save_begin C)
    (init_rand_seed C) (ar_ok_lower C) (ar_ok_upper C) (ar_best C) (ar_accept_diff C) (sigma_scale_half_ratio C)
    (sigma_jumpin_ratio C) (scale_tune_ladder C) (zero_stretch C) (Beta_Values C).
(** other n_iter_a_batch_base and n_iter_a_batch_rand *)
Definition set_batch {A} (C : Cfg A) (b r : Z) : Cfg A :=
  mkCfgP A (N_parm C) (N_iter C) (n_iter_a_stack C) b r (N_swap C) (Swapmode C)
    (N_begintune C) (N_stoptune C) (n_iter_in_tune C) (Tune_Ladder C) (N_stopTuneLadder C) (i_save_begin C)
    (init_rand_seed C) (ar_ok_lower C) (ar_ok_upper C) (ar_best C) (ar_accept_diff C) (sigma_scale_half_ratio C)
    (sigma_jumpin_ratio C) (scale_tune_ladder C) (zero_stretch C) (Beta_Values C).
(** a user model whose init_parm_set leaves the generator in state g *)
Definition set_gen {A} (U : User A) (g : Z) : User A :=
  mkUser A (u_logll U) (u_logprior U) (u_bound U) (fun s => (fst (u_init U s), g)) (u_gp U) (u_sigmin U) (u_sigmax U).

(** only N_parm matters for these *)
Lemma userok_np : forall A (C C' : Cfg A) U, N_parm C' = N_parm C -> UserOK C U -> UserOK C' U.
Proof. intros A C C' U H [H1 H2 H3]. constructor; rewrite H; auto. Qed.
Lemma wf_np : forall A (C C' : Cfg A) n G, N_parm C' = N_parm C -> wf C n G -> wf C' n G.
Proof. intros A C C' n G H W. destruct W. constructor; rewrite ?H; auto. Qed.

Section Flow.
Context {A : Arith}.
Variable C : Cfg A.
Variable U : User A.
Variable n : nat.
Variable E : Env (A := A).
Variable F : Type.
Hypothesis UO : UserOK C U.
Hypothesis Hn : (2 <= n)%nat.
Notation wf := (wf C n).
Notation evf := (evf (F := F) n).
Notation ev := (ev (F := F) n).

Lemma seq_distribute_ok : forall G, wf G -> wf (seq_distribute G (sigt (g_ro G))).
Proof. intros G W. apply seq_distribute_wf; auto; [apply (wf_sigt _ _ _ W)|apply (wf_sigrow _ _ _ W)]. Qed.

Lemma ev_distribute_st : forall G, wf G ->
  ev (fun r => mpi_distribute_sigma C n r (sigt (ro (st_of G r)))) (fun r => nth r (sigt (g_ro G)) []) (fun _ => []).
Proof.
  intros G W. eapply ev_ext; [| reflexivity | reflexivity | apply (ev_distribute C n F Hn (sigt (g_ro G)))].
  - intros r Hr. destruct r; reflexivity.
  - apply (wf_sigt _ _ _ W).
  - apply (wf_sigrow _ _ _ W).
Qed.

(** a failure inside the stack *)
Lemma evf_flow_stack : forall D fuel G len it nx0 e, wf G -> it < N_iter C -> i32 (it + len) = OK nx0 ->
  evf (fun r => mpi_static_sigma_stack C U n D r (st_of (seq_distribute G (sigt (g_ro G))) r)
         (if N_iter C <? nx0 then N_iter C - it else len)) e ->
  evf (fun r => flow_loop C U n D r (S fuel) (st_of G r) len it it) e.
Proof.
  intros D fuel G len it nx0 e W Hit Enx H.
  eapply evf_ext; [intros r Hr; cbn [flow_loop]; rewrite (proj2 (Z.ltb_lt it (N_iter C)) Hit), Enx; reflexivity|].
  cbn [plift pbind].
  eapply evf_bind; [apply ev_distribute_st; auto|]. cbv beta.
  eapply evf_ext; [intros r Hr; rewrite <- (st_of_distribute C n Hn) by (auto; apply (wf_sigt _ _ _ W)); reflexivity|].
  apply evf_barrier; [lia|].
  apply (evf_pouts n (fun r => [EvSigma r (l_sig (lo (st_of (seq_distribute G (sigt (g_ro G))) r)))])).
  apply evf_head. exact H.
Qed.

(** a failure after a completed stack *)
Lemma evf_flow_step : forall D fuel G len it nx0 len' nx G2 lg1 G3 e, wf G -> it < N_iter C ->
  i32 (it + len) = OK nx0 ->
  len' = (if N_iter C <? nx0 then N_iter C - it else len) ->
  nx = (if N_iter C <? nx0 then N_iter C else nx0) ->
  seq_stack C U n D (seq_distribute G (sigt (g_ro G))) len' = OK (G2, lg1) ->
  (if (N_begintune C <? nx) && (nx <? N_stoptune C) && (nx <? N_iter C) then
          seq_tune_all C U n D (map2 (fun l l' => tune_flag C (stack_rate l l' len')) (g_locs (seq_distribute G (sigt (g_ro G)))) (g_locs G2)) G2
        else OK G2) = OK G3 ->
  evf (fun r => flow_loop C U n D r fuel (st_of G3 r) len' nx nx) e ->
  evf (fun r => flow_loop C U n D r (S fuel) (st_of G r) len it it) e.
Proof.
  intros D fuel G len it nx0 len' nx G2 lg1 G3 e W Hit Enx Hlen' Hnx E2 E3 H.
  pose proof (seq_distribute_ok G W) as W1. set (G1 := seq_distribute G (sigt (g_ro G))) in *.
  pose proof (seq_stack_wf C U n UO Hn _ _ _ _ _ W1 E2) as W2.
  pose proof (wf_locs _ _ _ W1) as Ll1. pose proof (wf_locs _ _ _ W2) as Ll2.
  eapply evf_ext; [intros r Hr; cbn [flow_loop]; rewrite (proj2 (Z.ltb_lt it (N_iter C)) Hit), Enx; reflexivity|].
  cbn [plift pbind]. rewrite <- Hlen', <- Hnx.
  eapply evf_bind; [apply ev_distribute_st; auto|]. cbv beta.
  eapply evf_ext; [intros r Hr; rewrite <- (st_of_distribute C n Hn) by (auto; apply (wf_sigt _ _ _ W)); reflexivity|]. fold G1.
  apply evf_barrier; [lia|].
  apply (evf_pouts n (fun r => [EvSigma r (l_sig (lo (st_of G1 r)))])).
  eapply (evf_bind n _ _ (st_of G2)); [apply ev_stack; eauto|].
  apply evf_barrier; [lia|].
  eapply (evf_bind n _ _ (st_of G3) (fun _ => [])); [|exact H].
  destruct ((N_begintune C <? nx) && (nx <? N_stoptune C) && (nx <? N_iter C)).
  - eapply (ev_bind0 n _ _ (fun _ => map (fun r => tune_flag C (ndiv (nof (u32 (l_acc (lo (st_of G2 r)) - l_acc (lo (st_of G1 r))))) (nof len'))) (ranks n)));
      [apply ev_find; auto|].
    apply ev_barrier; [lia|]. apply ev_tune_all; auto.
    rewrite <- E3. f_equal. rewrite (map2_seq _ _ _ dloc dloc n) by auto. reflexivity.
  - injection E3 as <-. apply ev_ret.
Qed.

(** a failure in the first part of a stack *)
Lemma evf_main : forall ndim nl arr G0 lg1 e, 0 <= init_rand_seed C < UINT_MOD -> DataOK E ndim ->
  e_nlines E = OK nl -> INT_MIN <= nl * ndim <= INT_MAX -> e_data E nl = OK arr ->
  seq_init C U n E (mkData nl arr) = OK (G0, lg1) ->
  evf (fun r => flow_loop C U n (mkData nl arr) r (Z.to_nat (N_iter C)) (st_of G0 r) (n_iter_a_stack C) 0 0) e ->
  evf (fun r => main C U n E ndim r) e.
Proof.
  intros ndim nl arr G0 lg1 e Hseed HD Enl Hsz Earr E0 H.
  set (D := mkData nl arr) in *.
  unfold seq_init in E0.
  apply rbind_ok in E0. destruct E0 as [lp [Elp E0]].
  apply rbind_ok in E0. destruct E0 as [betas [Ebe E0]]. injection E0 as HG0 Hlg1.
  rewrite map_map in Elp. rewrite !map_map in HG0. 
  change (map (fun x => fst (u_init U (seed_of C n E x))) (ranks n)) with (tr0 C U n E) in *.
  assert (Ltr : length (tr0 C U n E) = n) by (unfold tr0, ranks; rewrite map_length, seq_length; auto).
  assert (Htr : forall x, In x (tr0 C U n E) -> haslen (N_parm C) x).
  { intros x Hx. unfold tr0 in Hx. apply in_map_iff in Hx. destruct Hx as [r [<- _]]. apply UO. }
  unfold main.
  eapply (evf_bind n _ _ (fun _ => tt) (at0 [EvDir] [])).
  { eapply ev_ext; [| reflexivity | | apply (ev_pouts n (at0 [EvDir] []) (fun _ => Ret tt) (fun _ => tt) (fun _ => []))].
    - intros r Hr. destruct r; reflexivity.
    - intros r Hr. cbv beta. apply app_nil_r.
    - apply ev_ret. }
  eapply (evf_bind n _ _ (fun _ => nl) (fun _ => [])).
  { unfold mpi_get_nlines. eapply (ev_bind0 n _ _ (at0 nl 0)).
    - eapply ev_ext; [| reflexivity | reflexivity | apply ev_ret].
      intros r Hr. unfold at0. destruct (is_root r); auto. rewrite Enl. reflexivity.
    - apply (ev_bcast n (fun r => MI [at0 nl 0 r])); [lia|]. apply ev_ret. }
  rewrite i32_ok by auto. cbn [plift pbind].
  eapply (evf_bind n _ _ (fun _ => arr) (fun _ => [])).
  { unfold mpi_data_loader. eapply (ev_bind0 n _ _ (at0 arr [])).
    - eapply ev_ext; [| reflexivity | reflexivity | apply ev_ret].
      intros r Hr. unfold at0. destruct (is_root r); auto. rewrite Earr. reflexivity.
    - apply (ev_bcast n (fun r => MD (at0 arr [] r))); [lia|].
      unfold at0. cbn [is_root root Nat.eqb]. rewrite as_dbls_ok by (apply (HD _ _ Earr)).
      cbn [plift]. apply ev_ret. }
  fold D. eapply (evf_bind n _ _ _ _ _ (ev_gen_init C U n E F UO Hn Hseed)).
  cbv beta iota.
  eapply (evf_bind n _ _ _ _ _ (ev_init_logpost C U n F Hn D (tr0 C U n E) lp Ltr Htr Elp)).
  apply evf_barrier; [lia|]. cbv zeta.
  apply (evf_pouts n (fun r => [EvSigma r (u_gp U)])).
  eapply (evf_bind n _ _ _ _ _ (ev_gather_sigma C n F Hn (fun _ => u_gp U) (fun _ => uo_gp _ _ UO))).
  rewrite Ebe. cbn [plift pbind].
  apply evf_head.
  eapply evf_ext; [|exact H].
  intros r Hr. unfold mpi_entire_flow. f_equal. rewrite <- HG0.
  unfold st_of. cbn [g_locs g_ro]. f_equal.
  - unfold ranks. rewrite (map_nth2 _ _ _ 0%nat) by (rewrite seq_length; auto).
    rewrite nth_seq0 by auto. reflexivity.
  - destruct r; reflexivity.
Qed.
Lemma evf_send_each : forall {Y} (ms : nat -> list (nat * msg A)) (body : nat -> unit -> proc (msg A) (event A) unit)
    (kr : proc (msg A) (event A) Y) (fs ks : nat -> proc (msg A) (event A) Y) e,
  (forall i, (0 < i < n)%nat -> body i tt = send_list (tagged i (ms i)) (Ret tt)) ->
  (forall r, (0 < r < n)%nat -> feeds (fs r) (ms r) (ks r)) ->
  evf (fun r => if is_root r then kr else ks r) e ->
  evf (fun r => if is_root r then (_ <- pfor (slaves n) body tt;; kr) else fs r) e.
Proof.
  intros Y ms body kr fs ks e Hb Hf H.
  apply (evf_scatter n ms (slaves n) _ (fun r => if is_root r then kr else ks r)).
  - apply slaves_nodup.
  - apply slaves_in.
  - cbn [is_root root Nat.eqb]. rewrite (pfor_sends ms).
    + rewrite pbind_send_list. cbn [pbind]. reflexivity.
    + intros i Hi. apply slaves_in in Hi. apply Hb; auto.
  - intros r Hr. rewrite (root_slave n Hn r Hr). apply Hf; auto.
  - exact H.
Qed.

(** a batch of no or a negative number of iterations writes outside its chain array *)
Lemma evf_batch_bad : forall D G nb, wf G -> nb <= 0 ->
  evf (fun r => mpi_run_a_batch C U n D r (st_of G r) nb) OutOfBounds.
Proof.
  intros D G nb W Hnb.
  assert (HB : forall x sig beta g it acc sb lp, iter_batch_mh U D (N_parm C) x sig nb beta g it acc sb lp = Stop OutOfBounds).
  { intros. unfold iter_batch_mh, chain_start, fresh. replace (Z.to_nat nb) with 0%nat by lia. reflexivity. }
  pose proof (wf_tr _ _ _ W) as Ltr. pose proof (wf_lps _ _ _ W) as Llp. pose proof (wf_locs _ _ _ W) as Llo.
  assert (Lb : forall r, (r < n)%nat -> length (l_beta (nth r (g_locs G) dloc)) = n).
  { intros. apply (wf_beta _ _ _ W). apply nth_In; lia. }
  eapply evf_ext; [|
    apply (evf_send_each (fun i => [(102%nat, MD (nth i (transit (g_ro G)) []));
                                   (103%nat, MD [nth i (lps (g_ro G)) (nof 0)])])
      (fun i _ => x <- plift (zget (transit (g_ro G)) (zr i));;
         Send i 102 (MD x) (l <- plift (zget (lps (g_ro G)) (zr i));; Send i 103 (MD [l]) (Ret tt)))
      (Fail OutOfBounds)
      (fun r => Recv root 102 (fun m1 =>
        x0 <- plift (as_dbls (N_parm C) m1);;
        Recv root 103 (fun m2 =>
        lp <- plift (as_dbl m2);;
        beta <- plift (zget (l_beta (lo (st_of G r))) (zr r));;
        b <- plift (iter_batch_mh U D (N_parm C) x0 (l_sig (lo (st_of G r))) nb beta (l_g (lo (st_of G r)))
                     (l_it (lo (st_of G r))) (l_acc (lo (st_of G r))) (i_save_begin C) lp);;
        pouts (map (EvRow r) (b_saved b))
          (Send root 200 (MD (b_last b))
            (Send root 201 (MD [b_lp b])
              (Ret (after_batch (st_of G r) b)))))))
      (fun _ => Fail OutOfBounds))].
  - intros r Hr. unfold mpi_run_a_batch. destruct r as [|r]; cbn [is_root root Nat.eqb]; auto.
    f_equal. apply functional_extensionality; intros _.
    cbn [st_of lo ro at0 is_root root Nat.eqb].
    change (zr 0) with (zr 0%nat). change (zr root) with (zr 0).
    rewrite (zget_nat _ 0 []) by lia. rewrite (zget_nat _ 0 (nof 0)) by lia. cbn [plift pbind].
    rewrite (zget_nat _ 0 (nof 0)) by (rewrite Lb; lia). cbn [plift pbind].
    rewrite HB. reflexivity.
  - intros i Hi. rewrite (zget_nat _ i []) by lia. rewrite (zget_nat _ i (nof 0)) by lia. reflexivity.
  - intros r Hr. constructor. rewrite as_dbls_ok by (apply (wf_trrow _ _ _ W), nth_In; lia).
    cbn [plift pbind]. constructor. cbn [as_dbl plift pbind]. rewrite !st_lo.
    rewrite (zget_nat _ r (nof 0)) by (rewrite Lb; lia). cbn [plift pbind].
    rewrite HB. cbn [plift pbind]. constructor.
  - apply (evf_fail n _ _ 0%nat); [lia|]. reflexivity.
Qed.

(** a failure in the first batch of a stack *)
Lemma evf_stack_first : forall D G len nx nb g e, wf G -> 0 < len ->
  next_batch C len 0 (l_g (nth 0 (g_locs G) dloc)) = OK (nx, nb, g) ->
  (forall G1, wf G1 -> evf (fun r => mpi_run_a_batch C U n D r (st_of G1 r) nb) e) ->
  evf (fun r => mpi_static_sigma_stack C U n D r (st_of G r) len) e.
Proof.
  intros D G len nx nb g e W Hlen Enb HB. pose proof (wf_locs _ _ _ W) as Llo.
  eapply evf_ext; [intros r Hr; unfold mpi_static_sigma_stack; reflexivity|].
  eapply (evf_bind n _ _ (fun _ => tt) (fun r => at0 [EvBeta (l_beta (lo (st_of G r)))] [] r)).
  { eapply ev_ext; [| reflexivity | | apply (ev_pouts n (fun r => at0 [EvBeta (l_beta (lo (st_of G r)))] [] r) (fun _ => Ret tt) (fun _ => tt) (fun _ => []))].
    - intros r Hr. destruct r; reflexivity.
    - intros r Hr. cbv beta. apply app_nil_r.
    - apply ev_ret. }
  apply evf_head.
  destruct (with_g0 G g) as [G1|] eqn:EG1; [|rewrite (with_g0_ok C n Hn) in EG1 by auto; discriminate].
  pose proof (with_g0_wf C n Hn _ _ _ W EG1) as W1.
  assert (HG1 : forall r, (r < n)%nat -> st_of G1 r = at0 (set_g (st_of G 0) g) (st_of G r) r).
  { rewrite (with_g0_ok C n Hn) in EG1 by auto. inversion EG1; subst G1.
    intros [|r] Hr; unfold at0, st_of; cbn [is_root root Nat.eqb g_locs g_ro].
    - rewrite nth_lset_eq by lia. reflexivity.
    - rewrite nth_lset_ne by lia. reflexivity. }
  destruct (Z.to_nat len) as [|fuel] eqn:Ef; [lia|].
  eapply evf_ext; [intros r Hr; cbn [stack_loop]; rewrite (proj2 (Z.ltb_lt 0 len) Hlen); reflexivity|].
  eapply (evf_bind n _ _ (fun r => (st_of G1 r, nx, nb)) (fun _ => [])).
  + eapply ev_ext; [| reflexivity | reflexivity |
        apply (ev_send_each n F Hn (fun r => [(100%nat, MI [nx]); (101%nat, MI [nb])])
          (fun i _ => Send i 100 (MI [nx]) (Send i 101 (MI [nb]) (Ret tt)))
          (Ret (set_g (st_of G 0) g, nx, nb))
          (fun r => Recv root 100 (fun m1 => nx <- plift (as_int m1);;
             Recv root 101 (fun m2 => nb <- plift (as_int m2);; Ret (st_of G r, nx, nb))))
          (fun r => Ret (st_of G r, nx, nb)) (fun r => (st_of G1 r, nx, nb)) (fun _ => []))].
      * intros r Hr. destruct r as [|r]; cbn [is_root root Nat.eqb]; auto.
        unfold next_batch in Enb. apply rbind_ok in Enb. destruct Enb as [lr [E1 Enb]].
        apply rbind_ok in Enb. destruct Enb as [[adj g'] [E2 Enb]].
        apply rbind_ok in Enb. destruct Enb as [nb0 [E3 Enb]].
        apply rbind_ok in Enb. destruct Enb as [nx0 [E4 Enb]]. inversion Enb; subst; clear Enb.
        rewrite E1. cbn [plift pbind]. cbn [st_of lo]. rewrite E2. cbn [plift pbind].
        rewrite E3. cbn [plift pbind]. rewrite E4. cbn [plift pbind]. reflexivity.
      * intros i0 Hi. reflexivity.
      * intros r Hr. repeat (constructor; cbn [as_int plift pbind]).
      * eapply ev_ext; [| reflexivity | reflexivity | apply ev_ret].
        intros r Hr. cbv beta. rewrite HG1 by auto. destruct r; reflexivity.
  + cbv beta iota. apply evf_barrier; [lia|]. apply evf_head. apply HB. auto.
Qed.

(** root cannot even compute the length of the first batch *)
Lemma evf_stack_len : forall D G len e, wf G -> 0 < len ->
  next_batch C len 0 (l_g (nth 0 (g_locs G) dloc)) = Stop e ->
  evf (fun r => mpi_static_sigma_stack C U n D r (st_of G r) len) e.
Proof.
  intros D G len e W Hlen Enb. pose proof (wf_locs _ _ _ W) as Llo.
  eapply evf_ext; [intros r Hr; unfold mpi_static_sigma_stack; reflexivity|].
  eapply (evf_bind n _ _ (fun _ => tt) (fun r => at0 [EvBeta (l_beta (lo (st_of G r)))] [] r)).
  { eapply ev_ext; [| reflexivity | | apply (ev_pouts n (fun r => at0 [EvBeta (l_beta (lo (st_of G r)))] [] r) (fun _ => Ret tt) (fun _ => tt) (fun _ => []))].
    - intros r Hr. destruct r; reflexivity.
    - intros r Hr. cbv beta. apply app_nil_r.
    - apply ev_ret. }
  apply evf_head.
  destruct (Z.to_nat len) as [|fuel] eqn:Ef; [lia|].
  eapply evf_ext; [intros r Hr; cbn [stack_loop]; rewrite (proj2 (Z.ltb_lt 0 len) Hlen); reflexivity|].
  apply evf_head. apply (evf_fail n _ _ 0%nat); [lia|]. cbn [is_root root Nat.eqb].
  unfold next_batch in Enb. cbn [st_of lo].
  destruct (i32 (- n_iter_a_batch_rand C)) as [lr|]; cbn [rbind plift pbind] in *; [|congruence].
  destruct (i4_unif_ab (A := A) lr (n_iter_a_batch_rand C) (l_g (nth 0 (g_locs G) dloc))) as [[adj g']|];
    cbn [rbind plift pbind] in *; [|congruence].
  destruct (i32 (n_iter_a_batch_base C + adj)) as [nb0|]; cbn [rbind plift pbind] in *; [|congruence].
  destruct (i32 (0 + nb0)) as [nx0|]; cbn [rbind plift pbind] in *; congruence.
Qed.
End Flow.

(** [fails S e]: some execution runs into stop e, and no execution at all completes *)
Definition fails {A} (S : Setup A) (e : stop) : Prop :=
  (exists k tr X r, execution S k tr X /\ (r < s_n S)%nat /\ pr X r = Fail e) /\
  (forall k tr X, execution S k tr X -> ~ complete S X).

Lemma evf_fails : forall A (S : Setup A) e, (0 < s_n S)%nat ->
  evf (F := st (A := A)) (s_n S) (fun r => main (s_cfg S) (s_user S) (s_n S) (s_env S) (s_ndim S) r) e -> fails S e.
Proof.
  intros A S e Hn H. destruct (H (fun _ => Ret) (fun _ => [])) as [P' [L' [r [HS [Hr HF]]]]].
  rewrite (SYS_ext (s_n S) _ (fun r => main (s_cfg S) (s_user S) (s_n S) (s_env S) (s_ndim S) r)) in HS
    by (intros; apply pbind_ret).
  destruct (sstar_run _ _ _ HS) as [l R].
  change (inj (SYS (s_n S) (fun r => main (s_cfg S) (s_user S) (s_n S) (s_env S) (s_ndim S) r) (fun _ => []))) with (initial S) in R.
  assert (HF' : pr (inj (SYS (s_n S) P' L')) r = Fail e).
  { simpl. rewrite (proj2 (Nat.ltb_lt r _) Hr). exact HF. }
  split.
  - destruct (mstar_mrun _ _ _ _ (brun_mstar _ _ _ _ R)) as [tr HR].
    exists (length l), tr, (inj (SYS (s_n S) P' L')), r. auto.
  - intros k tr X HE. eapply (fail_no_complete (s_n S) (initial S) l); eauto. eapply mrun_mstar. exact HE.
Qed.

Definition with_cfg {A} (S : Setup A) (C : Cfg A) : Setup A := mkSetup C (s_user S) (s_n S) (s_env S) (s_ndim S).
Definition with_user {A} (S : Setup A) (U : User A) : Setup A := mkSetup (s_cfg S) U (s_n S) (s_env S) (s_ndim S).

Section Cases.
Context {A : Arith}.
Variable S : Setup A.
Hypothesis HL : Legal S.
Notation C := (s_cfg S).
Notation U := (s_user S).
Notation n := (s_n S).
Notation E := (s_env S).

Lemma seq_stack_nonpos : forall D G len, len <= 0 -> seq_stack C U n D G len = seq_stack C U n D G 0.
Proof.
  intros D G len H. unfold seq_stack. replace (Z.to_nat len) with 0%nat by lia.
  cbn [Z.to_nat seq_stack_loop]. replace (0 <? len) with false by (symmetry; apply Z.ltb_ge; lia). reflexivity.
Qed.

Lemma tune_branch_total : forall D (b : bool) G1 G2 len, wf C n G1 -> wf C n G2 ->
  exists G3, (if b then seq_tune_all C U n D (map2 (fun l l' => tune_flag C (stack_rate l l' len)) (g_locs G1) (g_locs G2)) G2 else OK G2) = OK G3 /\ wf C n G3.
Proof.
  intros D b G1 G2 len W1 W2. pose proof HL as [RK [VC [VU VE]]]. destruct b; [|eauto].
  apply (seq_tune_all_total C U n VC VU); auto.
  pose proof (wf_locs _ _ _ W1). pose proof (wf_locs _ _ _ W2).
  assert (K : forall (f : loc (A := A) -> loc (A := A) -> Z) a b, length a = n -> length b = n -> length (map2 f a b) = n).
  { intros f a b Ha Hb. rewrite (map2_seq f a b dloc dloc n) by auto. rewrite map_length, seq_length. auto. }
  apply K; auto.
Qed.

(** n_iter_a_stack <= 0: the outer loop makes no progress *)
Lemma flow_nonpos : forall k D F, k <= 0 -> 0 < N_iter C -> forall fuel G it, wf C n G -> it <= 0 ->
  exists e, (e = OutOfFuel \/ e = IntOverflow) /\ (k = 0 -> it = 0 -> e = OutOfFuel) /\
    evf (F := F) n (fun r => flow_loop (set_stack C k) U n D r fuel (st_of G r) k it it) e.
Proof.
  intros k D F Hk HN. pose proof HL as [RK [VC [VU VE]]]. pose proof (vc_n _ _ VC) as Hn.
  induction fuel as [|fuel IH]; intros G it W Hit.
  - exists OutOfFuel. split; [auto|]. split; [auto|].
    apply (evf_fail n _ _ 0%nat); [lia|]. cbn [flow_loop set_stack N_iter]. 
    rewrite (proj2 (Z.ltb_lt it (N_iter C))) by lia. reflexivity.
  - destruct (i32 (it + k)) as [nx0|e'] eqn:Ei.
    + assert (nx0 = it + k).
      { unfold i32 in Ei. destruct ((INT_MIN <=? it + k) && (it + k <=? INT_MAX)); congruence. }
      subst nx0.
      pose proof (seq_distribute_ok C n Hn G W) as W1.
      destruct (seq_stack_total C U n RK VC VU D (seq_distribute G (sigt (g_ro G))) 0 W1) as [G2 [lg [E2 W2]]].
      { pose proof (vc_stack _ _ VC). lia. }
      destruct (tune_branch_total D ((N_begintune C <? it + k) && (it + k <? N_stoptune C) && (it + k <? N_iter C))
                  (seq_distribute G (sigt (g_ro G))) G2 k W1 W2) as [G3 [E3 W3]].
      destruct (IH G3 (it + k) W3 ltac:(lia)) as [e [He [He2 HH]]].
      exists e. split; [auto|]. split; [intros; apply He2; lia|].
      assert (HK : (N_iter C <? it + k) = false) by (apply Z.ltb_ge; lia).
      eapply (evf_flow_step (set_stack C k) U n F) with (nx0 := it + k) (len' := k) (nx := it + k) (G2 := G2) (lg1 := lg) (G3 := G3).
      * apply (userok_np _ C); [reflexivity|exact (vu_ok _ _ VU)].
      * exact Hn.
      * apply (wf_np _ C); [reflexivity|exact W].
      * cbn [set_stack N_iter]. lia.
      * exact Ei.
      * cbn [set_stack N_iter]. rewrite HK. auto.
      * cbn [set_stack N_iter]. rewrite HK. auto.
      * rewrite <- (seq_stack_nonpos D _ k Hk) in E2. exact E2.
      * exact E3.
      * exact HH.
    + assert (e' = IntOverflow).
      { unfold i32 in Ei. destruct ((INT_MIN <=? it + k) && (it + k <=? INT_MAX)); congruence. }
      subst e'. exists IntOverflow. split; [auto|]. split.
      { intros -> ->. discriminate Ei. }
      apply (evf_fail n _ _ 0%nat); [lia|]. cbn [flow_loop set_stack N_iter]. 
      rewrite (proj2 (Z.ltb_lt it (N_iter C))) by lia. rewrite Ei. reflexivity.
Qed.

Lemma init_ok : exists nl arr, e_nlines E = OK nl /\ INT_MIN <= nl * s_ndim S <= INT_MAX /\ e_data E nl = OK arr /\
  exists G0 lg, seq_init C U n E (mkData nl arr) = OK (G0, lg) /\ wf C n G0.
Proof.
  pose proof HL as [RK [VC [VU VE]]]. destruct (ve_lines _ _ VE) as [nl [arr [H1 [H2 H3]]]].
  exists nl, arr. repeat (split; auto). apply seq_init_total; auto.
Qed.

Theorem stack_nonpos_fails : forall k, k <= 0 -> 0 < N_iter C ->
  exists e, (e = OutOfFuel \/ e = IntOverflow) /\ (k = 0 -> e = OutOfFuel) /\ fails (with_cfg S (set_stack C k)) e.
Proof.
  intros k Hk HN. pose proof HL as [RK [VC [VU VE]]]. pose proof (vc_n _ _ VC) as Hn.
  destruct init_ok as [nl [arr [Enl [Hsz [Earr [G0 [lg [E0 W0]]]]]]]].
  destruct (flow_nonpos k (mkData nl arr) (st (A := A)) Hk HN (Z.to_nat (N_iter C)) G0 0 W0 ltac:(lia)) as [e [He [He2 HH]]].
  exists e. split; [auto|]. split; [auto|].
  apply evf_fails; [cbn; lia|]. cbn [with_cfg s_cfg s_user s_n s_env s_ndim].
  eapply (evf_main (set_stack C k) U n E _); eauto.
  - apply (userok_np _ C); [reflexivity|exact (vu_ok _ _ VU)].
  - apply (vc_seed _ _ VC).
  - exact (ve_data _ _ VE).
Qed.

(** N_iter too large: the sum [i_tmp + n_iter_a_stack] overflows in some later stack *)
Lemma flow_iter_overflow : forall N D F, N <= INT_MAX -> forall k fuel G it, wf C n G -> 0 <= it ->
  it + Z.of_nat k * n_iter_a_stack C < N -> INT_MAX < it + Z.of_nat (Datatypes.S k) * n_iter_a_stack C ->
  (k < fuel)%nat ->
  evf (F := F) n (fun r => flow_loop (set_iter C N) U n D r fuel (st_of G r) (n_iter_a_stack C) it it) IntOverflow.
Proof.
  intros N D F HN. pose proof HL as [RK [VC [VU VE]]]. pose proof (vc_n _ _ VC) as Hn. pose proof (vc_stack _ _ VC) as Hst.
  induction k as [|k IH]; intros fuel G it W Hit Hlo Hhi Hf; (destruct fuel as [|fuel]; [lia|]).
  - apply (evf_fail n _ _ 0%nat); [lia|]. cbn [flow_loop set_iter N_iter].
    rewrite (proj2 (Z.ltb_lt it N)) by lia.
    assert (Ei : i32 (it + n_iter_a_stack C) = Stop IntOverflow).
    { unfold i32. replace (it + n_iter_a_stack C <=? INT_MAX) with false by (symmetry; apply Z.leb_gt; lia).
      rewrite andb_false_r. auto. }
    rewrite Ei. reflexivity.
  - assert (Hnx : it + n_iter_a_stack C < N) by nia.
    assert (Ei : i32 (it + n_iter_a_stack C) = OK (it + n_iter_a_stack C)).
    { apply i32_ok. unfold INT_MIN, INT_MAX in *. lia. }
    pose proof (seq_distribute_ok C n Hn G W) as W1.
    destruct (seq_stack_total C U n RK VC VU D (seq_distribute G (sigt (g_ro G))) (n_iter_a_stack C) W1) as [G2 [lg [E2 W2]]].
    { lia. }
    destruct (tune_branch_total D ((N_begintune C <? it + n_iter_a_stack C) && (it + n_iter_a_stack C <? N_stoptune C) && (it + n_iter_a_stack C <? N))
                  (seq_distribute G (sigt (g_ro G))) G2 (n_iter_a_stack C) W1 W2) as [G3 [E3 W3]].
    assert (HK : (N <? it + n_iter_a_stack C) = false) by (apply Z.ltb_ge; lia).
    eapply (evf_flow_step (set_iter C N) U n F) with (nx0 := it + n_iter_a_stack C) (len' := n_iter_a_stack C) (nx := it + n_iter_a_stack C) (G2 := G2) (lg1 := lg) (G3 := G3).
    + apply (userok_np _ C); [reflexivity|exact (vu_ok _ _ VU)].
    + exact Hn.
    + apply (wf_np _ C); [reflexivity|exact W].
    + cbn [set_iter N_iter]. lia.
    + exact Ei.
    + cbn [set_iter N_iter]. rewrite HK. auto.
    + cbn [set_iter N_iter]. rewrite HK. auto.
    + exact E2.
    + exact E3.
    + apply IH; auto; lia.
Qed.

Theorem iter_overflow_fails : forall N k, N <= INT_MAX -> 0 <= k ->
  k * n_iter_a_stack C < N -> INT_MAX < (k + 1) * n_iter_a_stack C ->
  fails (with_cfg S (set_iter C N)) IntOverflow.
Proof.
  intros N k HN Hk Hlo Hhi. pose proof HL as [RK [VC [VU VE]]]. pose proof (vc_n _ _ VC) as Hn. pose proof (vc_stack _ _ VC) as Hst.
  destruct init_ok as [nl [arr [Enl [Hsz [Earr [G0 [lg [E0 W0]]]]]]]].
  apply evf_fails; [cbn; lia|]. cbn [with_cfg s_cfg s_user s_n s_env s_ndim].
  eapply (evf_main (set_iter C N) U n E _); eauto.
  - apply (userok_np _ C); [reflexivity|exact (vu_ok _ _ VU)].
  - apply (vc_seed _ _ VC).
  - exact (ve_data _ _ VE).
  - cbn [set_iter N_iter n_iter_a_stack].
    apply (flow_iter_overflow N (mkData nl arr) _ HN (Z.to_nat k)); auto; try lia; try nia.
Qed.
End Cases.

(** ** The first batch *)
(** the generator state in which the root's init_parm_set leaves the process *)
Definition root_gen {A} (S : Setup A) : Z := snd (u_init (s_user S) (rank_seed (base_seed S) (s_n S) 0)).

Section First.
Context {A : Arith}.
Variable S : Setup A.
Hypothesis HL : Legal S.
Notation C := (s_cfg S).
Notation U := (s_user S).
Notation n := (s_n S).
Notation E := (s_env S).

(** the same setup with other batch parameters *)
Definition with_batch (b R : Z) : Setup A := with_cfg S (set_batch C b R).

Lemma first_batch_fails : forall b R e, 0 < N_iter C ->
  (forall len, 0 < len -> next_batch (set_batch C b R) len 0 (root_gen S) = Stop e \/
     exists nx nb g', next_batch (set_batch C b R) len 0 (root_gen S) = OK (nx, nb, g') /\ nb <= 0 /\ e = OutOfBounds) ->
  fails (with_batch b R) e.
Proof.
  intros b R e HN HB. pose proof HL as [RK [VC [VU VE]]]. pose proof (vc_n _ _ VC) as Hn.
  destruct (init_ok _ HL) as [nl [arr [Enl [Hsz [Earr [G0 [lg [E0 W0]]]]]]]].
  destruct (init_view _ HL (mkData nl arr) G0 lg E0) as [_ [V _]]. 
  destruct (V 0%nat ltac:(cbn; lia)) as [_ [_ [Vl _]]]. clear V.
  rewrite seed_of_rank_seed in Vl by apply (vc_seed _ _ VC).
  apply evf_fails; [cbn; lia|]. cbn [with_batch with_cfg s_cfg s_user s_n s_env s_ndim].
  assert (UO' : UserOK (set_batch C b R) U).
  { apply (userok_np _ C); [reflexivity|]. exact (vu_ok _ _ VU). }
  assert (W0' : wf (set_batch C b R) n G0) by (apply (wf_np _ C); [reflexivity|exact W0]).
  eapply (evf_main (set_batch C b R) U n E _); eauto.
  - apply (vc_seed _ _ VC).
  - exact (ve_data _ _ VE).
  - cbn [set_batch N_iter n_iter_a_stack].
    destruct (Z.to_nat (N_iter C)) as [|fuel] eqn:Ef; [lia|].
    pose proof (vc_stack _ _ VC) as Hst. pose proof (vc_sum _ _ VC) as Hsum.
    assert (Ei : i32 (0 + n_iter_a_stack C) = OK (n_iter_a_stack C)).
    { rewrite Z.add_0_l. apply i32_ok. unfold INT_MIN, INT_MAX in *. lia. }
    eapply (evf_flow_stack (set_batch C b R) U n _); eauto.
    cbn [set_batch N_iter].
    assert (Hlen : 0 < (if N_iter C <? n_iter_a_stack C then N_iter C - 0 else n_iter_a_stack C)).
    { destruct (N_iter C <? n_iter_a_stack C); lia. }
    pose proof (seq_distribute_ok (set_batch C b R) n Hn G0 W0') as W1.
    assert (Hg : l_g (nth 0 (g_locs (seq_distribute G0 (sigt (g_ro G0)))) dloc) = root_gen S).
    { assert (Hs : st_of (seq_distribute G0 (sigt (g_ro G0))) 0 = set_sig (st_of G0 0) (nth 0 (sigt (g_ro G0)) [])).
      { apply (st_of_distribute C n Hn); auto; [apply (wf_sigt _ _ _ W0)|lia]. }
      apply (f_equal (fun s => l_g (lo s))) in Hs. cbn [st_of lo set_sig l_g] in Hs. rewrite Hs.
      unfold loc_at in Vl. rewrite Vl. reflexivity. }
    destruct (HB _ Hlen) as [Hb|[nx [nb [g' [Hb [Hnb ->]]]]]].
    + eapply evf_stack_len; eauto. rewrite Hg. exact Hb.
    + eapply evf_stack_first; eauto.
      * rewrite Hg. exact Hb.
      * intros G1 W2. apply evf_batch_bad; auto.
Qed.

(** the first jitter v makes the first batch empty or negative *)
Theorem short_batch_fails : forall b R v g', 0 < N_iter C -> 0 <= R <= INT_MAX -> INT_MIN <= b + v <= 0 ->
  i4_unif_ab (A := A) (- R) R (root_gen S) = OK (v, g') -> fails (with_batch b R) OutOfBounds.
Proof.
  intros b R v g' HN HR Hb Hd. apply first_batch_fails; auto.
  intros len Hlen. right. unfold next_batch. cbn [set_batch n_iter_a_batch_base n_iter_a_batch_rand].
  rewrite i32_ok by (unfold INT_MIN, INT_MAX in *; lia). cbn [rbind]. rewrite Hd. cbn [rbind].
  rewrite i32_ok by (unfold INT_MIN, INT_MAX in *; lia). cbn [rbind].
  rewrite i32_ok by (unfold INT_MIN, INT_MAX in *; lia). cbn [rbind].
  replace (len <? 0 + (b + v)) with false by (symmetry; apply Z.ltb_ge; lia).
  do 3 eexists. split; [reflexivity|]. split; [lia|auto].
Qed.

(** the first jitter v makes base + v overflow *)
Theorem long_batch_fails : forall b R v g', 0 < N_iter C -> 0 <= R <= INT_MAX -> INT_MAX < b + v ->
  i4_unif_ab (A := A) (- R) R (root_gen S) = OK (v, g') -> fails (with_batch b R) IntOverflow.
Proof.
  intros b R v g' HN HR Hb Hd. apply first_batch_fails; auto.
  intros len Hlen. left. unfold next_batch. cbn [set_batch n_iter_a_batch_base n_iter_a_batch_rand].
  rewrite i32_ok by (unfold INT_MIN, INT_MAX in *; lia). cbn [rbind]. rewrite Hd. cbn [rbind].
  unfold i32 at 1. replace (b + v <=? INT_MAX) with false by (symmetry; apply Z.leb_gt; lia).
  rewrite andb_false_r. reflexivity.
Qed.
End First.

(** any generator state can be left by some init_parm_set *)
Lemma set_gen_legal : forall {A} (S : Setup A), Legal S -> forall g, Legal (with_user S (set_gen (s_user S) g)).
Proof.
  intros A S HL g. pose proof HL as [RK [VC [VU VE]]]. split; [auto|]. split; [auto|]. split; [|auto].
  cbn [with_user s_cfg s_user]. destruct VU as [[U1 U2 U3] V2 V3]. constructor; auto. constructor; auto.
Qed.
Lemma set_gen_root : forall {A} (S : Setup A) g, root_gen (with_user S (set_gen (s_user S) g)) = g.
Proof. reflexivity. Qed.
