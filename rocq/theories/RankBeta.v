(** Runs whose number of ranks is not the number of betas. *)
From Coq Require Import ZArith Arith List Bool Lia FunctionalExtensionality.
From Verif Require Import Base Arith B64 Rand Mh Ladder Tune Mpi MpiMeta Spmd Prog Seq ListAux MhSpec SeqWf Refine
  SeqTotal System Runs SeedRuns Views RunHist Failing FailRuns OneRank.
Import ListNotations.
Open Scope Z_scope.

Section More.
Context {A : Arith}.
Variable C : Cfg A.
Variable U : User A.
Variable n : nat.
Variable E : Env (A := A).
Variable F : Type.
Hypothesis UO : UserOK C U.
Hypothesis Hn : (2 <= n)%nat.
Hypothesis HB : (length (Beta_Values C) < n)%nat.
Notation evf := (evf (F := F) n).

Lemma no_beta : zget (Beta_Values C) (zr (length (Beta_Values C))) = Stop OutOfBounds.
Proof.
  unfold zget, zr. destruct (Z.ltb_spec (Z.of_nat (length (Beta_Values C))) 0); [lia|]. rewrite Nat2Z.id.
  rewrite (proj2 (nth_error_None _ _)) by lia. reflexivity.
Qed.
(** the first rank without a beta reads behind the array *)
Lemma evf_logpost : forall D tr, length tr = n -> (forall x, In x tr -> haslen (N_parm C) x) ->
  evf (fun r => mpi_init_calc_logllpp C U n r D (at0 tr [] r)) OutOfBounds.
Proof.
  intros D tr Ltr Htr.
  eapply (evf_ext n (fun r => if is_root r then
      _ <- pfor (slaves n) (fun i (_ : unit) => x <- plift (zget tr (zr i));; Send i 100 (MD x) (Ret tt)) tt;;
      (x0 <- plift (zget tr (zr root));;
      beta <- plift (zget (Beta_Values C) (zr root));;
      let lp := nadd (u_logll U x0 (d_nline D) (d_arr D) beta) (u_logprior U x0) in
      lp0 <- plift (zset (fresh (zn n)) (zr root) (Some lp));;
      Out (EvRow root (mkRow x0 lp 0 0))
        (l <- pfor (slaves n) (fun i l =>
             Recv i 200 (fun m => v <- plift (as_dbl m);; plift (zset l (zr i) (Some v)))) lp0;;
         plift (all_cells l)))
    else Recv root 100 (fun m =>
      x <- plift (as_dbls (N_parm C) m);;
      beta <- plift (zget (Beta_Values C) (zr r));;
      let lp := nadd (u_logll U x (d_nline D) (d_arr D) beta) (u_logprior U x) in
      Out (EvRow r (mkRow x lp 0 0))
        (Send root 200 (MD [lp]) (Ret []))))).
  { intros r Hr. unfold mpi_init_calc_logllpp. destruct r; reflexivity. }
  apply (evf_send_each n F Hn (fun i => [(100%nat, MD (nth i tr []))]) _ _ _
    (fun r => beta <- plift (zget (Beta_Values C) (zr r));;
      let lp := nadd (u_logll U (nth r tr []) (d_nline D) (d_arr D) beta) (u_logprior U (nth r tr [])) in
      Out (EvRow r (mkRow (nth r tr []) lp 0 0)) (Send root 200 (MD [lp]) (Ret [])))).
  - intros i Hi. rewrite (zget_nat tr i []) by lia. reflexivity.
  - intros r Hr. constructor. rewrite as_dbls_ok by (apply Htr, nth_In; lia). cbn [plift pbind]. constructor.
  - apply (evf_fail n _ _ (length (Beta_Values C)) HB). cbv beta. pose proof no_beta as K.
    destruct (length (Beta_Values C)) as [|k] eqn:EL.
    + cbn [is_root root Nat.eqb]. change (zr 0%nat) with (zr root) in K. rewrite (zget_nat tr root []) by (unfold root; lia). cbn [plift pbind]. rewrite K. reflexivity.
    + cbn [is_root root Nat.eqb]. rewrite K. reflexivity.
Qed.

Lemma evf_main_more : forall ndim nl arr, 0 <= init_rand_seed C < UINT_MOD -> DataOK E ndim ->
  e_nlines E = OK nl -> INT_MIN <= nl * ndim <= INT_MAX -> e_data E nl = OK arr ->
  evf (fun r => main C U n E ndim r) OutOfBounds.
Proof.
  intros ndim nl arr Hseed HD Enl Hsz Earr.
  assert (Ltr : length (tr0 C U n E) = n) by (unfold tr0, ranks; rewrite map_length, seq_length; auto).
  assert (Htr : forall x, In x (tr0 C U n E) -> haslen (N_parm C) x).
  { intros x Hx. unfold tr0 in Hx. apply in_map_iff in Hx. destruct Hx as [r [<- _]]. apply UO. }
  unfold main.
  eapply (evf_bind n _ _ (fun _ => tt) (at0 [EvDir] [])).
  { eapply ev_ext; [| reflexivity | | apply (ev_pouts n (at0 [EvDir] []) (fun _ => Ret tt) (fun _ => tt) (fun _ => []))].
    - intros r Hr. destruct r; reflexivity.
    - intros r Hr. cbv beta. apply app_nil_r.
    - apply ev_ret. }
  eapply (evf_bind n _ _ (fun _ => nl) (fun _ => [])).
  { unfold mpi_get_nlines. eapply (ev_bind0 n _ _ (at0 nl 0)).
    - eapply ev_ext; [| reflexivity | reflexivity | apply ev_ret].
      intros r Hr. unfold at0. destruct (is_root r); auto. rewrite Enl. reflexivity.
    - apply (ev_bcast n (fun r => MI [at0 nl 0 r])); [lia|]. apply ev_ret. }
  rewrite i32_ok by auto. cbn [plift pbind].
  eapply (evf_bind n _ _ (fun _ => arr) (fun _ => [])).
  { unfold mpi_data_loader. eapply (ev_bind0 n _ _ (at0 arr [])).
    - eapply ev_ext; [| reflexivity | reflexivity | apply ev_ret].
      intros r Hr. unfold at0. destruct (is_root r); auto. rewrite Earr. reflexivity.
    - apply (ev_bcast n (fun r => MD (at0 arr [] r))); [lia|].
      unfold at0. cbn [is_root root Nat.eqb]. rewrite as_dbls_ok by (apply (HD _ _ Earr)).
      cbn [plift]. apply ev_ret. }
  eapply (evf_bind n _ _ _ _ _ (ev_gen_init C U n E F UO Hn Hseed)).
  cbv beta iota. apply evf_head. apply (evf_logpost (mkData nl arr) (tr0 C U n E) Ltr Htr).
Qed.
End More.

Lemma more_fails : forall A (S : Setup A), Legal S -> forall n, (length (Beta_Values (s_cfg S)) < n)%nat -> fails (with_ranks S n) OutOfBounds.
Proof.
  intros A S [RK [VC [VU VE]]] n Hn. destruct (ve_lines _ _ VE) as [nl [arr [E1 [E2 E3]]]].
  assert (H2 : (2 <= n)%nat) by (pose proof (vc_n _ _ VC); pose proof (vc_betas _ _ VC); lia).
  apply evf_fails; cbn [s_n with_ranks]; [lia|]. cbn [s_cfg s_user s_env s_ndim with_ranks].
  apply (evf_main_more (s_cfg S) (s_user S) n (s_env S) _ (vu_ok _ _ VU) H2 Hn (s_ndim S) nl arr); auto.
  - apply (vc_seed _ _ VC).
  - exact (ve_data _ _ VE).
Qed.
Lemma fewer_legal : forall A (S : Setup A), Legal S -> forall n, (2 <= n <= s_n S)%nat -> Legal (with_ranks S n).
Proof.
  intros A S [RK [VC [VU VE]]] n Hn. split; [exact RK|]. split; [|split; [exact VU|exact VE]].
  destruct VC. constructor; cbn [s_n s_cfg with_ranks]; auto; lia.
Qed.
