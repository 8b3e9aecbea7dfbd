(** Runs that start from a bad data file or a short list of betas. *)
From Coq Require Import ZArith Arith List Bool Lia FunctionalExtensionality.
From Verif Require Import Base Arith B64 Rand Mh Ladder Tune Mpi MpiMeta Spmd Prog Seq ListAux MhSpec SeqWf Refine
  SeqTotal System Runs SeedRuns Views RunHist Failing FailRuns.
Import ListNotations.
Open Scope Z_scope.

Section In.
Context {A : Arith}.
Variable C : Cfg A.
Variable U : User A.
Variable n : nat.
Variable E : Env (A := A).
Variable F : Type.
Hypothesis UO : UserOK C U.
Hypothesis Hn : (2 <= n)%nat.
Notation evf := (evf (F := F) n).
Notation ev := (ev (F := F) n).

(** the loader fails at root *)
Lemma evf_main_data : forall ndim nl e, e_nlines E = OK nl -> INT_MIN <= nl * ndim <= INT_MAX -> e_data E nl = Stop e ->
  evf (fun r => main C U n E ndim r) e.
Proof.
  intros ndim nl e Enl Hsz Earr. unfold main.
  eapply (evf_bind n _ _ (fun _ => tt) (at0 [EvDir] [])).
  { eapply ev_ext; [| reflexivity | | apply (ev_pouts n (at0 [EvDir] []) (fun _ => Ret tt) (fun _ => tt) (fun _ => []))].
    - intros r Hr. destruct r; reflexivity.
    - intros r Hr. cbv beta. apply app_nil_r.
    - apply ev_ret. }
  eapply (evf_bind n _ _ (fun _ => nl) (fun _ => [])).
  { unfold mpi_get_nlines. eapply (ev_bind0 n _ _ (at0 nl 0)).
    - eapply ev_ext; [| reflexivity | reflexivity | apply ev_ret].
      intros r Hr. unfold at0. destruct (is_root r); auto. rewrite Enl. reflexivity.
    - apply (ev_bcast n (fun r => MI [at0 nl 0 r])); [lia|]. apply ev_ret. }
  rewrite i32_ok by auto. cbn [plift pbind].
  apply (evf_fail n _ e 0%nat); [lia|]. unfold mpi_data_loader. cbn [is_root root Nat.eqb]. rewrite Earr. reflexivity.
Qed.
Lemma evf_main_lines : forall ndim e, e_nlines E = Stop e -> evf (fun r => main C U n E ndim r) e.
Proof.
  intros ndim e Enl. unfold main.
  eapply (evf_bind n _ _ (fun _ => tt) (at0 [EvDir] [])).
  { eapply ev_ext; [| reflexivity | | apply (ev_pouts n (at0 [EvDir] []) (fun _ => Ret tt) (fun _ => tt) (fun _ => []))].
    - intros r Hr. destruct r; reflexivity.
    - intros r Hr. cbv beta. apply app_nil_r.
    - apply ev_ret. }
  apply (evf_fail n _ e 0%nat); [lia|]. unfold mpi_get_nlines. cbn [is_root root Nat.eqb]. rewrite Enl. reflexivity.
Qed.

(** fewer betas than ranks: the first rank without one reads outside the array *)
Lemma zget_short : forall {X} (l : list X) r, (length l <= r)%nat -> zget l (zr r) = Stop OutOfBounds.
Proof.
  intros X l r H. unfold zget, zr. destruct (Z.ltb_spec (Z.of_nat r) 0); [lia|].
  rewrite Nat2Z.id. rewrite (proj2 (nth_error_None l r)); auto.
Qed.
Lemma evf_init_logpost : forall D tr, length tr = n -> (forall x, In x tr -> haslen (N_parm C) x) ->
  (length (Beta_Values C) < n)%nat ->
  evf (fun r => mpi_init_calc_logllpp C U n r D (at0 tr [] r)) OutOfBounds.
Proof.
  intros D tr Ltr Htr Hb. set (b := length (Beta_Values C)) in *.
  set (kr := x0 <- plift (zget tr (zr root));;
             beta <- plift (zget (Beta_Values C) (zr root));;
             lp0 <- plift (zset (fresh (zn n)) (zr root) (Some (logpost_at U D x0 beta)));;
             Out (EvRow 0%nat (mkRow x0 (logpost_at U D x0 beta) 0 0))
               (l <- pfor (slaves n) (fun i l =>
                  Recv i 200 (fun m => v <- plift (as_dbl m);; plift (zset l (zr i) (Some v)))) lp0;;
                plift (all_cells l)) : proc (msg A) (event A) (list (num A))).
  set (ks := fun r => beta <- plift (zget (Beta_Values C) (zr r));;
             let lp := logpost_at U D (nth r tr []) beta in
             Out (EvRow r (mkRow (nth r tr []) lp 0 0)) (Send root 200 (MD [lp]) (Ret [])) : proc (msg A) (event A) (list (num A))).
  eapply evf_ext; [|apply (evf_send_each n F Hn (fun i => [(100%nat, MD (nth i tr []))])
      (fun i _ => x <- plift (zget tr (zr i));; Send i 100 (MD x) (Ret tt)) kr
      (fun r => Recv root 100 (fun m =>
         x <- plift (as_dbls (N_parm C) m);;
         beta <- plift (zget (Beta_Values C) (zr r));;
         let lp := logpost_at U D x beta in
         Out (EvRow r (mkRow x lp 0 0)) (Send root 200 (MD [lp]) (Ret [])))) ks)].
  - intros r Hr. unfold mpi_init_calc_logllpp. destruct r as [|r]; reflexivity.
  - intros i Hi. rewrite (zget_nat tr i []) by lia. reflexivity.
  - intros r Hr. constructor. rewrite as_dbls_ok by (apply Htr, nth_In; lia). cbn [plift pbind]. constructor.
  - apply (evf_fail n _ OutOfBounds b); auto. destruct b as [|b'] eqn:Eb.
    + cbn [is_root root Nat.eqb]. unfold kr. change (zr root) with (zr 0).
      rewrite (zget_nat tr 0 []) by lia. cbn [plift pbind]. rewrite zget_short by (unfold b in Eb; lia). reflexivity.
    + cbn [is_root root Nat.eqb]. unfold ks. rewrite zget_short by (unfold b in Eb; lia). reflexivity.
Qed.
Lemma evf_main_betas : forall ndim nl arr, 0 <= init_rand_seed C < UINT_MOD -> DataOK E ndim ->
  e_nlines E = OK nl -> INT_MIN <= nl * ndim <= INT_MAX -> e_data E nl = OK arr ->
  (length (Beta_Values C) < n)%nat ->
  evf (fun r => main C U n E ndim r) OutOfBounds.
Proof.
  intros ndim nl arr Hseed HD Enl Hsz Earr H.
  assert (Ltr : length (tr0 C U n E) = n) by (unfold tr0, ranks; rewrite map_length, seq_length; auto).
  assert (Htr : forall x, In x (tr0 C U n E) -> haslen (N_parm C) x).
  { intros x Hx. unfold tr0 in Hx. apply in_map_iff in Hx. destruct Hx as [r [<- _]]. apply UO. }
  unfold main.
  eapply (evf_bind n _ _ (fun _ => tt) (at0 [EvDir] [])).
  { eapply ev_ext; [| reflexivity | | apply (ev_pouts n (at0 [EvDir] []) (fun _ => Ret tt) (fun _ => tt) (fun _ => []))].
    - intros r Hr. destruct r; reflexivity.
    - intros r Hr. cbv beta. apply app_nil_r.
    - apply ev_ret. }
  eapply (evf_bind n _ _ (fun _ => nl) (fun _ => [])).
  { unfold mpi_get_nlines. eapply (ev_bind0 n _ _ (at0 nl 0)).
    - eapply ev_ext; [| reflexivity | reflexivity | apply ev_ret].
      intros r Hr. unfold at0. destruct (is_root r); auto. rewrite Enl. reflexivity.
    - apply (ev_bcast n (fun r => MI [at0 nl 0 r])); [lia|]. apply ev_ret. }
  rewrite i32_ok by auto. cbn [plift pbind].
  eapply (evf_bind n _ _ (fun _ => arr) (fun _ => [])).
  { unfold mpi_data_loader. eapply (ev_bind0 n _ _ (at0 arr [])).
    - eapply ev_ext; [| reflexivity | reflexivity | apply ev_ret].
      intros r Hr. unfold at0. destruct (is_root r); auto. rewrite Earr. reflexivity.
    - apply (ev_bcast n (fun r => MD (at0 arr [] r))); [lia|].
      unfold at0. cbn [is_root root Nat.eqb]. rewrite as_dbls_ok by (apply (HD _ _ Earr)).
      cbn [plift]. apply ev_ret. }
  eapply (evf_bind n _ _ _ _ _ (ev_gen_init C U n E F UO Hn Hseed)).
  cbv beta iota. apply evf_head. apply evf_init_logpost; auto.
Qed.
End In.

Section Runs.
Context {A : Arith}.
Variable S : Setup A.
Notation n := (s_n S).

Theorem data_fails : forall nl e, (2 <= n)%nat ->
  e_nlines (s_env S) = OK nl -> INT_MIN <= nl * s_ndim S <= INT_MAX -> e_data (s_env S) nl = Stop e -> fails S e.
Proof. intros nl e Hn H1 H2 H3. apply evf_fails; [lia|]. eapply evf_main_data; eauto. Qed.
Theorem lines_fail : forall e, (2 <= n)%nat -> e_nlines (s_env S) = Stop e -> fails S e.
Proof. intros e Hn H1. apply evf_fails; [lia|]. eapply evf_main_lines; eauto. Qed.
Theorem betas_fail : UserOK (s_cfg S) (s_user S) -> (2 <= n)%nat -> 0 <= init_rand_seed (s_cfg S) < UINT_MOD ->
  ValidEnv (s_env S) (s_ndim S) -> (length (Beta_Values (s_cfg S)) < n)%nat -> fails S OutOfBounds.
Proof.
  intros UO Hn Hs VE Hb. destruct (ve_lines _ _ VE) as [nl [arr [H1 [H2 H3]]]].
  apply evf_fails; [lia|]. eapply evf_main_betas; eauto. exact (ve_data _ _ VE).
Qed.
End Runs.
