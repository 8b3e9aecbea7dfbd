(** Allocations that fail: what becomes of a rank when malloc returns NULL. *)
From Coq Require Import ZArith List Bool Lia.
From Verif Require Import Heap.
Import ListNotations.
Open Scope Z_scope.
Open Scope hcmd.

(** the variables assigned from a malloc whose result nobody looks at: readin.c:99, 202-204, 240-241, 277 and
    models/regression/user_prior.c:104-105 (the same in the other models).  The blocks of getline (line_buf, line) are allocated by
    the C library, which looks at the result: getline returns -1 (C81). *)
Definition unchecked (v : pv) : bool :=
  match v with
  | para_line | FoutPre | FoutSuf | results_dir | Data_file | Delimiter | Beta_Values | sigma_parm_min | sigma_parm_max => true
  | _ => false
  end.
Definition by_getline (v : pv) : bool := match v with line_buf | line => true | _ => false end.

(** how a path ends: at its last event; with "Memory allocation Failed!" and exit(1) (alloc_error_check, alloc.c:6-11); or with an
    access through NULL or other undefined behaviour *)
Inductive ending := Done (s : hst) | Quit (s : hst) | Undefined.
(** the path t from its k-th event on, with the allocations at the places p with fails p failing; the allocations inside getline are left alone *)
Fixpoint frun (fails : nat -> bool) (k : nat) (s : hst) (t : list ev) : ending :=
  match t with
  | [] => Done s
  | e :: t' =>
      let go := match hstep s e with Some s' => frun fails (S k) s' t' | None => Undefined end in
      match e with
      | Malloc v _ _ => if fails k && negb (by_getline v) then (if unchecked v then frun fails (S k) (hset (hlose s v) v Null) t' else Quit s) else go
      | _ => go
      end
  end.

(** v is read or written before it is assigned again *)
Fixpoint uses (v : pv) (t : list ev) : bool :=
  match t with
  | [] => false
  | Rd w _ _ :: t' | Wr w _ _ :: t' => if pv_eq w v then true else uses v t'
  | Malloc w _ _ :: t' | SetNull w :: t' => if pv_eq w v then false else uses v t'
  | _ :: t' => uses v t'
  end.
Lemma uses_app : forall v t u, uses v t = true -> uses v (t ++ u) = true.
Proof. intros v t u. induction t as [|e t IH]; [discriminate|]. destruct e; cbn; auto; destruct (pv_eq v0 v); auto. Qed.
Definition keeps (v : pv) (e : ev) : Prop := match e with Malloc w _ _ | SetNull w => w <> v | _ => True end.
Lemma uses_skip : forall v t u, List.Forall (keeps v) t -> uses v u = true -> uses v (t ++ u) = true.
Proof.
  intros v t u F H. induction F as [|e t He F IH]; [exact H|]. destruct e; cbn in *; auto; destruct (pv_eq v0 v); auto; contradiction.
Qed.
(** all events of a command *)
Section All.
Variable P : ev -> Prop.
Fixpoint allev (c : cmd) : Prop :=
  match c with
  | Nop => True
  | Do e => P e
  | Then a b => allev a /\ allev b
  | Or a b => allev a /\ allev b
  | For lo hi f => forall z, lo <= z < hi -> allev (f z)
  | Many c => allev c
  | Pick Q f => forall z, Q z -> allev (f z)
  end.
Lemma allev_tr : forall c t, tr c t -> allev c -> List.Forall P t.
Proof.
  intros c t H. induction H; cbn; intros C; auto; try (apply Forall_app; split); try tauto.
  - apply IHtr1. apply C. lia.
  - apply IHtr2. intros z Hz. apply C. lia.
Qed.
End All.
(** every path of c uses v before it assigns it *)
Fixpoint hits (v : pv) (c : cmd) : Prop :=
  match c with
  | Nop => False
  | Do e => match e with Rd w _ _ | Wr w _ _ => w = v | _ => False end
  | Then a b => hits v a \/ (allev (keeps v) a /\ hits v b)
  | Or a b => hits v a /\ hits v b
  | For lo hi f => lo < hi /\ hits v (f lo)
  | Many c => False
  | Pick Q f => forall z, Q z -> hits v (f z)
  end.
Lemma hits_tr : forall v c t, tr c t -> hits v c -> uses v t = true.
Proof.
  intros v c t H. induction H; cbn; intros C; try tauto.
  - destruct e; try contradiction; cbn; subst; destruct (pv_eq v v); auto; contradiction.
  - destruct C as [C|[C1 C2]]; [apply uses_app; auto|]. apply uses_skip; auto. eapply allev_tr; eauto.
  - lia.
  - apply uses_app. apply IHtr1. tauto.
  - auto.
Qed.
(** after an unchecked allocation in t comes a use *)
Fixpoint good (t : list ev) : Prop :=
  match t with [] => True | Malloc v _ _ :: t' => (unchecked v = true -> uses v t' = true) /\ good t' | _ :: t' => good t' end.
Lemma good_app : forall t u, good t -> good u -> good (t ++ u).
Proof. intros t u. induction t as [|e t IH]; auto. destruct e; cbn; auto. intros [A B] C. split; auto. intros D. apply uses_app; auto. Qed.
Definition gc (c : cmd) : Prop := forall t, tr c t -> good t.
Definition nom (e : ev) : Prop := match e with Malloc v _ _ => unchecked v = false | _ => True end.
Lemma gc_nom : forall c, allev nom c -> gc c.
Proof.
  intros c H t Ht. pose proof (allev_tr nom _ _ Ht H) as F. clear - F. induction F as [|e t He F IH]; [exact I|]. destruct e; cbn in *; auto. split; auto. congruence.
Qed.
Lemma gc_then : forall a b, gc a -> gc b -> gc (a;; b).
Proof. intros a b A B t H. inversion H; subst. apply good_app; auto. Qed.
Lemma gc_malloc : forall v x y b, hits v b -> gc b -> gc (Do (Malloc v x y);; b).
Proof.
  intros v x y b U B t H. inversion H as [| |a' b' t1 t2 H1 H2| | | | | | |]; subst. inversion H1; subst. cbn. split; [|apply B; auto]. intros _. eapply hits_tr; eauto.
Qed.
Lemma gc_pick : forall (P : Z -> Prop) f, (forall z, P z -> gc (f z)) -> gc (Pick P f).
Proof. intros P f H t Ht. inversion Ht; subst. eapply H; eauto. Qed.

(** a rank in which v is NULL and will be used does not come to its end *)
Lemma null_ends : forall fails t k s v, var s v = Null -> uses v t = true -> forall s', frun fails k s t <> Done s'.
Proof.
  intros fails t. induction t as [|e t IH]; intros k s v Hv U s' E; [discriminate|].
  assert (Lo : forall w, var (hlose s w) v = Null) by (intros w; unfold hlose; destruct (var s w); auto).
  assert (St : forall w c, w <> v -> forall s0, var s0 v = Null -> var (hset s0 w c) v = Null)
    by (intros w c Hw s0 H0; cbn; destruct (pv_eq w v); [contradiction|auto]).
  destruct e; cbn [frun uses] in *.
  - destruct (pv_eq v0 v) as [->|Hw]; [discriminate|]. destruct (fails k && negb (by_getline v0)).
    + destruct (unchecked v0); [|discriminate]. (eapply (IH (S k) _ v); [|exact U|exact E]; first [apply St; auto|auto]).
    + cbn [hstep] in E. destruct ((0 <=? n1) && (0 <=? n2)); [|discriminate]. (eapply (IH (S k) _ v); [|exact U|exact E]; first [apply St; auto|auto]).
  - cbn [hstep] in E. destruct (pv_eq v0 v) as [->|Hw].
    + rewrite Hv in E. (eapply (IH (S k) _ v); [|exact U|exact E]; first [apply St; auto|auto]).
    + destruct (var s v0); try discriminate; (eapply (IH (S k) _ v); [|exact U|exact E]; first [apply St; auto|auto]).
  - cbn [hstep] in E. destruct (pv_eq v0 v) as [->|Hw]; [rewrite Hv in E; discriminate|].
    destruct (var s v0); try discriminate. destruct (1 <=? n1); [|discriminate]. (eapply (IH (S k) _ v); [|exact U|exact E]; first [apply St; auto|auto]).
  - destruct (pv_eq v0 v) as [->|Hw]; [discriminate|]. cbn [hstep] in E. (eapply (IH (S k) _ v); [|exact U|exact E]; first [apply St; auto|auto]).
  - cbn [hstep] in E. destruct (pv_eq v0 v) as [->|Hw]; [rewrite Hv in E; discriminate|].
    destruct (var s v0); try discriminate. destruct (_ && _); [|discriminate]. (eapply (IH (S k) _ v); [|exact U|exact E]; first [apply St; auto|auto]).
  - cbn [hstep] in E. destruct (pv_eq v0 v) as [->|Hw]; [rewrite Hv in E; discriminate|].
    destruct (var s v0); try discriminate. destruct (_ && _); [|discriminate]. (eapply (IH (S k) _ v); [|exact U|exact E]; first [apply St; auto|auto]).
  - cbn [hstep] in E. (eapply (IH (S k) _ v); [|exact U|exact E]; first [apply St; auto|auto]).
  - cbn [hstep] in E. destruct (1 <=? files s); [|discriminate]. (eapply (IH (S k) _ v); [|exact U|exact E]; first [apply St; auto|auto]).
Qed.
Lemma fail_ends : forall fails t k s p v a b, by_getline v = false -> good t -> nth_error t p = Some (Malloc v a b) -> fails (k + p)%nat = true ->
  forall s', frun fails k s t <> Done s'.
Proof.
  intros fails t. induction t as [|e t IH]; intros k s p v a b NG G Hp F s' E; [destruct p; discriminate|]. destruct p as [|p].
  - cbn in Hp. injection Hp as ->. cbn [good] in G. cbn [frun] in E. rewrite Nat.add_0_r in F. rewrite F, NG in E. cbn [andb negb] in E.
    destruct (unchecked v) eqn:Ev; [|discriminate]. revert E. apply null_ends with (v := v); [|apply G; auto]. cbn. destruct (pv_eq v v); auto. contradiction.
  - cbn [nth_error] in Hp. assert (G' : good t) by (destruct e; cbn in G; try tauto). rewrite <- plus_n_Sm in F.
    pose proof (IH (S k) ) as J. cbn [Nat.add] in J.
    assert (Go : forall s1, frun fails (S k) s1 t <> Done s') by (intros s1; eapply J; eauto).
    cbn [frun] in E. destruct e; try (destruct (hstep s _); [eapply Go; eauto|discriminate]).
    destruct (fails k && negb (by_getline v0)); [destruct (unchecked v0); [eapply Go; eauto|discriminate]|]. destruct (hstep s _); [eapply Go; eauto|discriminate].
Qed.
(** up to the first failure the path runs as usual *)
Lemma frun_before : forall fails t u k s, (forall p, (p < List.length t)%nat -> fails (k + p)%nat = false) ->
  frun fails k s (t ++ u) = match hrun s t with Some s' => frun fails (k + List.length t) s' u | None => Undefined end.
Proof.
  intros fails t. induction t as [|e t IH]; intros u k s F; cbn [app hrun List.length]; [rewrite Nat.add_0_r; reflexivity|].
  assert (F0 : fails k = false) by (rewrite <- (Nat.add_0_r k); apply F; cbn; lia).
  assert (J : forall s1, frun fails (S k) s1 (t ++ u) = match hrun s1 t with Some s' => frun fails (S k + List.length t) s' u | None => Undefined end).
  { intros s1. apply IH. intros p Hp. replace (S k + p)%nat with (k + S p)%nat by lia. apply F. cbn. lia. }
  replace (k + S (List.length t))%nat with (S k + List.length t)%nat by lia.
  cbn [frun]. rewrite F0. cbn [andb]. destruct e; destruct (hstep s _) as [s1|]; auto.
Qed.
(** the program does not say anything unless an allocation of alloc.c fails *)
Lemma quit_only : forall fails t k s s', frun fails k s t = Quit s' -> exists p v a b, nth_error t p = Some (Malloc v a b) /\ fails (k + p)%nat = true /\ unchecked v = false.
Proof.
  intros fails t. induction t as [|e t IH]; intros k s s' E; [discriminate|].
  assert (J : forall s1, frun fails (S k) s1 t = Quit s' -> exists p v a b, nth_error (e :: t) p = Some (Malloc v a b) /\ fails (k + p)%nat = true /\ unchecked v = false).
  { intros s1 E1. destruct (IH _ _ _ E1) as [p [v [a [b [H1 [H2 H3]]]]]]. exists (S p), v, a, b. split; auto. split; auto. rewrite <- plus_n_Sm. exact H2. }
  cbn [frun] in E. destruct e; try (destruct (hstep s _) as [s1|]; [eapply J; eauto|discriminate]).
  destruct (fails k && negb (by_getline v)) eqn:F; [apply andb_true_iff in F; destruct F as [F _]; destruct (unchecked v) eqn:U; [eapply J; eauto|]|destruct (hstep s _) as [s1|]; [eapply J; eauto|discriminate]].
  exists O, v, n1, n2. rewrite Nat.add_0_r. auto.
Qed.

(** *** the code *)
Section Rank.
Variables LL n N K nl nd kd Nb Tn LM Nswap : Z.
Variables (tl blank : bool) (r : Z).
Hypothesis (HK : 1 <= K) (HNb : 1 <= Nb).
Ltac av := repeat match goal with
  | |- allev _ (if ?b then _ else _) => destruct b
  | |- allev _ (when ?b _) => unfold when; destruct b
  | |- allev _ (ife ?b _ _) => unfold ife; destruct b
  | |- allev _ (rd _ _) => exact I | |- allev _ (wr _ _) => exact I
  | |- allev _ (Then _ _) => split
  | |- allev _ (Or _ _) => split
  | |- allev _ Nop => exact I
  | |- allev _ (Do _) => first [exact I | reflexivity | cbn; congruence]
  | |- allev _ (For _ _ _) => let z := fresh "z" in let Hz := fresh "Hz" in intros z Hz; cbv beta
  | |- allev ?k (Many ?c) => change (allev k c)
  | |- allev _ (Pick _ _) => let z := fresh "z" in let Hz := fresh "Hz" in intros z Hz; cbv beta in *
  | |- allev _ (rdvec _ _) => intros ? ?; exact I | |- allev _ (wrvec _ _) => intros ? ?; exact I
  | |- allev _ (rdrow _ _ _) => intros ? ?; exact I | |- allev _ (wrrow _ _ _) => intros ? ?; exact I
  end.
(** the entries of the configuration *)
Lemma k_one : forall v, v <> para_line -> v <> line_buf -> allev (keeps v) (read_onepara LL).
Proof. intros v H1 H2. unfold read_onepara, get_line. av. Qed.
Lemma k_scan : forall v w, v <> para_line -> v <> line_buf -> allev (keeps v) (scan_str LL w).
Proof. intros v w H1 H2. unfold scan_str. av. apply k_one; auto. Qed.
Lemma g_one : gc (read_onepara LL).
Proof.
  unfold read_onepara. apply gc_then; [apply gc_nom; av|]. apply gc_malloc.
  - right. split; [av|]. right. split; [unfold get_line; av|]. intros len Hl. right. split; [unfold get_line; av|]. left. split; [unfold below in Hl; lia|].
    right. split; [av|reflexivity].
  - apply gc_nom. unfold get_line. av.
Qed.
Lemma g_calls : forall k, gc (calls LL k).
Proof. induction k as [|k IH]; cbn [calls]; [apply gc_nom; exact I|]. apply gc_then; [apply g_one|exact IH]. Qed.
Lemma g_drop : gc drop_para.
Proof. apply gc_nom. unfold drop_para. av. Qed.
Lemma g_scan : forall v, gc (scan_str LL v).
Proof. intros v. unfold scan_str. apply gc_then; [apply g_one|]. apply gc_nom. av. Qed.
Lemma h_scan : forall v, v <> para_line -> v <> line_buf -> hits v (scan_str LL v).
Proof. intros v H1 H2. unfold scan_str. right. split; [apply k_one; auto|]. intros l Hl. split; [unfold below in Hl; lia|reflexivity]. Qed.
Lemma g_ini : gc (read_input_ini LL Nb blank).
Proof.
  unfold read_input_ini, read_chains_grid, read_chain_out_name, read_beta_values, read_data_desc, read_sampling_para.
  apply gc_then; [apply gc_then; [apply g_calls|apply g_drop]|].
  apply gc_then.
  { apply gc_malloc; [right; split; [av|]; right; split; [av|]; right; split; [apply k_one; discriminate|left; apply h_scan; discriminate]|].
    apply gc_malloc; [right; split; [av|]; right; split; [apply k_one; discriminate|right; split; [apply k_scan; discriminate|left; apply h_scan; discriminate]]|].
    apply gc_malloc; [right; split; [apply k_one; discriminate|right; split; [apply k_scan; discriminate|right; split; [apply k_scan; discriminate|left; apply h_scan; discriminate]]]|].
    repeat (apply gc_then; [first [apply g_one|apply g_scan]|]). apply g_drop. }
  apply gc_then.
  { apply gc_malloc; [right; split; [apply k_one; discriminate|left; split; [lia|reflexivity]]|].
    apply gc_then; [apply g_one|]. apply gc_then; [apply gc_nom; av|apply g_drop]. }
  apply gc_then.
  { apply gc_malloc; [right; split; [av|]; left; apply h_scan; discriminate|].
    apply gc_malloc; [right; split; [apply k_scan; discriminate|right; split; [apply k_one; discriminate|left; apply h_scan; discriminate]]|].
    repeat (apply gc_then; [first [apply g_one|apply g_scan]|]). apply gc_then; [apply gc_nom; av|apply g_drop]. }
  apply gc_then; [apply g_calls|apply g_drop].
Qed.
Lemma g_set : forall f : Z -> ev, (forall i, nom (f i)) -> gc (init_parm_set LL N K f).
Proof.
  intros f Hf. unfold init_parm_set, read_parm_range, calc_sigma_scale_boundary.
  apply gc_then; [apply gc_then; [apply g_calls|apply g_drop]|]. apply gc_then; [apply gc_nom; intros z Hz; apply Hf|].
  apply gc_malloc; [right; split; [av|]; left; split; [lia|reflexivity]|].
  apply gc_malloc; [right; split; [av|]; left; split; [lia|reflexivity]|]. apply gc_nom. av.
Qed.
Lemma n_mh : forall c lp new b i, allev nom (mh_iteration N K nl kd c lp new b i).
Proof. intros. unfold mh_iteration, do_gaussian_propose, para_boundary, logll_beta, log_prior. av. Qed.
Lemma n_iter : forall c m, allev nom (iter_batch_mh N K nl kd r c m).
Proof. intros. unfold iter_batch_mh, saved. av. apply n_mh. Qed.
Lemma n_batch : forall m, allev nom (mpi_run_a_batch n N K nl kd r m).
Proof. intros. unfold mpi_run_a_batch. av; apply n_iter. Qed.
Lemma n_stack : allev nom (mpi_static_sigma_stack n N K nl kd LM Nswap tl r).
Proof.
  unfold mpi_static_sigma_stack, saved, mpi_judge_and_swap, logll_beta, log_prior, mpi_adjust_ladder, tune_ladder_use_3_neighb, ladder_step. av; apply n_batch.
Qed.
Lemma n_tune : forall q, allev nom (mpi_tune_sigma_irank n N K nl kd Tn r q).
Proof.
  intros q. unfold mpi_tune_sigma_irank, gen_sigma_alltune, replicate_OneSigmaOrigin_Nvaried, tune_oneparm_Nvaried, mpi_distribute_sigma_prop_root, mpi_tune_sigma_iparmNrank,
    iter_batch_mh_tune, decide_sigma_to_change, modify_sigma_prop_rankintune, race_all_parm, calc_SD_allParm, calc_closest_ar_oneparm, calc_closest_ar, argvec, init_gaussian_proposal.
  av; try apply n_mh.
Qed.
Lemma n_flow : allev nom (mpi_entire_flow n N K nl kd Tn LM Nswap tl r).
Proof. unfold mpi_entire_flow, mpi_distribute_sigma_prop_root, save_sigma_gauss_prop, saved, mpi_find_ranks2tune. av; try apply n_stack; try apply n_tune. Qed.
Lemma g_main : gc (main_heap LL n N K nl nd kd Nb Tn LM Nswap tl blank r).
Proof.
  unfold main_heap. apply gc_then; [apply g_ini|]. do 2 (apply gc_then; [apply gc_nom; unfold mpi_get_nlines; av|]).
  apply gc_then; [apply gc_nom; unfold mpi_data_loader, read_data, all_data; av|]. apply gc_then; [apply gc_nom; av|].
  apply gc_then.
  { unfold mpi_gen_init_parm, ife. destruct (root r).
    - apply gc_then; [apply gc_nom; unfold saved; av|]. apply gc_then; [apply g_set; intros; exact I|]. apply gc_nom. unfold saved. av.
    - apply gc_then; [apply gc_nom; unfold saved; av|]. apply gc_then; [apply gc_nom; av|]. apply gc_then; [apply g_set; intros; exact I|]. apply gc_nom. av. }
  apply gc_nom. unfold mpi_init_calc_logllpp, logll_beta, log_prior, init_gaussian_proposal, save_sigma_gauss_prop, mpi_gather_sigma_prop_root, saved. av; apply n_flow.
Qed.
End Rank.
