(** Runs in which a result file cannot be opened.  Every append of the program is an [fopen] in
    mode "a" followed by [exit(3)] when it fails (mpi_init.c:225-229, 253-257, 290-294;
    mpi_batch.c:438-442; mpi_flow.c:348-352; mpi_stack.c:475-479).  Nothing calls MPI_Abort, so the
    other ranks are not told.  A failing mkdir only prints a warning (readin.c:390-404). *)
From Coq Require Import ZArith Arith List Bool Lia Classical.
From Verif Require Import Base Arith Rand Mh Ladder Tune Mpi MpiMeta Spmd Prog Seq MhSpec SeqWf Refine SeqTotal
  System Runs SchedLemmas.
Import ListNotations.
Local Open Scope nat_scope.

(** ** A process that ends with a barrier *)
Section Last.
Context {msg event X : Type}.

(** every way through [p] passes a barrier before it returns *)
Fixpoint barred (p : proc msg event X) : Prop :=
  match p with
  | Ret _ => False
  | Send _ _ _ k => barred k
  | Recv _ _ k => forall m, barred (k m)
  | Bcast _ _ k => forall m, barred (k m)
  | Barrier k => barred k \/ exists x, k = Ret x
  | Out _ k => barred k
  | Fail _ => True
  end.
End Last.

Lemma barred_bind : forall {msg event X Y} (p : proc msg event Y) (f : Y -> proc msg event X),
  (forall y, barred (f y)) -> barred (pbind p f).
Proof. induction p; intros f Hf; cbn [pbind barred]; auto. Qed.

Section F.
Context {A : Arith}.
Variable S : Setup A.
Notation n := (s_n S).
Notation mstep := (mstep (msg A) (event A) (st (A := A)) (s_n S)).

Lemma barred_main : forall ndim r, barred (main (s_cfg S) (s_user S) n (s_env S) ndim r).
Proof.
  intros. unfold main.
  apply barred_bind; intros _. apply barred_bind; intros nl. apply barred_bind; intros sz.
  apply barred_bind; intros arr. apply barred_bind; intros [tr g]. apply barred_bind; intros lp.
  cbn [barred]. left. apply barred_bind; intros t. apply barred_bind; intros betas.
  apply barred_bind; intros s. cbn [barred]. right. eauto.
Qed.

(** ** Faulty runs *)

(** what was appended so far, the ranks and their messages, which ranks have left through exit(3) *)
Record fstate := mkF { f_tr : list (nat * event A); f_X : state A; f_dead : nat -> bool }.

Definition f_start : fstate := mkF [] (initial S) (fun _ => false).

(** Either the program moves, any rank that has left staying where it is, or a rank about to append
    a record finds that it cannot open the file and leaves. *)
Inductive fstep : fstate -> fstate -> Prop :=
| f_move : forall tr X dead X' e, mstep X X' -> (forall r, dead r = true -> pr X' r = pr X r) ->
    length e <= 1 -> (forall r, lg X' r = lg X r ++ gproj r e) ->
    fstep (mkF tr X dead) (mkF (tr ++ e) X' dead)
| f_exit : forall tr X dead r e q, r < n -> pr X r = Out e q -> e <> EvDir -> dead r = false ->
    fstep (mkF tr X dead) (mkF tr X (upd dead r true)).

Inductive fruns : nat -> fstate -> fstate -> Prop :=
| fr_refl : forall F, fruns 0 F F
| fr_step : forall k F F' F'', fruns k F F' -> fstep F' F'' -> fruns (Datatypes.S k) F F''.

(** no rank that is still there can do anything *)
Definition stuck (F : fstate) : Prop := forall F', ~ fstep F F'.

Lemma fruns_trans : forall k F F', fruns k F F' -> forall j F'', fruns j F' F'' -> fruns (k + j) F F''.
Proof.
  intros k F F' H j F'' H2. induction H2; [rewrite Nat.add_0_r; auto|].
  rewrite Nat.add_succ_r. econstructor; eauto.
Qed.

Lemma mrun_one : forall (X X' : state A) e, mstep X X' -> length e <= 1 ->
  (forall r, lg X' r = lg X r ++ gproj r e) -> mrun n X 1 e X'.
Proof. intros. rewrite <- (app_nil_r e). econstructor; eauto. constructor. Qed.

(** ranks that have left are about to append *)
Definition dead_ok (F : fstate) : Prop :=
  forall r, f_dead F r = true -> r < n /\ exists e q, pr (f_X F) r = Out e q.

Lemma fstep_dead_ok : forall F F', fstep F F' -> dead_ok F -> dead_ok F'.
Proof.
  intros F F' H D r Hr. destruct H; cbn [f_dead f_X f_tr] in *.
  - destruct (D r Hr) as [L [a [q Hq]]]. split; [auto|]. exists a, q. cbn [f_X] in *. rewrite H0; auto.
  - unfold upd in Hr. destruct (Nat.eqb_spec r r0); [subst; eauto|]. apply (D r Hr).
Qed.

(** deaths so far *)
Definition deaths (d : nat -> bool) : nat := length (filter d (seq 0 n)).
Lemma deaths_le : forall d, deaths d <= n.
Proof.
  intros. unfold deaths. rewrite <- (seq_length n 0) at 2.
  induction (seq 0 n) as [|a l IH]; [auto|]. simpl. destruct (d a); simpl; lia.
Qed.

Lemma deaths_upd : forall d r, r < n -> d r = false -> deaths (upd d r true) = Datatypes.S (deaths d).
Proof.
  intros d r Hr Hd. unfold deaths.
  assert (K : forall l, NoDup l -> In r l ->
    length (filter (upd d r true) l) = Datatypes.S (length (filter d l))).
  { induction l as [|a l IH]; intros ND HI; [destruct HI|]. inversion ND; subst. simpl.
    destruct (Nat.eq_dec a r) as [->|Ne].
    - unfold upd at 1. rewrite Nat.eqb_refl, Hd. simpl. f_equal.
      assert (E : forall m, ~ In r m -> filter (upd d r true) m = filter d m).
      { induction m as [|b m IHm]; intros Hm; auto. simpl. unfold upd at 1.
        destruct (Nat.eqb_spec b r); [exfalso; apply Hm; left; auto|]. rewrite IHm; auto. intro; apply Hm; right; auto. }
      rewrite E; auto.
    - destruct HI as [HI|HI]; [congruence|]. unfold upd at 1. destruct (Nat.eqb_spec a r); [congruence|].
      destruct (d a); simpl; rewrite IH; auto. }
  apply K; [apply seq_NoDup|apply in_seq; lia].
Qed.

Lemma faulty_exec : forall k F, fruns k f_start F ->
  dead_ok F /\ exists j, execution S j (f_tr F) (f_X F) /\ k = j + deaths (f_dead F).
Proof.
  intros k F H. remember f_start as F0. induction H; subst.
  - split; [intros r Hr; discriminate|]. exists 0. split; [constructor|].
    unfold deaths, f_start. cbn [f_dead]. assert (E : forall l : list nat, filter (fun _ => false) l = []) by (induction l; auto). rewrite E. auto.
  - destruct (IHfruns eq_refl) as [D [j [HE Hk]]]. split; [eapply fstep_dead_ok; eauto|].
    destruct H0; cbn [f_tr f_X f_dead] in *.
    + exists (j + 1). split; [|lia]. eapply mrun_app; [exact HE|]. apply mrun_one; auto.
    + exists j. split; [auto|]. rewrite deaths_upd by auto. lia.
Qed.

(** ** Nobody returns *)

Definition done (p : proc (msg A) (event A) (st (A := A))) : Prop := exists x, p = Ret x.

Lemma bstep_barred : forall l (X X' : state A), bstep _ _ _ n l X = Some X' ->
  (forall r, r < n -> barred (pr X r) \/ done (pr X r)) -> forall r, r < n -> barred (pr X' r) \/ done (pr X' r).
Proof.
  intros l X X' H I r Hr. destruct l as [q|]; unfold bstep in H.
  - destruct (Nat.ltb_spec q n); [|discriminate].
    assert (U : forall p, (barred (pr X q) -> barred p) -> (done (pr X q) -> False) ->
                barred (upd (pr X) q p r) \/ done (upd (pr X) q p r)).
    { intros p Hp Hd. unfold upd. destruct (Nat.eqb_spec r q); [subst|apply I; auto].
      left. destruct (I q Hr); [auto|contradiction]. }
    assert (ND : forall p, (forall x, pr X q = p -> p <> Ret x) -> pr X q = p -> done (pr X q) -> False).
    { intros p Hp E [x Hx]. rewrite Hx in E. apply (Hp x); congruence. }
    destruct (pr X q) eqn:E; try discriminate H.
    + destruct (Nat.ltb dst n); inversion H; subst; cbn [pr]; apply U; auto; try (intros [x Hx]; discriminate).
      intros _; exact Logic.I.
    + destruct (ch X src q (Some tag)); inversion H; subst; cbn [pr]; apply U; cbn [barred]; auto; intros [x Hx]; discriminate.
    + destruct (Nat.eqb q root); [|destruct (ch X root q None)]; inversion H; subst; cbn [pr]; apply U; cbn [barred]; auto; intros [x Hx]; discriminate.
    + inversion H; subst; cbn [pr]; apply U; cbn [barred]; auto; intros [x Hx]; discriminate.
  - destruct (all_at_barrier _ _ _ n X) eqn:E; inversion H; subst. cbn [pr].
    rewrite (proj2 (Nat.ltb_lt r n) Hr).
    pose proof (proj1 (forallb_forall _ _) E r (proj2 (in_seq n 0 r) ltac:(lia))) as B; cbv beta in B.
    destruct (I r Hr) as [Ir|[x Hx]]; [|rewrite Hx in B; discriminate].
    destruct (pr X r); try discriminate B. exact Ir.
Qed.

(** once some rank has returned, nothing makes another one return: the last barrier is behind all *)
Lemma bstep_after : forall l (X X' : state A), bstep _ _ _ n l X = Some X' ->
  forall q, q < n -> done (pr X q) -> forall r, r < n -> barred (pr X r) -> barred (pr X' r) /\ done (pr X' q).
Proof.
  intros l X X' H q Hq [x Hx] r Hr I. destruct l as [s|]; unfold bstep in H.
  - destruct (Nat.ltb_spec s n); [|discriminate].
    assert (Nsq : s <> q) by (intros ->; rewrite Hx in H; discriminate).
    assert (K : forall p c g, X' = mkCfg (upd (pr X) s p) c g -> (barred (pr X s) -> barred p) ->
                barred (pr X' r) /\ done (pr X' q)).
    { intros p c g -> Hp. cbn [pr]. split.
      - unfold upd. destruct (Nat.eqb_spec r s); subst; auto.
      - unfold upd. destruct (Nat.eqb_spec q s); [congruence|]. exists x; auto. }
    destruct (pr X s) eqn:E; try discriminate H.
    + destruct (Nat.ltb dst n); inversion H; subst; eapply K; try reflexivity; cbn [barred]; auto.
    + destruct (ch X src s (Some tag)); inversion H; subst; eapply K; try reflexivity; cbn [barred]; auto.
    + destruct (Nat.eqb s root); [|destruct (ch X root s None)]; inversion H; subst; eapply K; try reflexivity; cbn [barred]; auto.
    + inversion H; subst; eapply K; try reflexivity; cbn [barred]; auto.
  - destruct (all_at_barrier _ _ _ n X) eqn:E; inversion H; subst.
    pose proof (proj1 (forallb_forall _ _) E q (proj2 (in_seq n 0 q) ltac:(lia))) as B; cbv beta in B. rewrite Hx in B. discriminate.
Qed.

Lemma brun_after : forall ls (X X' : state A), brun _ _ _ n ls X = Some X' ->
  forall q, q < n -> done (pr X q) -> forall r, r < n -> barred (pr X r) -> barred (pr X' r).
Proof.
  induction ls as [|l ls IH]; intros X X' H q Hq D r Hr B; simpl in H.
  - inversion H; subst; auto.
  - destruct (bstep _ _ _ n l X) eqn:E; [|discriminate].
    destruct (bstep_after _ _ _ E q Hq D r Hr B) as [B' D']. exact (IH _ _ H q Hq D' r Hr B').
Qed.

Lemma brun_inv : forall ls (X X' : state A), brun _ _ _ n ls X = Some X' ->
  (forall r, r < n -> barred (pr X r) \/ done (pr X r)) -> forall r, r < n -> barred (pr X' r) \/ done (pr X' r).
Proof.
  induction ls as [|l ls IH]; intros X X' H I; simpl in H.
  - inversion H; subst; auto.
  - destruct (bstep _ _ _ n l X) eqn:E; [|discriminate]. eapply IH; [exact H|]. eapply bstep_barred; eauto.
Qed.

Hypothesis HL : Legal S.

(** as soon as one rank has returned from main, all have finished writing and returned *)
Lemma return_together : forall k tr X, execution S k tr X -> forall q, q < n -> done (pr X q) -> complete S X.
Proof.
  intros k tr X HE q Hq D r Hr.
  destruct (mstar_run _ _ _ _ (mrun_mstar _ _ _ _ _ HE)) as [ls [_ R]].
  assert (I : forall r, r < n -> barred (pr X r) \/ done (pr X r)).
  { eapply brun_inv; [exact R|]. intros r' Hr'. left. unfold initial, start. cbn [pr].
    rewrite (proj2 (Nat.ltb_lt r' n) Hr'). apply barred_main. }
  destruct (I r Hr) as [B|B]; [|exact B]. exfalso.
  destruct (no_deadlock S HL) as [N HN]. destruct (HN k tr X HE) as [_ [_ [k' [tr' [Y [HY HC]]]]]].
  destruct (mstar_run _ _ _ _ (mrun_mstar _ _ _ _ _ HY)) as [ls' [_ R']].
  pose proof (brun_after _ _ _ R' q Hq D r Hr B) as B'. destruct (HC r Hr) as [x Hx]. rewrite Hx in B'. exact B'.
Qed.

Lemma no_success : forall k F, fruns k f_start F -> forall r, f_dead F r = true ->
  forall q, q < n -> forall x, pr (f_X F) q <> Ret x.
Proof.
  intros k F H r Hr q Hq x E. destruct (faulty_exec k F H) as [D [j [HE _]]].
  destruct (D r Hr) as [Lr [e [p Hp]]].
  destruct (return_together _ _ _ HE q Hq (ex_intro _ x E) r Lr) as [y Hy]. congruence.
Qed.

Lemma faulty_bound : exists N, forall k F, fruns k f_start F -> k <= N.
Proof.
  destruct (no_deadlock S HL) as [N HN]. exists (N + n). intros k F H.
  destruct (faulty_exec k F H) as [_ [j [HE ->]]]. destruct (HN _ _ _ HE) as [Hj _].
  pose proof (deaths_le (f_dead F)). lia.
Qed.

Lemma reaches_stuck : forall k F, fruns k f_start F -> exists j F', fruns j F F' /\ stuck F'.
Proof.
  destruct faulty_bound as [N HN]. intros k F H.
  assert (K : forall m k F, fruns k f_start F -> N - k <= m -> exists j F', fruns j F F' /\ stuck F').
  { induction m as [|m IH]; intros k' G HG Hm.
    - exists 0, G. split; [constructor|]. intros G' Hs.
      pose proof (HN _ _ (fr_step _ _ _ _ HG Hs)). lia.
    - destruct (classic (stuck G)) as [St|Ns]; [exists 0, G; split; [constructor|auto]|].
      apply not_all_ex_not in Ns. destruct Ns as [G' Hs]. apply NNPP in Hs.
      pose proof (fr_step _ _ _ _ HG Hs) as HG'. pose proof (HN _ _ HG').
      destruct (IH _ _ HG' ltac:(lia)) as [j [F' [H1 H2]]]. exists (1 + j), F'. split; [|auto].
      eapply fruns_trans; [|exact H1]. eapply fr_step; [apply fr_refl|exact Hs]. }
  eapply (K N); eauto. lia.
Qed.

Lemma dead_stays : forall k F F', fruns k F F' -> forall r, f_dead F r = true -> f_dead F' r = true.
Proof.
  induction 1; intros r Hr; auto. specialize (IHfruns r Hr). destruct H0; cbn [f_dead] in *; auto.
  unfold upd. destruct (Nat.eqb r r0); auto.
Qed.

(** the program moves only where a log grows if that rank's process moves *)
Lemma mstep_log : forall X X' : state A, mstep X X' -> forall r, lg X' r = lg X r \/
  exists e q, pr X r = Out e q /\ pr X' r = q /\ lg X' r = lg X r ++ [e].
Proof.
  intros X X' H r. destruct H; cbn [lg]; auto. destruct l as [s|]; unfold bstep in H.
  - destruct (Nat.ltb s n); [|discriminate]. destruct (pr c s) eqn:E; try discriminate H.
    + destruct (Nat.ltb dst n); inversion H; auto.
    + destruct (ch c src s (Some tag)); inversion H; auto.
    + destruct (Nat.eqb s root); [|destruct (ch c root s None)]; inversion H; auto.
    + inversion H; subst; cbn [lg pr]. unfold upd. destruct (Nat.eqb_spec r s); subst; auto. right. eexists; eexists; eauto.
  - destruct (all_at_barrier _ _ _ n c); inversion H; auto.
Qed.

Lemma out_neq : forall (e : event A) (q : proc (msg A) (event A) (st (A := A))), Out e q <> q.
Proof. intros e q E. revert e E. induction q; intros e' E; try discriminate. injection E as <- E. eauto. Qed.

(** a rank that has left writes nothing more *)
Lemma dead_silent : forall k F F', fruns k F F' -> forall r, f_dead F r = true ->
  gproj r (f_tr F') = gproj r (f_tr F).
Proof.
  induction 1; intros r Hr; auto. rewrite <- (IHfruns r Hr). pose proof (dead_stays _ _ _ H r Hr) as Hd.
  destruct H0; cbn [f_tr f_dead] in *; auto. rewrite gproj_app.
  destruct (mstep_log _ _ H0 r) as [E|[a [q [E1 [E2 E3]]]]].
  - assert (gproj r e = []); [|rewrite H4, app_nil_r; auto].
    specialize (H3 r). rewrite E in H3. rewrite <- (app_nil_r (lg X r)) in H3 at 1. apply app_inv_head in H3. auto.
  - exfalso. rewrite (H1 r Hd), E1 in E2. eapply out_neq; eauto.
Qed.

(** any record of any run can be the one that fails *)
Lemma exec_faulty : forall k tr X, mrun n (initial S) k tr X -> forall a r e b, tr = a ++ (r, e) :: b ->
  exists j Y q, mrun n (initial S) j a Y /\ pr Y r = Out e q.
Proof.
  assert (K : forall (c : state A) k tr (c' : state A), mrun n c k tr c' -> forall a r e b, tr = a ++ (r, e) :: b ->
     exists j (Y : state A) q, mrun n c j a Y /\ pr Y r = Out e q).
  { induction 1; intros a r e' b E.
    - destruct a; discriminate.
    - destruct e as [|[s f] [|]]; simpl in H0; [| |lia].
      + simpl in E. destruct (IHmrun a r e' b E) as [j [Y [q [H4 H5]]]]. exists (Datatypes.S j), Y, q. split; auto.
        change a with ([] ++ a). econstructor; eauto.
      + destruct a as [|y a]; simpl in E; inversion E; subst.
        * exists 0, c. destruct (mstep_log _ _ H r) as [Eq|[a [q [E1 [E2 E3]]]]].
          -- exfalso. rewrite H1 in Eq. rewrite gproj_cons, Nat.eqb_refl in Eq. simpl in Eq.
             rewrite <- (app_nil_r (lg c r)) in Eq at 2. apply app_inv_head in Eq. discriminate.
          -- exists q. split; [constructor|]. rewrite H1 in E3. rewrite gproj_cons, Nat.eqb_refl in E3. simpl in E3.
             apply app_inv_head in E3. inversion E3; subst. auto.
        * destruct (IHmrun a r e' b eq_refl) as [j [Y [q [H4 H5]]]]. exists (Datatypes.S j), Y, q. split; auto.
          change ((s, f) :: a) with ([(s, f)] ++ a). econstructor; eauto. }
  intros k tr X H. exact (K _ _ _ _ H).
Qed.

Lemma mrun_fruns : forall X k tr Y, mrun n X k tr Y -> forall t0, 
  fruns k (mkF t0 X (fun _ => false)) (mkF (t0 ++ tr) Y (fun _ => false)).
Proof.
  induction 1; intros t0.
  - rewrite app_nil_r. constructor.
  - change (Datatypes.S k) with (1 + k). rewrite app_assoc.
    apply (fruns_trans 1 _ (mkF (t0 ++ e) c' (fun _ => false))); [|apply IHmrun].
    eapply fr_step; [apply fr_refl|]. apply f_move; auto. intros; discriminate.
Qed.

Lemma can_fail_at : forall k tr X, execution S k tr X -> forall a r e b, tr = a ++ (r, e) :: b -> r < n -> e <> EvDir ->
  exists j F, fruns j f_start F /\ f_tr F = a /\ f_dead F r = true /\ (forall q, q <> r -> f_dead F q = false).
Proof.
  intros k tr X HE a r e b E Hr He. destruct (exec_faulty _ _ _ HE a r e b E) as [j [Y [q [H1 H2]]]].
  exists (Datatypes.S j), (mkF a Y (upd (fun _ => false) r true)). split; [|split; [auto|split]].
  - eapply fr_step; [exact (mrun_fruns _ _ _ _ H1 [])|]. eapply f_exit; eauto.
  - cbn [f_dead]. apply upd_eq.
  - intros s Hs. cbn [f_dead]. apply upd_ne. auto.
Qed.
End F.
