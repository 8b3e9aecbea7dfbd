(** Runs in which no result file can be opened, because the results directory could not be made:
    make_dir (readin.c:390-404) takes any failure of mkdir for a directory that exists. *)
From Coq Require Import ZArith Arith List Bool Lia FunctionalExtensionality.
From Verif Require Import Base Arith Rand Mh Ladder Tune Mpi MpiMeta Spmd Prog Seq ListAux MhSpec SeqWf Refine SeqTotal
  System Runs SchedLemmas Faults.
Import ListNotations.
Local Open Scope nat_scope.

Definition is_dir {A} (e : event A) : bool := match e with EvDir => true | _ => false end.
Lemma is_dir_ok : forall A (e : event A), is_dir e = true <-> e = EvDir.
Proof. intros A e. destruct e; cbn; split; intros; auto; discriminate. Qed.

(** ** processes cut at their first append *)
Section Cut.
Context {A : Arith}.
Notation proc := (proc (msg A) (event A)).

Fixpoint cutp {X} (p : proc X) : proc (option X) :=
  match p with
  | Ret x => Ret (Some x)
  | Send d t m k => Send d t m (cutp k)
  | Recv s t k => Recv s t (fun m => cutp (k m))
  | Bcast r m k => Bcast r m (fun m => cutp (k m))
  | Barrier k => Barrier (cutp k)
  | Out e k => if is_dir e then Out e (cutp k) else Ret None
  | Fail e => Fail e
  end.

Definition after {X Y} (f : X -> proc Y) (o : option X) : proc (option Y) :=
  match o with Some x => cutp (f x) | None => Ret None end.

Lemma cutp_bind : forall {X Y} (p : proc X) (f : X -> proc Y), cutp (pbind p f) = pbind (cutp p) (after f).
Proof.
  induction p; intros f; cbn [pbind cutp]; auto; try (rewrite IHp; reflexivity);
    try (f_equal; apply functional_extensionality; intros; auto; fail).
  destruct (is_dir e); cbn [pbind]; [rewrite IHp|]; reflexivity.
Qed.
Lemma cutp_plift : forall {X} (x : X), cutp (plift (OK x)) = Ret (Some x).
Proof. reflexivity. Qed.
Lemma cutp_send_list : forall {X} l (k : proc X), cutp (send_list l k) = send_list l (cutp k).
Proof. induction l as [|[d [t m]] l IH]; intros k; simpl; auto. rewrite IH. reflexivity. Qed.
Lemma cutp_feeds : forall {X} (p p' : proc X) l, feeds p l p' -> feeds (cutp p) l (cutp p').
Proof. induction 1; cbn [cutp]; constructor; auto. Qed.

(** ** configurations *)
Section Sim.
Context {X : Type}.
Variable n : nat.
Notation cfg := (cfg (msg A) (event A)).
Definition cutc (c : cfg X) : cfg (option X) := mkCfg (fun r => cutp (pr c r)) (ch c) (lg c).

Lemma cut_upd : forall (f : nat -> proc X) r p, (fun q => cutp (upd f r p q)) = upd (fun q => cutp (f q)) r (cutp p).
Proof. intros. apply functional_extensionality; intros q. unfold upd. destruct (Nat.eqb q r); auto. Qed.
Lemma cut_bar : forall p : proc X, at_barrier _ _ _ (cutp p) = at_barrier _ _ _ p.
Proof. destruct p; cbn [cutp]; auto. destruct (is_dir e); auto. Qed.
Lemma cut_past : forall p : proc X, at_barrier _ _ _ p = true -> past_barrier _ _ _ (cutp p) = cutp (past_barrier _ _ _ p).
Proof. destruct p; cbn; intros; auto; discriminate. Qed.
Lemma cut_all : forall c : cfg X, all_at_barrier _ _ _ n (cutc c) = all_at_barrier _ _ _ n c.
Proof.
  intros c. unfold all_at_barrier. assert (K : forall l, forallb (fun r => at_barrier _ _ _ (pr (cutc c) r)) l = forallb (fun r => at_barrier _ _ _ (pr c r)) l).
  { induction l as [|r l IH]; cbn [forallb]; auto. rewrite IH. cbn [cutc pr]. rewrite cut_bar. reflexivity. }
  apply K.
Qed.

Lemma cut_bstep : forall l (c c' : cfg X), bstep _ _ _ n l c = Some c' ->
  (forall r e q, l = LRank r -> pr c r = Out e q -> e = EvDir) -> bstep _ _ _ n l (cutc c) = Some (cutc c').
Proof.
  intros l c c' H HD. destruct l as [r|]; unfold bstep in *.
  - destruct (Nat.ltb r n); [|discriminate]. cbn [cutc pr ch lg]. destruct (pr c r) eqn:E; try discriminate H; cbn [cutp].
    + destruct (Nat.ltb dst n); inversion H; subst; unfold cutc; cbn [pr ch lg]; rewrite cut_upd; reflexivity.
    + destruct (ch c src r (Some tag)); inversion H; subst; unfold cutc; cbn [pr ch lg]; rewrite cut_upd; reflexivity.
    + destruct (Nat.eqb r root); [|destruct (ch c root r None)]; inversion H; subst; unfold cutc; cbn [pr ch lg]; rewrite cut_upd; reflexivity.
    + rewrite (HD r e p eq_refl E). cbn [is_dir]. inversion H; subst; unfold cutc; cbn [pr ch lg]; rewrite cut_upd.
      rewrite (HD r e p eq_refl E). reflexivity.
  - rewrite cut_all. destruct (all_at_barrier _ _ _ n c) eqn:E; inversion H; subst. f_equal. unfold cutc. cbn [pr ch lg]. f_equal.
    apply functional_extensionality; intros r. destruct (Nat.ltb_spec r n); auto. apply cut_past.
    exact (proj1 (forallb_forall _ _) E r (proj2 (in_seq n 0 r) ltac:(lia))).
Qed.

Lemma cut_mstep : forall c c' : cfg X, mstep _ _ _ n c c' ->
  (forall r, lg c' r = lg c r \/ lg c' r = lg c r ++ [EvDir]) -> mstep _ _ _ n (cutc c) (cutc c').
Proof.
  intros c c' H HD. destruct H.
  - apply (m_eager _ _ _ _ l). apply cut_bstep; auto. intros r e q -> E. specialize (HD r). unfold bstep in H.
    destruct (Nat.ltb r n); [|discriminate]. rewrite E in H. inversion H; subst. cbn [lg] in HD. rewrite upd_eq in HD.
    destruct HD as [K|K]; [rewrite <- (app_nil_r (lg c r)) in K at 2|]; apply app_inv_head in K; [discriminate|].
    inversion K. reflexivity.
  - unfold cutc. cbn [pr ch lg]. rewrite cut_upd, cut_upd.
    exact (m_rendezvous (msg A) (event A) (option X) n (cutc c) s d t m (cutp k) (fun x => cutp (k' x)) H H0 H1
      ltac:(cbn [cutc pr]; rewrite H2; reflexivity) ltac:(cbn [cutc pr]; rewrite H3; reflexivity) H4).
  - assert (K : cutc (mkCfg (fun r => if Nat.ltb r n then km r else pr c r) (ch c) (lg c)) =
      mkCfg (fun r => if Nat.ltb r n then cutp (km r) else pr (cutc c) r) (ch (cutc c)) (lg (cutc c))).
    { unfold cutc. cbn [pr ch lg]. f_equal. apply functional_extensionality; intros r. destruct (Nat.ltb r n); auto. }
    rewrite K.
    apply (m_joint (msg A) (event A) (option X) n (cutc c) root m (fun r => cutp (km r)) (fun r x => cutp (kk r x)) mm); auto.
    + intros r Hr. cbn [cutc pr]. rewrite H0 by auto. reflexivity.
    + intros r Hr. cbv beta. rewrite H2 by auto. reflexivity.
Qed.

(** the other direction *)
Lemma uncut_send : forall (p : proc X) d t m k, cutp p = Send d t m k -> exists k0, p = Send d t m k0 /\ k = cutp k0.
Proof. destruct p; cbn [cutp]; intros; try discriminate; [inversion H; eauto|destruct (is_dir e); discriminate]. Qed.
Lemma uncut_recv : forall (p : proc X) s t k, cutp p = Recv s t k -> exists k0, p = Recv s t k0 /\ k = fun m => cutp (k0 m).
Proof. destruct p; cbn [cutp]; intros; try discriminate; [inversion H; eauto|destruct (is_dir e); discriminate]. Qed.
Lemma uncut_bcast : forall (p : proc X) r m k, cutp p = Bcast r m k -> exists k0, p = Bcast r m k0 /\ k = fun m => cutp (k0 m).
Proof. destruct p; cbn [cutp]; intros; try discriminate; [inversion H; eauto|destruct (is_dir e); discriminate]. Qed.
Lemma uncut_out : forall (p : proc X) e k, cutp p = Out e k -> exists k0, p = Out e k0 /\ e = EvDir /\ k = cutp k0.
Proof. destruct p; cbn [cutp]; intros; try discriminate. destruct (is_dir e) eqn:E; [|discriminate]. inversion H; subst. apply is_dir_ok in E. eauto. Qed.
Lemma uncut_none : forall p : proc X, cutp p = Ret None -> exists e k, p = Out e k /\ e <> EvDir.
Proof. destruct p; cbn [cutp]; intros; try discriminate. destruct (is_dir e) eqn:E; [discriminate|]. exists e, p. split; auto. intros ->. discriminate. Qed.

Lemma uncut_bstep : forall l (c : cfg X) y, bstep _ _ _ n l (cutc c) = Some y -> exists c', bstep _ _ _ n l c = Some c' /\ y = cutc c' /\
  (forall r, lg c' r = lg c r \/ lg c' r = lg c r ++ [EvDir]).
Proof.
  intros l c y H. destruct l as [r|]; unfold bstep in *.
  - destruct (Nat.ltb r n); [|discriminate]. cbn [cutc pr ch lg] in H. destruct (cutp (pr c r)) eqn:E; try discriminate H.
    + apply uncut_send in E. destruct E as [k0 [E ->]]. rewrite E.
      destruct (Nat.ltb dst n); inversion H; subst; eexists; (split; [reflexivity|]); unfold cutc; cbn [pr ch lg]; rewrite cut_upd; auto.
    + apply uncut_recv in E. destruct E as [k0 [E ->]]. rewrite E.
      destruct (ch c src r (Some tag)); inversion H; subst; eexists; (split; [reflexivity|]); unfold cutc; cbn [pr ch lg]; rewrite cut_upd; auto.
    + apply uncut_bcast in E. destruct E as [k0 [E ->]]. rewrite E.
      destruct (Nat.eqb r root); [|destruct (ch c root r None)]; inversion H; subst; eexists; (split; [reflexivity|]); unfold cutc; cbn [pr ch lg]; rewrite cut_upd; auto.
    + apply uncut_out in E. destruct E as [k0 [E [-> ->]]]. rewrite E. inversion H; subst. eexists. split; [reflexivity|].
      unfold cutc; cbn [pr ch lg]; rewrite cut_upd. split; auto. intros q. unfold upd. destruct (Nat.eqb_spec q r); subst; auto.
  - rewrite cut_all in H. destruct (all_at_barrier _ _ _ n c) eqn:E; inversion H; subst. eexists. split; [reflexivity|]. split; [|auto].
    unfold cutc. cbn [pr ch lg]. f_equal. apply functional_extensionality; intros r. destruct (Nat.ltb_spec r n); auto. apply cut_past.
    exact (proj1 (forallb_forall _ _) E r (proj2 (in_seq n 0 r) ltac:(lia))).
Qed.

Lemma uncut_mstep : forall (c : cfg X) y, mstep _ _ _ n (cutc c) y -> exists c', mstep _ _ _ n c c' /\ y = cutc c' /\
  (forall r, lg c' r = lg c r \/ lg c' r = lg c r ++ [EvDir]).
Proof.
  intros c y H. inversion H; subst.
  - destruct (uncut_bstep _ _ _ H0) as [c' [H1 [-> H2]]]. exists c'. split; [eapply m_eager; eauto|auto].
  - cbn [cutc pr ch lg] in *. apply uncut_send in H3. destruct H3 as [k0 [E1 ->]]. apply uncut_recv in H4. destruct H4 as [k1 [E2 ->]].
    exists (mkCfg (upd (upd (pr c) s k0) d (k1 m)) (ch c) (lg c)). split; [exact (m_rendezvous (msg A) (event A) X n c s d t m k0 k1 H0 H1 H2 E1 E2 H5)|]. split; [|cbn [lg]; auto]. unfold cutc. cbn [pr ch lg]. rewrite cut_upd, cut_upd. reflexivity.
  - cbn [cutc pr ch lg] in *.
    assert (K : exists kk0 : nat -> msg A -> proc X, forall r, r < n -> pr c r = Bcast root (mm r) (kk0 r) /\ forall m, kk r m = cutp (kk0 r m)).
    { exists (fun r => match pr c r with Bcast _ _ k => k | _ => fun _ => Fail NoSuchRank end). intros r Hr.
      destruct (uncut_bcast _ _ _ _ (H1 r Hr)) as [k0 [E Ek]]. rewrite E. split; auto. intros m. rewrite Ek. reflexivity. }
    destruct K as [kk0 K]. 
    exists (mkCfg (fun r => if Nat.ltb r n then kk0 r (mm root) else pr c r) (ch c) (lg c)). split; [|split; [|auto]].
    + eapply (m_joint (msg A) (event A) X n c root (mm root) (fun r => kk0 r (mm root)) kk0 mm); auto. intros r Hr. apply K; auto.
    + unfold cutc. cbn [pr ch lg]. f_equal. apply functional_extensionality; intros r. destruct (Nat.ltb_spec r n); auto.
      rewrite H3 by auto. apply K; auto.
Qed.
End Sim.
End Cut.

(** ** the program *)
Section Prog.
Context {A : Arith}.
Variable S : Setup A.
Notation n := (s_n S).
Notation C := (s_cfg S).
Notation U := (s_user S).
Notation E := (s_env S).
Hypothesis HL : Legal S.

Lemma ev_cut_bcast : forall (F : Type) {Y} (own : nat -> res (msg A)) (k : msg A -> res Y) m y, (0 < n)%nat ->
  (forall r, own r = if is_root r then OK m else own r) -> (forall r, exists v, own r = OK v) -> k m = OK y ->
  ev (F := F) n (fun r => cutp (o <- plift (own r);; Bcast root o (fun x => plift (k x)))) (fun _ => Some y) (fun _ => []).
Proof.
  intros F Y own k m y Hn H0 Hr Hk.
  assert (K : exists mm : nat -> msg A, forall r, own r = OK (mm r)).
  { exists (fun r => match own r with OK v => v | _ => m end). intros r. destruct (Hr r) as [v ->]. reflexivity. }
  destruct K as [mm K].
  eapply ev_ext; [| reflexivity | reflexivity | apply (ev_bcast n mm (fun r x => cutp (plift (k x))) (fun _ => Some y)); [exact Hn|]].
  - intros r _. cbv beta. rewrite K. reflexivity.
  - assert (Em : mm 0%nat = m) by (specialize (K 0%nat); rewrite H0 in K; cbn in K; congruence).
    eapply ev_ext; [| reflexivity | reflexivity | apply ev_ret]. intros r _. cbv beta. rewrite Em, Hk. reflexivity.
Qed.

Lemma ev_cut_bind : forall (F : Type) {X Y} (f : nat -> proc (msg A) (event A) X) (g : nat -> X -> proc (msg A) (event A) Y) x y e1 e2,
  ev (F := F) n (fun r => cutp (f r)) (fun r => Some (x r)) e1 -> ev (F := F) n (fun r => cutp (g r (x r))) y e2 ->
  ev (F := F) n (fun r => cutp (pbind (f r) (g r))) y (fun r => e1 r ++ e2 r).
Proof.
  intros F X Y f g x y e1 e2 H1 H2.
  assert (K : (fun r => cutp (pbind (f r) (g r))) = (fun r => pbind (cutp (f r)) (after (g r)))) by (apply functional_extensionality; intros r; apply cutp_bind).
  rewrite K. exact (ev_bind n (fun r => cutp (f r)) (fun r => after (g r)) _ y e1 e2 H1 H2).
Qed.
Lemma ev_cut_stop : forall (F : Type) {X Y} (f : nat -> proc (msg A) (event A) X) (g : nat -> X -> proc (msg A) (event A) Y) e1,
  ev (F := F) n (fun r => cutp (f r)) (fun r => None) e1 ->
  ev (F := F) n (fun r => cutp (pbind (f r) (g r))) (fun _ => None) (fun r => e1 r ++ []).
Proof.
  intros F X Y f g e1 H1.
  assert (K : (fun r => cutp (pbind (f r) (g r))) = (fun r => pbind (cutp (f r)) (after (g r)))) by (apply functional_extensionality; intros r; apply cutp_bind).
  rewrite K. apply (ev_bind n (fun r => cutp (f r)) (fun r => after (g r)) (fun _ => None) (fun _ => None) e1 (fun _ => []) H1). apply ev_ret.
Qed.

Lemma ev_cut_gen : forall F : Type, (0 <= init_rand_seed C < UINT_MOD)%Z ->
  ev (F := F) n (fun r => cutp (mpi_gen_init_parm C U n r (first_seed C E))) (fun _ => None) (fun _ => []).
Proof.
  intros F Hseed. pose proof HL as [_ [VC [VU VE]]]. pose proof (vc_n _ _ VC) as Hn.
  pose proof (first_seed_range C E Hseed) as Hfs.
  set (s0 := first_seed C E) in *.
  apply (ev_scatter n (fun i => [(100%nat, MI [N_parm C]); (101%nat, MU (u32 (s0 + zr i)))]) (slaves n) _ (fun r => Ret None)).
  - apply slaves_nodup.
  - apply slaves_in.
  - unfold mpi_gen_init_parm. cbn [is_root root Nat.eqb]. rewrite slaves_seq by lia.
    pose proof (seeds_send C n Hn (n - 1) 0 s0 Hfs) as P. cbv zeta in P.
    replace (u32 (s0 + Z.of_nat 0)) with s0 in P by (rewrite u32_small; lia).
    cbv zeta. rewrite P. rewrite pbind_send_list, cutp_send_list. reflexivity.
  - intros r Hr. unfold mpi_gen_init_parm. rewrite (root_slave n Hn r Hr). cbn [cutp].
    constructor. cbn [as_int plift pbind cutp]. constructor. cbn [as_uns plift pbind cutp is_dir]. constructor.
  - apply ev_ret.
Qed.

Lemma ev_cut_main : forall F : Type,
  ev (F := F) n (fun r => cutp (main C U n E (s_ndim S) r)) (fun _ => None) (at0 [EvDir] []).
Proof.
  intros F. pose proof HL as [_ [VC [VU VE]]]. pose proof (vc_n _ _ VC) as Hn.
  destruct (ve_lines _ _ VE) as [nl [arr [E1 [E2 E3]]]]. pose proof (ve_data _ _ VE) as HD.
  unfold main.
  assert (L : at0 [EvDir] [] = (fun r => at0 [@EvDir A] [] r ++ (([] ++ ([] ++ ([] ++ [])))))).
  { apply functional_extensionality; intros r. symmetry. apply app_nil_r. }
  rewrite L. clear L.
  apply (ev_cut_bind F _ _ (fun _ => tt)).
  { eapply ev_ext; [| reflexivity | | apply (ev_pouts n (at0 [EvDir] []) (fun _ => Ret (Some tt)) (fun _ => Some tt) (fun _ => []))].
    - intros r Hr. destruct r; reflexivity.
    - intros r Hr. cbv beta. apply app_nil_r.
    - apply ev_ret. }
  apply (ev_cut_bind F _ _ (fun _ => nl) _ (fun _ => []) (fun _ => [] ++ [] ++ [])).
  { eapply ev_ext; [| reflexivity | reflexivity | apply (ev_cut_bcast F (fun r => if is_root r then OK (MI [nl]) else OK (MI [0%Z])) as_int (MI [nl]) nl)].
    - intros r _. unfold mpi_get_nlines. destruct (is_root r); [rewrite E1|]; reflexivity.
    - lia.
    - intros r. destruct (is_root r); reflexivity.
    - intros r. destruct (is_root r); eauto.
    - reflexivity. }
  rewrite i32_ok by auto. cbn [plift pbind].
  apply (ev_cut_bind F _ _ (fun _ => arr) _ (fun _ => []) (fun _ => [] ++ [])).
  { eapply ev_ext; [| reflexivity | reflexivity | apply (ev_cut_bcast F (fun r => if is_root r then OK (MD arr) else OK (MD [])) (as_dbls (nl * s_ndim S)) (MD arr) arr)].
    - intros r _. unfold mpi_data_loader. destruct (is_root r); [rewrite E3|]; reflexivity.
    - lia.
    - intros r. destruct (is_root r); reflexivity.
    - intros r. destruct (is_root r); eauto.
    - apply as_dbls_ok. exact (HD _ _ E3). }
  cbv zeta. apply ev_cut_stop. apply ev_cut_gen. apply (vc_seed _ _ VC).
Qed.

Notation CX := (option (st (A := A))).
Notation mstar := (mstar (msg A) (event A) CX n).
Lemma mstar_snoc : forall c k c' c'', mstar c k c' -> Mpi.mstep (msg A) (event A) CX n c' c'' -> mstar c (Datatypes.S k) c''.
Proof. intros c k c' c'' H. induction H; intros H2; econstructor; eauto. constructor. Qed.

(** no record but that of the directory *)
Definition nothing (F : fstate (A := A)) : Prop := forall x, In x (f_tr F) -> snd x = EvDir.

Lemma fstep_trace : forall F F', fstep S F F' -> exists e, f_tr F' = f_tr F ++ e.
Proof. intros F F' H. destruct H; cbn [f_tr]; [eauto|exists []; rewrite app_nil_r; auto]. Qed.

Lemma cut_run : forall k F, fruns S k (f_start S) F -> nothing F ->
  (forall r, f_dead F r = true -> r < n /\ exists e q, pr (f_X F) r = Out e q /\ e <> EvDir) /\
  exists j, mstar (cutc (initial S)) j (cutc (f_X F)) /\ k = j + deaths S (f_dead F).
Proof.
  intros k F H. remember (f_start S) as F0. induction H; intros HN; subst.
  - split; [intros r Hr; discriminate|]. exists 0. split; [constructor|].
    unfold deaths, f_start. cbn [f_dead]. assert (Z : forall l : list nat, filter (fun _ => false) l = []) by (induction l; auto). rewrite Z. auto.
  - destruct (fstep_trace _ _ H0) as [e0 Ee].
    assert (HN' : nothing F') by (intros x Hx; apply HN; rewrite Ee; apply in_or_app; auto).
    destruct (IHfruns eq_refl HN') as [D [j [HM Hk]]]. destruct H0; cbn [f_tr f_X f_dead] in *.
    + split; [intros r Hr; rewrite H1 by auto; exact (D r Hr)|]. exists (Datatypes.S j). split; [|lia].
      eapply mstar_snoc; [exact HM|]. apply cut_mstep; [exact H0|]. intros r. rewrite H3.
      destruct e as [|[q a] [|]]; [left; apply app_nil_r| |cbn in H2; lia].
      rewrite gproj_cons. destruct (Nat.eqb q r); [|left; apply app_nil_r]. right. f_equal. cbn.
      f_equal. exact (HN (q, a) ltac:(cbn [f_tr]; apply in_or_app; right; left; reflexivity)).
    + split; [|exists j; split; [exact HM|rewrite deaths_upd by auto; lia]].
      intros q' Hq'. unfold upd in Hq'. destruct (Nat.eqb_spec q' r); [subst; eauto|exact (D q' Hq')].
Qed.

Lemma cut_schedules : exists d, (forall r, r < n -> pr d r = Ret None) /\ exists N, forall k X, mstar (cutc (initial S)) k X ->
  k <= N /\ (finished _ _ _ n X \/ exists X', Mpi.mstep (msg A) (event A) CX n X X') /\ (finished _ _ _ n X -> X = d).
Proof.
  pose proof HL as [_ [VC _]]. pose proof (vc_n _ _ VC) as Hn.
  pose proof (ev_cut_main CX (fun _ => Ret) (fun _ => [])) as R.
  set (a := SYS n _ _) in R. set (d := SYS n _ _) in R.
  assert (Ea : inj a = cutc (initial S)).
  { unfold a, SYS, inj, cutc, initial, start. cbn [pr ch lg spr slg]. f_equal. apply functional_extensionality; intros r.
    destruct (Nat.ltb r n); [apply pbind_ret|reflexivity]. }
  assert (Ed : forall r, r < n -> pr (inj d) r = Ret None).
  { intros r Hr. unfold d, SYS, inj. cbn [pr spr]. rewrite (proj2 (Nat.ltb_lt r n) Hr). reflexivity. }
  destruct (every_schedule n a d ltac:(lia) R) as [N HN].
  { intros r Hr. exists None. apply Ed; auto. }
  exists (inj d). split; [exact Ed|]. exists N. intros k X HX. rewrite <- Ea in HX.
  destruct (HN k X HX) as [K1 [K2 [_ [K3 _]]]]. split; auto. split; auto. destruct K2 as [K2|[X' K2]]; auto. right. exists X'. apply ustep_mstep. exact K2.
Qed.

Lemma out_moves : forall X X' : state A, Mpi.mstep _ _ _ n X X' -> forall r e q, pr X r = Out e q ->
  pr X' r = pr X r \/ lg X' r = lg X r ++ [e].
Proof.
  intros X X' H r e q E. destruct H; cbn [pr lg].
  - destruct l as [s|]; unfold bstep in H.
    + destruct (Nat.ltb s n); [|discriminate]. destruct (Nat.eq_dec r s) as [->|Ne].
      * rewrite E in H. inversion H; subst. cbn [lg]. rewrite upd_eq. auto.
      * left. destruct (pr c s); try discriminate H.
        -- destruct (Nat.ltb dst n); inversion H; cbn [pr]; apply upd_ne; auto.
        -- destruct (ch c src s (Some tag)); inversion H; cbn [pr]; apply upd_ne; auto.
        -- destruct (Nat.eqb s root); [|destruct (ch c root s None)]; inversion H; cbn [pr]; apply upd_ne; auto.
        -- inversion H; cbn [pr]; apply upd_ne; auto.
    + left. destruct (all_at_barrier _ _ _ n c) eqn:B; inversion H; cbn [pr]. destruct (Nat.ltb r n); auto. rewrite E. reflexivity.
  - left. rewrite !upd_ne; auto; intros ->; congruence.
  - left. destruct (Nat.ltb_spec r n); auto. rewrite H0 in E by auto. discriminate.
Qed.

Lemma no_directory : exists N, forall k F, fruns S k (f_start S) F -> nothing F ->
  k <= N /\ ((forall r, r < n -> f_dead F r = true) \/ exists F', fstep S F F' /\ nothing F').
Proof.
  destruct cut_schedules as [d [Hd [N HN]]]. exists (N + n). intros k F HF HNo.
  destruct (cut_run k F HF HNo) as [D [j [HM Hk]]]. destruct (HN _ _ HM) as [K1 [K2 K3]].
  split; [pose proof (deaths_le S (f_dead F)); lia|].
  destruct F as [tr X dead]. cbn [f_X f_dead f_tr] in *. destruct K2 as [K2|[Y K2]].
  - assert (O : forall r, r < n -> exists e q, pr X r = Out e q /\ e <> EvDir).
    { intros r Hr. apply uncut_none. rewrite <- (Hd r Hr). rewrite <- (K3 K2). reflexivity. }
    destruct (forallb dead (seq 0 n)) eqn:B.
    + left. intros r Hr. exact (proj1 (forallb_forall _ _) B r (proj2 (in_seq n 0 r) ltac:(lia))).
    + right. assert (Q : exists r, r < n /\ dead r = false).
      { clear -B. assert (G : forall l, forallb dead l = false -> exists r, In r l /\ dead r = false).
        { induction l as [|a l IH]; cbn; [discriminate|]. destruct (dead a) eqn:Ea; cbn; intros; [destruct (IH H) as [r [? ?]]; eauto|eauto]. }
        destruct (G _ B) as [r [Hr Hdr]]. apply in_seq in Hr. exists r. split; [lia|auto]. }
      destruct Q as [r [Hr Hdr]]. destruct (O r Hr) as [e [q [E1 E2]]].
      exists (mkF tr X (upd dead r true)). split; [eapply f_exit; eauto|exact HNo].
  - right. destruct (uncut_mstep n X Y K2) as [X' [M [_ LG]]].
    destruct (mstep_emits _ _ _ M) as [e [Le He]].
    exists (mkF (tr ++ e) X' dead). split.
    + apply f_move; auto. intros r Hr. destruct (D r Hr) as [Hrn [a [q [Eo Na]]]].
      destruct (out_moves _ _ M r a q Eo) as [Q|Q]; [exact Q|]. exfalso.
      destruct (LG r) as [Z|Z]; rewrite Z in Q; [rewrite <- (app_nil_r (lg X r)) in Q at 1|]; apply app_inv_head in Q; [discriminate|]. inversion Q. congruence.
    + intros x Hx. cbn [f_tr] in Hx. apply in_app_or in Hx. destruct Hx as [Hx|Hx]; [apply HNo; exact Hx|].
      destruct e as [|[q a] [|]]; [destruct Hx| |cbn in Le; lia]. destruct Hx as [<-|[]]. cbn [snd].
      specialize (He q). rewrite gproj_cons, Nat.eqb_refl in He. cbn in He. destruct (LG q) as [Z|Z]; rewrite Z in He; [rewrite <- (app_nil_r (lg X q)) in He at 1|];
        apply app_inv_head in He; [discriminate|]. inversion He. reflexivity.
Qed.
End Prog.
