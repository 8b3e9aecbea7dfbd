(** The order of the lines of init.randseed depends on the schedule: from every legal start there
    are two complete runs whose seed files differ. *)
From Coq Require Import ZArith Arith List Bool Lia FunctionalExtensionality Permutation.
From Verif Require Import Base Arith Rand Mh Ladder Tune Mpi MpiMeta Spmd Prog Seq ListAux MhSpec
  SeqWf Refine SeqTotal System.
Import ListNotations.
Open Scope Z_scope.

Section Race.
Context {A : Arith}.
Variable C : Cfg A.
Variable U : User A.
Variable n : nat.
Variable E : Env (A := A).
Variable ndim : Z.
Hypothesis RK : RandOK A.
Hypothesis VC : ValidCfg C n.
Hypothesis VU : ValidUser C U.
Hypothesis VE : ValidEnv E ndim.
Notation Fst := (st (A := A)).
Notation run := (mrun (msg := msg A) (event := event A) (F := Fst) n).
Notation proc := (proc (msg A) (event A)).
Notation start := (start C U n E ndim).
Notation ev := (ev (F := Fst) n).
Notation sstar := (sstar (msg A) (event A) Fst n).

Let Hn : (2 <= n)%nat := vc_n C n VC.

(** main after the data have been read *)
Definition tail (D : Data A) (me : nat) (x : list (list (num A)) * Z) : proc Fst :=
  let '(tr, g) := x in
  lp <- mpi_init_calc_logllpp C U n me D tr;;
  Barrier
   (let sig := u_gp U in
    Out (EvSigma me sig)
     (t <- mpi_gather_sigma C n me sig;;
      betas <- plift (copy_betas C n);;
      let s := mkSt (mkLoc g sig 0 0 betas)
                    (if is_root me then mkRoot tr lp t else noroot) in
      s' <- mpi_entire_flow C U n D me s;;
      Barrier (Ret s'))).

Definition front (me : nat) : proc (Data A) :=
  _ <- (if is_root me then Out EvDir (Ret tt) else Ret tt);;
  nl <- mpi_get_nlines E me;;
  sz <- plift (i32 (nl * ndim));;
  arr <- mpi_data_loader E me nl ndim;;
  Ret (mkData nl arr).

Lemma main_split : forall r, main C U n E ndim r =
  pbind (front r) (fun D => pbind (mpi_gen_init_parm C U n r (first_seed C E)) (tail D r)).
Proof.
  intros r. unfold main, front. rewrite pbind_assoc. f_equal. apply functional_extensionality; intro u.
  rewrite pbind_assoc. f_equal. apply functional_extensionality; intro nl.
  rewrite pbind_assoc. f_equal. apply functional_extensionality; intro sz.
  rewrite pbind_assoc. f_equal.
Qed.

Lemma ev_front : exists D, ev front (fun _ => D) (fun r => if is_root r then [EvDir] else []).
Proof.
  destruct VE as [[nl [arr [Enl [Hsz Earr]]]] HD]. exists (mkData nl arr).
  unfold front.
  eapply ev_ext with (es := fun r => at0 [EvDir] [] r ++ []); [reflexivity|reflexivity| |].
  { intros r Hr. cbv beta. rewrite app_nil_r. reflexivity. }
  apply (ev_root_out n _ EvDir).
  eapply (ev_bind0 n _ _ (fun _ => nl)).
  - unfold mpi_get_nlines. eapply (ev_bind0 n _ _ (at0 nl 0)).
    + eapply ev_ext; [| reflexivity | reflexivity | apply ev_ret].
      intros r Hr. unfold at0. destruct (is_root r); auto. rewrite Enl. reflexivity.
    + apply (ev_bcast n (fun r => MI [at0 nl 0 r])); [lia|]. apply ev_ret.
  - rewrite i32_ok by auto. cbn [plift pbind].
    eapply (ev_bind0 n _ _ (fun _ => arr)).
    + unfold mpi_data_loader. eapply (ev_bind0 n _ _ (at0 arr [])).
      * eapply ev_ext; [| reflexivity | reflexivity | apply ev_ret].
        intros r Hr. unfold at0. destruct (is_root r); auto. rewrite Earr. reflexivity.
      * apply (ev_bcast n (fun r => MD (at0 arr [] r))); [lia|].
        unfold at0. cbn [is_root root Nat.eqb]. rewrite as_dbls_ok by (apply (HD _ _ Earr)).
        cbn [plift]. apply ev_ret.
    + apply ev_ret.
Qed.

(** both rank 0 and rank 1 are about to write their line *)
Lemma seed_point : exists P, (forall r, (r < n)%nat -> exists k, P r = Out (EvSeed r (u2i (seed_of C n E r))) k) /\
  sstar (SYS n (fun r => main C U n E ndim r) (fun _ => []))
        (SYS n P (addlog n (fun _ => []) (fun r => if is_root r then [EvDir] else []))).
Proof.
  destruct ev_front as [D HF].
  set (s0 := first_seed C E). pose proof (first_seed_range C E (vc_seed _ _ VC)) as Hfs. fold s0 in Hfs.
  set (x := fun r => fst (u_init U (seed_of C n E r))).
  set (g := fun r => snd (u_init U (seed_of C n E r))).
  set (Q := fun r => if is_root r then
        Out (EvSeed 0%nat (u2i (seed_of C n E 0)))
         (t0 <- plift (zset (fresh (zn n)) (zr root) (Some (x 0%nat)));;
          t <- pfor (slaves n) (fun i t => Recv i 200 (fun m => x <- plift (as_dbls (N_parm C) m);;
                 plift (zset t (zr i) (Some x)))) t0;;
          tr <- plift (all_cells t);; Out (EvInit tr) (Ret (tr, g 0%nat)))
      else Out (EvSeed r (u2i (seed_of C n E r))) (Send root 200 (MD (x r)) (Ret ([], g r)))).
  exists (fun r => pbind (Q r) (tail D r)). split.
  - intros r Hr. unfold Q. destruct r; cbn [is_root root Nat.eqb pbind]; eauto.
  - rewrite (SYS_ext n (fun r => main C U n E ndim r)
       (fun r => pbind (front r) ((fun r D => pbind (mpi_gen_init_parm C U n r s0) (tail D r)) r)))
      by (intros; apply main_split).
    eapply sstar_trans; [apply HF|].
    match goal with |- Mpi.sstar _ _ _ _ _ (SYS n ?P _) =>
      rewrite (SYS_ext n P (fun r => if Nat.eqb r 0 then pbind (Q 0%nat) (tail D 0%nat) else pbind (Q r) (tail D r))) end.
    2:{ intros r Hr. destruct (Nat.eqb_spec r 0); subst; auto. }
    apply (sys_scatter n (concat (map (fun i => tagged i [(100%nat, MI [N_parm C]); (101%nat, MU (u32 (s0 + zr i)))]) (slaves n)))).
    + unfold mpi_gen_init_parm. cbn [is_root root Nat.eqb].
      rewrite slaves_seq by lia.
      pose proof (seeds_send C n Hn (n - 1) 0 s0 Hfs) as P. cbv zeta in P.
      replace (u32 (s0 + Z.of_nat 0)) with s0 in P by (rewrite u32_small; lia).
      cbv zeta. rewrite P. rewrite !pbind_send_list. f_equal. cbn [pbind].
      assert (Hs : u32 (u32 (s0 + Z.of_nat (0 + (n - 1))) + 1) = seed_of C n E 0).
      { unfold seed_of. cbn [is_root root Nat.eqb]. fold s0. unfold u32. rewrite Zplus_mod_idemp_l.
        f_equal. unfold zn. lia. }
      rewrite Hs. rewrite <- slaves_seq by lia. unfold Q, x, g. cbn [is_root root Nat.eqb pbind].
      destruct (u_init U (seed_of C n E 0)) as [x0 gg]. reflexivity.
    + intros d tm Hin. apply slaves_in. exact (in_concat_tagged d tm (fun i => [(100%nat, MI [N_parm C]); (101%nat, MU (u32 (s0 + zr i)))]) _ Hin).
    + intros r Hr. rewrite msgs_for_concat; [|apply slaves_nodup|apply slaves_in; auto].
      apply feeds_bind. unfold mpi_gen_init_parm, Q. rewrite (root_slave n Hn r Hr).
      constructor. cbn [as_int plift pbind]. constructor. cbn [as_uns plift pbind].
      replace (u32 (s0 + zr r)) with (seed_of C n E r)
        by (unfold seed_of; rewrite (root_slave n Hn r Hr); reflexivity).
      unfold x, g. destruct (u_init U (seed_of C n E r)). constructor.
Qed.

Lemma brun_mstar : forall ls c c', brun (msg A) (event A) Fst n ls c = Some c' ->
  mstar (msg A) (event A) Fst n c (length ls) c'.
Proof.
  induction ls as [|l ls IH]; intros c c' H; simpl in *.
  - inversion H; constructor.
  - destruct (bstep (msg A) (event A) Fst n l c) as [c1|] eqn:E1; [|discriminate].
    econstructor; [eapply m_eager; eauto|apply IH; auto].
Qed.

Lemma out_step : forall c r e k, (r < n)%nat -> pr c r = Out e k ->
  mstep (msg A) (event A) Fst n c (mkCfg (upd (pr c) r k) (ch c) (upd (lg c) r (lg c r ++ [e]))).
Proof.
  intros. apply (m_eager (msg A) (event A) Fst n (LRank r)). simpl.
  rewrite (proj2 (Nat.ltb_lt r n) H), H0. reflexivity.
Qed.

Lemma out_run : forall c r e k, (r < n)%nat -> pr c r = Out e k ->
  run c 1 [(r, e)] (mkCfg (upd (pr c) r k) (ch c) (upd (lg c) r (lg c r ++ [e]))).
Proof.
  intros. apply (mr_step n c (mkCfg (upd (pr c) r k) (ch c) (upd (lg c) r (lg c r ++ [e]))) _ 0 [(r, e)] []).
  - apply out_step; auto.
  - auto.
  - intros q. simpl. unfold gproj, upd. simpl. rewrite (Nat.eqb_sym r q).
    destruct (Nat.eqb_spec q r); subst; simpl; auto. rewrite app_nil_r; auto.
  - constructor.
Qed.

Theorem seed_race : forall a b, (a < n)%nat -> (b < n)%nat -> a <> b ->
  exists k tr X rest, run start k tr X /\ finished (msg A) (event A) Fst n X /\
    file FSeed tr = EvSeed a (u2i (seed_of C n E a)) :: EvSeed b (u2i (seed_of C n E b)) :: rest.
Proof.
  intros a b Ha Hb Hab. destruct seed_point as [P [HP HS]].
  destruct (sstar_run n _ _ HS) as [ls Hls].
  pose proof (brun_mstar _ _ _ Hls) as HM.
  change (inj (SYS n (fun r => main C U n E ndim r) (fun _ => []))) with start in HM.
  destruct (mstar_mrun n _ _ _ HM) as [t0 HR0].
  set (X0 := inj (SYS n P (addlog n (fun _ => []) (fun r => if is_root r then [EvDir] else [])))) in *.
  assert (Ht0 : t0 = [(0%nat, EvDir)]).
  { assert (Pm : Permutation t0 [(0%nat, EvDir)]).
    { apply gproj_perm. intros r. pose proof (mrun_log n _ _ _ _ HR0 r) as HL. simpl in HL.
      rewrite <- HL. unfold addlog, is_root, root, gproj. simpl.
      destruct (Nat.ltb_spec r n); destruct r; simpl; auto; lia. }
    apply Permutation_sym, Permutation_length_1_inv in Pm. auto. }
  destruct (HP a Ha) as [ka Hka]. destruct (HP b Hb) as [kb Hkb].
  assert (Pa : pr X0 a = Out (EvSeed a (u2i (seed_of C n E a))) ka).
  { simpl. rewrite (proj2 (Nat.ltb_lt a n) Ha). auto. }
  pose proof (out_run X0 a _ _ Ha Pa) as R1.
  match type of R1 with mrun _ _ _ _ ?Y => set (X1 := Y) in * end.
  assert (Pb : pr X1 b = Out (EvSeed b (u2i (seed_of C n E b))) kb).
  { unfold X1. simpl. unfold upd. destruct (Nat.eqb_spec b a); [congruence|].
    rewrite (proj2 (Nat.ltb_lt b n) Hb). auto. }
  pose proof (out_run X1 b _ _ Hb Pb) as R2.
  match type of R2 with mrun _ _ _ _ ?Y => set (X2 := Y) in * end.
  pose proof (mrun_app n _ _ _ _ HR0 _ _ _ (mrun_app n _ _ _ _ R1 _ _ _ R2)) as R.
  destruct (seq_main_total C U n E RK VC VU ndim VE) as [G [t [HG _]]].
  destruct (run_facts C U n E ndim RK VC VU VE G t _ _ _ HG R) as [k2 [tr2 [R3 _]]].
  exists (length ls + (1 + 1) + k2)%nat, ((t0 ++ [(a, EvSeed a (u2i (seed_of C n E a)))] ++
     [(b, EvSeed b (u2i (seed_of C n E b)))]) ++ tr2), (final n G t), (file FSeed tr2).
  split; [|split].
  - exact (mrun_app n _ _ _ _ R _ _ _ R3).
  - intros r Hr. exists (st_of G r). simpl. rewrite (proj2 (Nat.ltb_lt r n) Hr). auto.
  - rewrite Ht0. reflexivity.
Qed.

End Race.
