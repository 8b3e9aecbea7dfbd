(** C38-C43, proved from System.v and SeedRace.v in the vocabulary of Runs.v. *)
From Coq Require Import ZArith Arith List Bool Lia Permutation.
From Verif Require Import Base Arith B64 Rand Mh Mpi MpiMeta Spmd Prog Seq MhSpec SeqWf Refine SeqTotal System
  SeedRace Runs SeqFiles Seeds SeedRuns.
Import ListNotations.
Open Scope Z_scope.

Section S.
Context {A : Arith}.
Variable S : Setup A.
Hypothesis HL : Legal S.

Lemma no_deadlock : exists N, forall k tr X, execution S k tr X ->
  (k <= N)%nat /\ (complete S X \/ can_step S X) /\
  exists k' tr' Y, mrun (s_n S) X k' tr' Y /\ complete S Y.
Proof.
  destruct (legal_bound S HL) as [N HN]. exists N. intros k tr X HE.
  destruct (HN k tr X HE) as [H1 [H2 [H3 [H4 H5]]]]. auto.
Qed.

Lemma two_runs_same : forall k1 tr1 X1 k2 tr2 X2,
  execution S k1 tr1 X1 -> complete S X1 -> execution S k2 tr2 X2 -> complete S X2 ->
  (forall f, f <> FSeed -> file f tr1 = file f tr2) /\ Permutation (file FSeed tr1) (file FSeed tr2).
Proof.
  intros k1 tr1 X1 k2 tr2 X2 E1 C1 E2 C2. destruct (reference_ok S HL) as [G [t HR]].
  destruct (legal_files S HL _ _ _ E1 C1 G t HR) as [P1 F1].
  destruct (legal_files S HL _ _ _ E2 C2 G t HR) as [P2 F2].
  split.
  - intros f Hf. rewrite F1, F2; auto.
  - apply file_perm. rewrite P1, P2. auto.
Qed.

Lemma equals_reference : forall k tr X, execution S k tr X -> complete S X ->
  exists G t, reference S = OK (G, t) /\ forall f, f <> FSeed -> file f tr = file f t.
Proof.
  intros k tr X HE HC. destruct (reference_ok S HL) as [G [t HR]]. exists G, t. split; auto.
  apply (legal_files S HL _ _ _ HE HC G t HR).
Qed.

Lemma prefix_of_full : forall k tr X, execution S k tr X ->
  forall k' tr' X', execution S k' tr' X' -> complete S X' ->
  forall f, f <> FSeed -> exists rest, file f tr' = file f tr ++ rest.
Proof.
  intros k tr X HE k' tr' X' HE' HC f Hf. destruct (reference_ok S HL) as [G [t HR]].
  destruct (legal_files S HL _ _ _ HE' HC G t HR) as [_ F]. rewrite F by auto.
  eapply (legal_prefix S HL); eauto.
Qed.

(** a seed line written so far is one of the lines of the full run, each written at most once *)
Lemma seed_sub : forall k tr X, execution S k tr X ->
  exists rest, Permutation (file FSeed tr ++ rest)
    (map (fun r => EvSeed r (u2i (rank_seed (base_seed S) (s_n S) r))) (seq 0 (s_n S))).
Proof.
  intros k tr X HE. destruct (legal_bound S HL) as [N HN].
  destruct (HN k tr X HE) as [_ [_ [_ [[k' [tr' [Y [HY HC]]]] _]]]].
  pose proof (mrun_app _ _ _ _ _ HE _ _ _ HY) as HA.
  destruct (run_seeds A S HL _ _ _ HA HC) as [P _]. exists (file FSeed tr').
  rewrite <- file_app. exact P.
Qed.

Lemma seed_order_race : forall a b, (a < s_n S)%nat -> (b < s_n S)%nat -> a <> b ->
  exists k tr X rest, execution S k tr X /\ complete S X /\
    file FSeed tr = EvSeed a (u2i (rank_seed (base_seed S) (s_n S) a)) ::
                    EvSeed b (u2i (rank_seed (base_seed S) (s_n S) b)) :: rest.
Proof.
  destruct HL as [RK [VC [VU VE]]]. intros a b Ha Hb Hab.
  destruct (seed_race _ _ _ _ _ RK VC VU VE a b Ha Hb Hab) as [k [tr [X [rest [H1 [H2 H3]]]]]].
  exists k, tr, X, rest. split; [exact H1|]. split; [exact H2|]. rewrite H3.
  rewrite !seed_of_rank_seed by apply (vc_seed _ _ VC). auto.
Qed.

Lemma seed_order_differs : exists k1 tr1 X1 k2 tr2 X2,
  execution S k1 tr1 X1 /\ complete S X1 /\ execution S k2 tr2 X2 /\ complete S X2 /\
  file FSeed tr1 <> file FSeed tr2.
Proof.
  pose proof HL as [_ [VC _]]. pose proof (vc_n _ _ VC) as Hn.
  destruct (seed_order_race 0 1 ltac:(lia) ltac:(lia) ltac:(lia)) as [k1 [tr1 [X1 [r1 [E1 [C1 F1]]]]]].
  destruct (seed_order_race 1 0 ltac:(lia) ltac:(lia) ltac:(lia)) as [k2 [tr2 [X2 [r2 [E2 [C2 F2]]]]]].
  exists k1, tr1, X1, k2, tr2, X2. repeat (split; [assumption|]). rewrite F1, F2. intros H. inversion H.
Qed.

Lemma directory_first : forall k tr X, execution S k tr X -> tr <> [] ->
  exists tr', tr = (0%nat, EvDir) :: tr' /\ forall q, ~ In (q, EvDir) tr'.
Proof.
  intros k tr X HE Hne. pose proof HL as [RK [VC [VU VE]]].
  destruct (dir_first _ _ _ _ _ VC k tr X HE Hne) as [tr' ->]. exists tr'. split; auto.
  intros q Hq.
  destruct (legal_bound S HL) as [N HN].
  destruct (HN k _ X HE) as [_ [_ [_ [[k' [tr2 [Y [HY HC]]]] _]]]].
  pose proof (mrun_app _ _ _ _ _ HE _ _ _ HY) as HA.
  destruct (reference_ok S HL) as [G [t HR]].
  destruct (legal_files S HL _ _ _ HA HC G t HR) as [P _].
  (* the reference creates the directory once *)
  assert (K : forall l : list (nat * event A), length (filter (fun e => match snd e with EvDir => true | _ => false end) l) = 0%nat -> forall q, ~ In (q, EvDir) l).
  { induction l as [|[r e] l IHl]; simpl; intros Hl q' Hi; auto. destruct Hi as [Hi|Hi].
    - inversion Hi; subst. simpl in Hl. discriminate.
    - destruct e; simpl in Hl; try discriminate; eapply IHl; eauto. }
  assert (L1 : forall f (a b : list (nat * event A)), Permutation a b -> length (filter f a) = length (filter f b)).
  { intros f a b H. induction H; simpl; auto; try congruence.
    - destruct (f x); simpl; auto.
    - destruct (f x), (f y); auto. }
  specialize (L1 (fun e => match snd e with EvDir => true | _ => false end) _ _ P).
  assert (T : length (filter (fun e => match snd e with EvDir => true | _ => false end) t) = 1%nat).
  { unfold reference, seq_main in HR.
    assert (Z0 : forall l : list (nat * event A), (forall q e, In (q, e) l -> e <> EvDir) ->
                 filter (fun e => match snd e with EvDir => true | _ => false end) l = []).
    { induction l as [|[r e] l IHl]; intros Hl; simpl; auto.
      rewrite IHl by (intros; eapply Hl; right; eauto).
      pose proof (Hl r e (or_introl eq_refl)). destruct e; auto; congruence. }
    destruct (e_nlines (s_env S)); [cbn [rbind] in HR|discriminate].
    destruct (i32 _); [cbn [rbind] in HR|discriminate].
    destruct (e_data (s_env S) _); [cbn [rbind] in HR|discriminate].
    destruct (seq_init _ _ _ _ _) as [[G0 l1]|] eqn:EI; [cbn [rbind] in HR|discriminate].
    destruct (seq_flow_loop _ _ _ _ _ _ _ _ _) as [[G1 l2]|] eqn:EF; [cbn [rbind] in HR|discriminate].
    inversion HR; subst. simpl. rewrite Z0; auto.
    intros q' e Hi He. subst e. apply in_app_iff in Hi. destruct Hi as [Hi|Hi].
    - unfold seq_init in EI.
      destruct (tab _ _); [cbn [rbind] in EI|discriminate].
      destruct (copy_betas _ _); [cbn [rbind] in EI|discriminate]. inversion EI; subst.
      apply in_app_iff in Hi. destruct Hi as [Hi|[Hi|Hi]]; [| |apply in_app_iff in Hi; destruct Hi as [Hi|Hi]].
      + apply in_map_iff in Hi. destruct Hi as [x [Hx _]]. inversion Hx.
      + inversion Hi.
      + assert (M2 : forall ll (mm : list (list (num A) * num A)),
                In (q', EvDir) (map2 (fun r xl => (r, EvRow r (mkRow (fst xl) (snd xl) 0 0))) ll mm) -> False).
        { induction ll as [|x ll IHl]; intros [|y mm] H; simpl in H; auto. destruct H as [H|H]; [inversion H|eauto]. }
        eapply M2; eauto.
      + apply in_map_iff in Hi. destruct Hi as [x [Hx _]]. inversion Hx.
    - apply flow_laters in EF. specialize (EF q' EvDir Hi). exact EF. }
  rewrite T in L1. cbn [app filter snd length] in L1. apply eq_add_S in L1.
  rewrite filter_app, app_length in L1.
  eapply K; [|exact Hq]. lia.
Qed.

Lemma messages_matched : forall k tr X, execution S k tr X ->
  (forall r e, (r < s_n S)%nat -> pr X r <> Fail e) /\
  (complete S X -> forall s d t, ch X s d t = []).
Proof.
  intros k tr X HE. destruct (legal_bound S HL) as [N HN].
  destruct (HN k tr X HE) as [_ [_ [H3 [_ H5]]]]. split; auto.
  intros HC s d t. rewrite (H5 HC). reflexivity.
Qed.
End S.
