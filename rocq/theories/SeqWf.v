(** Shape of the global state, kept by every part of the sequential reference. *)
From Coq Require Import ZArith Arith List Bool Lia.
From Verif Require Import Base Arith Rand Mh Ladder Tune Mpi Prog Seq ListAux MhSpec.
Import ListNotations.
Open Scope Z_scope.

Section SeqWf.
Context {A : Arith}.
Variable C : Cfg A.
Variable U : User A.
Variable n : nat.
Notation row := (list (num A)).
Notation hl := (haslen (N_parm C)).

(** The user's functions return vectors of N_parm numbers. *)
Record UserOK : Prop := {
  uo_bound : BoundLen U (N_parm C);
  uo_init : forall s, hl (fst (u_init U s));
  uo_gp : hl (u_gp U)
}.

Definition dloc : loc (A := A) := mkLoc 0 [] 0 0 [].

Record wf (G : gst (A := A)) : Prop := {
  wf_locs : length (g_locs G) = n;
  wf_tr : length (transit (g_ro G)) = n;
  wf_trrow : forall x, In x (transit (g_ro G)) -> hl x;
  wf_lps : length (lps (g_ro G)) = n;
  wf_sigt : length (sigt (g_ro G)) = n;
  wf_sigrow : forall x, In x (sigt (g_ro G)) -> hl x;
  wf_sig : forall l, In l (g_locs G) -> hl (l_sig l);
  wf_beta : forall l, In l (g_locs G) -> length (l_beta l) = n;
  wf_it : forall l l', In l (g_locs G) -> In l' (g_locs G) -> l_it l = l_it l';
  wf_same : forall l l', In l (g_locs G) -> In l' (g_locs G) -> l_beta l = l_beta l'
}.

Hypothesis UO : UserOK.
Hypothesis Hn : (2 <= n)%nat.

Lemma in_lset : forall {X} (l : list X) i v x, In x (lset l i v) -> x = v \/ In x l.
Proof.
  induction l as [|a l IH]; intros [|i] v x H; simpl in *; auto.
  - destruct H; auto.
  - destruct H; auto. apply IH in H. tauto.
Qed.

Lemma in_zset : forall {X} (l l' : list X) i v x, zset l i v = OK l' -> In x l' -> x = v \/ In x l.
Proof. intros X l l' i v x H. apply zset_ok_inv in H. destruct H as [_ ->]. apply in_lset. Qed.

Lemma zget_in : forall {X} (l : list X) i v, zget l i = OK v -> In v l.
Proof.
  intros X l i v H. apply zget_ok_inv in H. destruct H as [_ H]. eapply nth_error_In; eauto.
Qed.

Lemma getloc_in : forall G r l, getloc (A := A) G r = OK l -> In l (g_locs G).
Proof. intros. eapply zget_in; eauto. Qed.

(** changing the generator of rank 0 *)
Lemma with_g0_ok : forall G g, wf G ->
  with_g0 G g = OK (mkG (lset (g_locs G) 0 (loc_g (nth 0 (g_locs G) dloc) g)) (g_ro G)).
Proof.
  intros G g W. unfold with_g0, getloc. change (zr root) with (zr 0).
  rewrite (zget_nat _ 0 dloc) by (rewrite (wf_locs G W); lia). cbn [rbind].
  rewrite zset_nat by (rewrite (wf_locs G W); lia). auto.
Qed.

Lemma wf_g0 : forall G g, wf G ->
  wf (mkG (lset (g_locs G) 0 (loc_g (nth 0 (g_locs G) dloc) g)) (g_ro G)).
Proof.
  intros G g W. destruct W.
  assert (H0 : In (nth 0 (g_locs G) dloc) (g_locs G)) by (apply nth_In; lia).
  constructor; cbn [g_locs g_ro]; auto.
  - rewrite lset_length; auto.
  - intros l Hl. apply in_lset in Hl. destruct Hl as [->|Hl]; cbn; auto.
  - intros l Hl. apply in_lset in Hl. destruct Hl as [->|Hl]; cbn; auto.
  - intros l l' Hl Hl'. apply in_lset in Hl. apply in_lset in Hl'.
    destruct Hl as [->|Hl]; destruct Hl' as [->|Hl']; cbn; auto.
  - intros l l' Hl Hl'. apply in_lset in Hl. apply in_lset in Hl'.
    destruct Hl as [->|Hl]; destruct Hl' as [->|Hl']; cbn; auto.
Qed.

Lemma with_g0_wf : forall G g G', wf G -> with_g0 G g = OK G' -> wf G'.
Proof. intros. rewrite with_g0_ok in H0 by auto. inversion H0; subst. apply wf_g0; auto. Qed.

Definition dbatch : batch_out (A := A) := mkBatch [] (nof 0) 0 0 0 [].

Lemma in_nth_ex : forall {X} (l : list X) x (d : X), In x l -> exists i, (i < length l)%nat /\ nth i l d = x.
Proof. intros. apply In_nth; auto. Qed.

(** what each rank computed in a batch *)
Lemma batch_of_inv : forall D G nb bs, wf G -> tab n (batch_of C U D G nb) = OK bs ->
  length bs = n /\ 1 <= nb /\
  forall r, (r < n)%nat ->
    iter_batch_mh U D (N_parm C) (nth r (transit (g_ro G)) []) (l_sig (nth r (g_locs G) dloc)) nb
      (nth r (l_beta (nth r (g_locs G) dloc)) (nof 0)) (l_g (nth r (g_locs G) dloc))
      (l_it (nth r (g_locs G) dloc)) (l_acc (nth r (g_locs G) dloc)) (i_save_begin C)
      (nth r (lps (g_ro G)) (nof 0))
    = OK (nth r bs dbatch).
Proof.
  intros D G nb bs W H. apply (tab_ok n _ _ dbatch) in H. destruct H as [HL H].
  assert (K : forall r, (r < n)%nat -> 
    iter_batch_mh U D (N_parm C) (nth r (transit (g_ro G)) []) (l_sig (nth r (g_locs G) dloc)) nb
      (nth r (l_beta (nth r (g_locs G) dloc)) (nof 0)) (l_g (nth r (g_locs G) dloc))
      (l_it (nth r (g_locs G) dloc)) (l_acc (nth r (g_locs G) dloc)) (i_save_begin C)
      (nth r (lps (g_ro G)) (nof 0))
    = OK (nth r bs dbatch)).
  { intros r Hr. specialize (H r Hr). unfold batch_of, getloc in H.
    rewrite (zget_nat _ r []) in H by (rewrite (wf_tr G W); lia).
    rewrite (zget_nat _ r (nof 0)) in H by (rewrite (wf_lps G W); lia).
    rewrite (zget_nat _ r dloc) in H by (rewrite (wf_locs G W); lia). cbn [rbind] in H.
    rewrite (zget_nat _ r (nof 0)) in H; [exact H|].
    rewrite (wf_beta G W); auto. apply nth_In. rewrite (wf_locs G W); auto. }
  split; auto. split; auto.
  eapply iter_batch_mh_pos. apply (K O); lia.
Qed.

Lemma batch_nth_spec : forall D G nb bs, wf G -> tab n (batch_of C U D G nb) = OK bs ->
  forall r, (r < n)%nat ->
  nth r bs dbatch = batch_spec U D (nth r (transit (g_ro G)) []) (l_sig (nth r (g_locs G) dloc)) nb
      (nth r (l_beta (nth r (g_locs G) dloc)) (nof 0)) (l_g (nth r (g_locs G) dloc))
      (l_it (nth r (g_locs G) dloc)) (l_acc (nth r (g_locs G) dloc)) (i_save_begin C)
      (nth r (lps (g_ro G)) (nof 0)).
Proof.
  intros D G nb bs W H r Hr. destruct (batch_of_inv D G nb bs W H) as [_ [Hnb K]].
  specialize (K r Hr). rewrite (iter_batch_mh_spec U D (N_parm C)) in K; auto; try congruence.
  - apply UO.
  - apply (wf_sig G W). apply nth_In. rewrite (wf_locs G W); auto.
  - apply (wf_trrow G W). apply nth_In. rewrite (wf_tr G W); auto.
Qed.

Lemma seq_batch_wf : forall D G nb G' lg, wf G -> seq_batch C U n D G nb = OK (G', lg) -> wf G'.
Proof.
  intros D G nb G' lg W H. unfold seq_batch in H. rinv. rename v into bs.
  destruct (batch_of_inv D G nb bs W E) as [HL [Hnb _]].
  pose proof (batch_nth_spec D G nb bs W E) as K. pose proof W as W0. destruct W0.
  assert (HM : forall l, In l (map2 loc_batch (g_locs G) bs) -> exists r, (r < n)%nat /\
            l = loc_batch (nth r (g_locs G) dloc) (nth r bs dbatch)).
  { intros l Hl. rewrite (map2_seq _ _ _ dloc dbatch n) in Hl by auto.
    apply in_map_iff in Hl. destruct Hl as [r [<- Hr]]. apply in_seq in Hr. exists r; split; auto; lia. }
  assert (HB : forall r, (r < n)%nat -> hl (b_last (nth r bs dbatch))).
  { intros r Hr. rewrite K by auto. cbn [b_last batch_spec]. apply mhn_len; auto. apply UO.
    - apply wf_sig0. apply nth_In; lia.
    - cbn. apply wf_trrow0. apply nth_In; lia. }
  assert (HIn : forall r, (r < n)%nat -> In (nth r (g_locs G) dloc) (g_locs G)).
  { intros; apply nth_In; lia. }
  constructor; cbn [g_locs g_ro transit lps sigt]; auto.
  - apply map2_length; auto.
  - rewrite map_length; auto.
  - intros x Hx. apply in_map_iff in Hx. destruct Hx as [b [<- Hb]].
    destruct (in_nth_ex bs b dbatch Hb) as [r [Hr <-]]. apply HB; lia.
  - rewrite map_length; auto.
  - intros l Hl. destruct (HM l Hl) as [r [Hr ->]]. cbn. apply wf_sig0; auto.
  - intros l Hl. destruct (HM l Hl) as [r [Hr ->]]. cbn. apply wf_beta0; auto.
  - intros l l' Hl Hl'. destruct (HM l Hl) as [r [Hr ->]]. destruct (HM l' Hl') as [r' [Hr' ->]].
    cbn. rewrite !K by auto. cbn [b_it batch_spec]. rewrite (wf_it0 _ (nth r' (g_locs G) dloc)); auto.
  - intros l l' Hl Hl'. destruct (HM l Hl) as [r [Hr ->]]. destruct (HM l' Hl') as [r' [Hr' ->]].
    cbn. apply wf_same0; auto.
Qed.

Lemma seq_swap_wf : forall D G i G' d, wf G -> seq_swap C U n D G i = OK (G', d) -> wf G'.
Proof.
  intros D G i G' d W H. unfold seq_swap in H. rinv.
  match type of H with (let '(_, _) := ?e in _) = _ => destruct e as [dsw g2] end.
  rinv. pose proof (with_g0_wf _ _ _ W E8) as W1. destruct dsw; rinv; auto.
  rewrite with_g0_ok in E8 by auto. inversion E8; subst; clear E8.
  cbn [g_ro g_locs] in *. destruct W1. cbn [g_ro g_locs] in *.
  constructor; cbn [g_locs g_ro transit lps sigt]; auto.
  - rewrite (zset_length _ _ _ _ E10), (zset_length _ _ _ _ E9); auto.
  - intros x Hx. apply (in_zset _ _ _ _ _ E10) in Hx. destruct Hx as [->|Hx].
    + apply wf_trrow0. eapply zget_in; eauto.
    + apply (in_zset _ _ _ _ _ E9) in Hx. destruct Hx as [->|Hx]; auto.
      apply wf_trrow0. eapply zget_in; eauto.
  - rewrite (zset_length _ _ _ _ E12), (zset_length _ _ _ _ E11); auto.
Qed.

Lemma seq_round_wf : forall D k G isw nsw npr G' i' nsw' npr', wf G ->
  seq_round C U n D k (G, isw, nsw, npr) = OK (G', i', nsw', npr') -> wf G'.
Proof.
  intros. unfold seq_round in H0. rinv.
  pose proof (with_g0_wf _ _ _ H E1) as W1. pose proof (seq_swap_wf _ _ _ _ _ W1 E2) as W2.
  destruct (0 <? Tune_Ladder C); rinv; auto.
Qed.

Lemma seq_rounds_wf : forall D l G isw nsw npr G' i' nsw' npr', wf G ->
  foldM l (seq_round C U n D) (G, isw, nsw, npr) = OK (G', i', nsw', npr') -> wf G'.
Proof.
  induction l as [|k l IH]; intros G isw nsw npr G' i' nsw' npr' W H; cbn [foldM] in H.
  - rinv; auto.
  - rinv. eapply IH; [|eassumption]. eapply seq_round_wf; eauto.
Qed.

Lemma seq_stack_loop_wf : forall D len fuel G it ix isw nsw npr G' nsw' npr' lg, wf G ->
  seq_stack_loop C U n D len fuel G it ix isw nsw npr = OK (G', nsw', npr', lg) -> wf G'.
Proof.
  induction fuel as [|fuel IH]; intros G it ix isw nsw npr G' nsw' npr' lg W H;
    cbn [seq_stack_loop] in H; destruct (ix <? len); rinv; auto.
  eapply IH; [|eassumption]. eapply seq_rounds_wf; [|eassumption].
  eapply seq_batch_wf; [|eassumption]. eapply with_g0_wf; eauto.
Qed.

Lemma tune_ladder_length : forall sc zs m nsw npr (beta b : row),
  tune_ladder sc zs m nsw npr beta = OK b -> length b = length beta.
Proof.
  intros. unfold tune_ladder in H. rinv.
  apply (for_from_inv (fun _ b => length b = length beta)) in H; auto.
  intros j t t' _ Ht Hb. rinv. rewrite (zset_length _ _ _ _ Hb); auto.
Qed.

Lemma seq_ladder_wf : forall G nsw npr G', wf G -> seq_ladder C n G nsw npr = OK G' -> wf G'.
Proof.
  intros G nsw npr G' W H. unfold seq_ladder in H. rinv.
  apply tune_ladder_length in E0.
  assert (Hv0 : length v0 = n). { rewrite E0. apply (wf_beta G W). eapply getloc_in; eauto. }
  destruct W. constructor; cbn [g_locs g_ro]; auto.
  - rewrite map_length; auto.
  - intros l Hl. apply in_map_iff in Hl. destruct Hl as [x [<- Hx]]. cbn. auto.
  - intros l Hl. apply in_map_iff in Hl. destruct Hl as [x [<- Hx]]. cbn. auto.
  - intros l l' Hl Hl'. apply in_map_iff in Hl. destruct Hl as [x [<- Hx]].
    apply in_map_iff in Hl'. destruct Hl' as [x' [<- Hx']]. cbn. auto.
  - intros l l' Hl Hl'. apply in_map_iff in Hl. destruct Hl as [x [<- Hx]].
    apply in_map_iff in Hl'. destruct Hl' as [x' [<- Hx']]. cbn. auto.
Qed.

Lemma seq_stack_wf : forall D G len G' lg, wf G -> seq_stack C U n D G len = OK (G', lg) -> wf G'.
Proof.
  intros D G len G' lg W H. unfold seq_stack in H. rinv.
  pose proof (seq_stack_loop_wf _ _ _ _ _ _ _ _ _ _ _ _ _ W E0) as W1.
  destruct ((u2i (l_it v0) <? N_stopTuneLadder C) && (0 <? Tune_Ladder C)); rinv; auto.
  eapply seq_ladder_wf; eauto.
Qed.

Lemma seq_distribute_wf : forall G t, wf G -> length t = n -> (forall x, In x t -> hl x) ->
  wf (seq_distribute G t).
Proof.
  intros G t W Ht Hx. destruct W. unfold seq_distribute.
  assert (HM : forall l, In l (map2 loc_sig (g_locs G) t) -> exists r, (r < n)%nat /\
            l = loc_sig (nth r (g_locs G) dloc) (nth r t [])).
  { intros l Hl. rewrite (map2_seq _ _ _ dloc [] n) in Hl by auto.
    apply in_map_iff in Hl. destruct Hl as [r [<- Hr]]. apply in_seq in Hr. exists r; split; auto; lia. }
  assert (HIn : forall r, (r < n)%nat -> In (nth r (g_locs G) dloc) (g_locs G)).
  { intros; apply nth_In; lia. }
  constructor; cbn [g_locs g_ro]; auto.
  - apply map2_length; auto.
  - intros l Hl. destruct (HM l Hl) as [r [Hr ->]]. cbn. apply Hx. apply nth_In; lia.
  - intros l Hl. destruct (HM l Hl) as [r [Hr ->]]. cbn. auto.
  - intros l l' Hl Hl'. destruct (HM l Hl) as [r [Hr ->]]. destruct (HM l' Hl') as [r' [Hr' ->]]. cbn. auto.
  - intros l l' Hl Hl'. destruct (HM l Hl) as [r [Hr ->]]. destruct (HM l' Hl') as [r' [Hr' ->]]. cbn. auto.
Qed.

Lemma tune_matrix_shape : forall m (sg : list row) rk al jp mat,
  (forall x, In x sg -> hl x) -> tune_matrix (Z.of_nat m) sg rk al jp = OK mat ->
  length mat = m /\ forall x, In x mat -> hl x.
Proof.
  intros m sg rk al jp mat Hs H. unfold tune_matrix in H. rewrite Nat2Z.id in H.
  apply (for_from_inv (fun i out => Z.of_nat (length out) = i /\ forall x, In x out -> hl x)) in H.
  - destruct H as [H1 H2]. split; auto. lia.
  - split; auto. intros x [].
  - intros j t t' Hj [Ht1 Ht2] Hb. rinv. split.
    + rewrite app_length; cbn [length]. lia.
    + intros x Hx. apply in_app_iff in Hx. destruct Hx as [Hx|[<-|[]]]; auto.
      unfold haslen. rewrite (zset_length _ _ _ _ E2). apply Hs. eapply zget_in; eauto.
Qed.

Lemma map_gs_wf : forall G gs, wf G -> length gs = n -> wf (mkG (map2 loc_g (g_locs G) gs) (g_ro G)).
Proof.
  intros G gs W Hg. destruct W.
  assert (HM : forall l, In l (map2 loc_g (g_locs G) gs) -> exists r, (r < n)%nat /\
            l = loc_g (nth r (g_locs G) dloc) (nth r gs 0)).
  { intros l Hl. rewrite (map2_seq _ _ _ dloc 0 n) in Hl by auto.
    apply in_map_iff in Hl. destruct Hl as [r [<- Hr]]. apply in_seq in Hr. exists r; split; auto; lia. }
  assert (HIn : forall r, (r < n)%nat -> In (nth r (g_locs G) dloc) (g_locs G)).
  { intros; apply nth_In; lia. }
  constructor; cbn [g_locs g_ro]; auto.
  - apply map2_length; auto.
  - intros l Hl. destruct (HM l Hl) as [r [Hr ->]]. cbn. auto.
  - intros l Hl. destruct (HM l Hl) as [r [Hr ->]]. cbn. auto.
  - intros l l' Hl Hl'. destruct (HM l Hl) as [r [Hr ->]]. destruct (HM l' Hl') as [r' [Hr' ->]]. cbn. auto.
  - intros l l' Hl Hl'. destruct (HM l Hl) as [r [Hr ->]]. destruct (HM l' Hl') as [r' [Hr' ->]]. cbn. auto.
Qed.

Lemma seq_tune_parm_wf : forall D rk al x lp jp G ars G' ars', wf G ->
  seq_tune_parm C U n D rk al x lp jp (G, ars) = OK (G', ars') -> wf G' /\
  length ars' = S (length ars).
Proof.
  intros D rk al x lp jp G ars G' ars' W H. unfold seq_tune_parm in H. rinv.
  destruct (tune_matrix_shape _ _ _ _ _ _ (wf_sigrow G W) E) as [M1 M2].
  pose proof (seq_distribute_wf G v W M1 M2) as W1. split.
  - apply (map_gs_wf (seq_distribute G v)); auto. rewrite map_length. apply (tab_ok n _ _ (nof 0, 0)) in E0. apply E0.
  - rewrite app_length; cbn [length]; lia.
Qed.

Lemma seq_tune_parms_wf : forall D rk al x lp l G ars G' ars', wf G ->
  foldM l (seq_tune_parm C U n D rk al x lp) (G, ars) = OK (G', ars') -> wf G' /\
  length ars' = (length l + length ars)%nat.
Proof.
  induction l as [|jp l IH]; intros G ars G' ars' W H; cbn [foldM] in H.
  - rinv. split; auto.
  - rinv. destruct (seq_tune_parm_wf _ _ _ _ _ _ _ _ _ _ W E) as [W1 L1].
    destruct (IH _ _ _ _ W1 H) as [W2 L2]. split; auto. cbn [length]. lia.
Qed.

Lemma race_all_parm_length : forall m al ar (out : row), 0 <= N_parm C ->
  race_all_parm C m al ar = OK out -> hl out.
Proof.
  intros m al ar out Hp H. unfold race_all_parm in H.
  apply (for_from_inv (fun i out => Z.of_nat (length out) = i)) in H; auto.
  - unfold haslen. lia.
  - intros j t t' Hj Ht Hb. rinv. rewrite app_length; cbn [length]. lia.
Qed.

Lemma modify_shape : forall m rk ip ir (sg : list row) al ar t,
  (forall x, In x sg -> hl x) -> modify_sigma_prop C U m rk ip ir sg al ar = OK t ->
  length t = length sg /\ forall x, In x t -> hl x.
Proof.
  intros m rk ip ir sg al ar t Hs H. unfold modify_sigma_prop in H.
  destruct (0 <=? ip).
  - rinv. split; [eapply zset_length; eauto|]. intros x Hx.
    apply (in_zset _ _ _ _ _ H) in Hx. destruct Hx as [->|Hx]; auto.
    unfold haslen. rewrite (zset_length _ _ _ _ E2). apply Hs. eapply zget_in; eauto.
  - rinv. split; [eapply zset_length; eauto|]. intros x Hx.
    apply (in_zset _ _ _ _ _ H) in Hx. destruct Hx as [->|Hx]; auto.
    destruct (0 <=? ir).
    + rinv. apply UO.
    + eapply race_all_parm_length; eauto. pose proof (uo_gp UO) as Q. unfold haslen in Q. lia.
Qed.

Lemma seq_tune_irank_wf : forall D G rk G', wf G -> seq_tune_irank C U n D G rk = OK G' -> wf G'.
Proof.
  intros D G rk G' W H. unfold seq_tune_irank in H. rinv.
  destruct (seq_tune_parms_wf _ _ _ _ _ _ _ _ _ _ W E2) as [W1 _].
  pose proof (with_g0_wf _ _ _ W1 E6) as W2.
  destruct (modify_shape _ _ _ _ _ _ _ _ (wf_sigrow _ W1) E5) as [M1 M2].
  rewrite with_g0_ok in E6 by auto. inversion E6; subst. cbn [g_locs g_ro] in *.
  pose proof W2 as W3. destruct W3. constructor; cbn [g_locs g_ro transit lps sigt] in *; auto.
  rewrite M1. apply (wf_sigt _ W1).
Qed.

Lemma seq_tune_all_wf : forall D flags G G', wf G -> seq_tune_all C U n D flags G = OK G' -> wf G'.
Proof.
  intros D flags G G' W H. unfold seq_tune_all in H. revert G W H.
  induction (zseq (zn n)) as [|r l IH]; intros G W H; cbn [foldM] in H.
  - rinv; auto.
  - rinv. eapply IH; [|eassumption].
    destruct (v0 =? 1); rinv; auto. eapply seq_tune_irank_wf; eauto.
Qed.

Lemma seq_flow_loop_wf : forall D fuel G len it ix G' lg, wf G ->
  seq_flow_loop C U n D fuel G len it ix = OK (G', lg) -> wf G'.
Proof.
  induction fuel as [|fuel IH]; intros G len it ix G' lg W H; cbn [seq_flow_loop] in H;
    destruct (ix <? N_iter C); rinv; auto.
  eapply IH; [|eassumption].
  assert (W1 : wf (seq_distribute G (sigt (g_ro G)))).
  { apply seq_distribute_wf; auto; [apply (wf_sigt _ W)|apply (wf_sigrow _ W)]. }
  pose proof (seq_stack_wf _ _ _ _ _ W1 E0) as W2.
  destruct ((N_begintune C <? (if N_iter C <? v then N_iter C else v)) &&
     ((if N_iter C <? v then N_iter C else v) <? N_stoptune C) &&
     ((if N_iter C <? v then N_iter C else v) <? N_iter C)); rinv; auto.
  eapply seq_tune_all_wf; eauto.
Qed.

Lemma copy_betas_length : forall b, copy_betas C n = OK b -> length b = n.
Proof.
  intros b H. unfold copy_betas in H.
  apply (for_from_inv (fun i b => Z.of_nat (length b) = i)) in H; auto.
  - lia.
  - intros j t t' Hj Ht Hb. rinv. rewrite app_length; cbn [length]. lia.
Qed.

Lemma seq_init_wf : forall E D G lg, seq_init C U n E D = OK (G, lg) -> wf G.
Proof.
  intros E D G lg H. unfold seq_init in H. rinv.
  apply copy_betas_length in E1. apply (tab_ok n _ _ (nof 0)) in E0. destruct E0 as [L0 _].
  constructor; cbn [g_locs g_ro transit lps sigt]; unfold ranks; rewrite ?map_length, ?seq_length; auto.
  - intros x Hx. rewrite map_map in Hx. apply in_map_iff in Hx. destruct Hx as [r [<- _]]. apply UO.
  - intros x Hx. apply in_map_iff in Hx. destruct Hx as [r [<- _]]. apply UO.
  - intros l Hl. apply in_map_iff in Hl. destruct Hl as [r [<- _]]. apply UO.
  - intros l Hl. apply in_map_iff in Hl. destruct Hl as [r [<- _]]. auto.
  - intros l l' Hl Hl'. apply in_map_iff in Hl. destruct Hl as [r [<- _]].
    apply in_map_iff in Hl'. destruct Hl' as [r' [<- _]]. auto.
  - intros l l' Hl Hl'. apply in_map_iff in Hl. destruct Hl as [r [<- _]].
    apply in_map_iff in Hl'. destruct Hl' as [r' [<- _]]. auto.
Qed.

End SeqWf.
