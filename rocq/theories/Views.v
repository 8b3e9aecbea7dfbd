(** What each part of the sequential run does to the state, rank by rank. *)
From Coq Require Import ZArith Arith List Bool Lia.
From Verif Require Import Base Arith Rand Mh Ladder Tune Mpi MpiMeta Spmd Prog Seq ListAux MhSpec SeqWf Refine
  SeqTotal System SeqFiles History.
Import ListNotations.
Open Scope Z_scope.

Section Views.
Context {A : Arith}.
Notation row := (list (num A)).
Notation gst := (gst (A := A)).

(** position r of the ladder *)
Definition x_at (G : gst) (r : nat) : row := nth r (transit (g_ro G)) [].
Definition lp_at (G : gst) (r : nat) : num A := nth r (lps (g_ro G)) (nof 0).
Definition sigt_at (G : gst) (r : nat) : row := nth r (sigt (g_ro G)) [].
Definition loc_at (G : gst) (r : nat) : loc (A := A) := nth r (g_locs G) dloc.
Definition beta_at (G : gst) (r : nat) : num A := nth r (l_beta (loc_at G r)) (nof 0).
(** the Metropolis state of rank r *)
Definition ms_at (G : gst) (r : nat) : ms (A := A) :=
  mkMs (x_at G r) (lp_at G r) (l_g (loc_at G r)) (l_acc (loc_at G r)).

Variable C : Cfg A.
Variable U : User A.
Variable n : nat.
Variable D : Data A.
Hypothesis RK : RandOK A.
Hypothesis VC : ValidCfg C n.
Hypothesis VU : ValidUser C U.
Notation wf := (wf C n).
Let UO : UserOK C U := vu_ok C U VU.
Let Hn : (2 <= n)%nat := vc_n C n VC.

Lemma with_g0_view : forall G g G', wf G -> with_g0 G g = OK G' ->
  g_ro G' = g_ro G /\
  forall r, (r < n)%nat -> l_sig (loc_at G' r) = l_sig (loc_at G r) /\ l_it (loc_at G' r) = l_it (loc_at G r) /\
    l_acc (loc_at G' r) = l_acc (loc_at G r) /\ l_beta (loc_at G' r) = l_beta (loc_at G r) /\
    l_g (loc_at G' r) = if Nat.eqb r 0 then g else l_g (loc_at G r).
Proof.
  intros G g G' W H. rewrite (with_g0_ok C n Hn) in H by auto. injection H; intros; subst.
  split; auto. intros r Hr. unfold loc_at. cbn [g_locs]. destruct r as [|r].
  - rewrite nth_lset_eq by (rewrite (wf_locs _ _ _ W); lia). cbn. auto 10.
  - rewrite nth_lset_ne by lia. cbn. auto 10.
Qed.

Lemma file_rows_other : forall r q (b : batch_out (A := A)), q <> r -> file (FChain r) (rows_log q b) = [].
Proof.
  intros r q b H. unfold rows_log, file. induction (b_saved b) as [|x l IH]; simpl; auto.
  destruct (Nat.eqb_spec q r); [congruence|auto].
Qed.
Lemma file_rows_self : forall r (b : batch_out (A := A)), file (FChain r) (rows_log r b) = map (EvRow r) (b_saved b).
Proof.
  intros r b. unfold rows_log, file. induction (b_saved b) as [|x l IH]; simpl; auto.
  rewrite Nat.eqb_refl. f_equal; auto.
Qed.

Lemma file_rows_concat : forall r k a (bs : list (batch_out (A := A))), (a <= r < a + k)%nat -> length bs = k ->
  file (FChain r) (concat (map2 rows_log (seq a k) bs)) = map (EvRow r) (b_saved (nth (r - a) bs dbatch)).
Proof.
  intros r k. assert (Z : forall a (bs : list (batch_out (A := A))), (r < a)%nat -> file (FChain r) (concat (map2 rows_log (seq a k) bs)) = []).
  { induction k as [|k IH]; intros a bs Ha; simpl; auto. destruct bs as [|b bs]; simpl; auto.
    rewrite file_app, file_rows_other by lia. apply IH. lia. }
  revert Z. induction k as [|k IH]; intros Z a bs Ha Hl; [lia|].
  destruct bs as [|b bs]; simpl in Hl; [lia|]. simpl. rewrite file_app.
  destruct (Nat.eq_dec a r) as [->|Hne].
  - rewrite Nat.sub_diag, file_rows_self. rewrite <- app_nil_r. f_equal.
    assert (Z' : forall k a (bs : list (batch_out (A := A))), (r < a)%nat -> file (FChain r) (concat (map2 rows_log (seq a k) bs)) = []).
    { clear. induction k as [|k IH]; intros a bs Ha; simpl; auto. destruct bs as [|b bs]; simpl; auto.
      rewrite file_app, file_rows_other by lia. apply IH. lia. }
    apply Z'. lia.
  - rewrite file_rows_other by auto. simpl app.
    destruct (r - a)%nat as [|d] eqn:Ed; [lia|]. simpl.
    replace d with (r - S a)%nat by lia. apply IH; try lia.
    clear. induction k as [|k IH]; intros a bs Ha; simpl; auto. destruct bs as [|b bs]; simpl; auto.
    rewrite file_app, file_rows_other by lia. apply IH. lia.
Qed.

(** a batch: every rank makes nb Metropolis steps from its position, with its own widths and beta *)
Lemma seq_batch_view : forall G nb G' lg, wf G -> seq_batch C U n D G nb = OK (G', lg) ->
  1 <= nb /\ sigt (g_ro G') = sigt (g_ro G) /\
  forall r, (r < n)%nat ->
    let step := mhn U D (l_sig (loc_at G r)) (beta_at G r) in
    ms_at G' r = step (Z.to_nat nb) (ms_at G r) /\
    l_sig (loc_at G' r) = l_sig (loc_at G r) /\ l_beta (loc_at G' r) = l_beta (loc_at G r) /\
    l_it (loc_at G' r) = u32 (l_it (loc_at G r) + nb) /\
    file (FChain r) lg =
      (if i_save_begin C <=? u32 (l_it (loc_at G r) + nb)
       then map (fun j => EvRow r (ms_row (l_it (loc_at G r)) (step j (ms_at G r)) j)) (seq 1 (Z.to_nat nb))
       else []).
Proof.
  intros G nb G' lg W H. unfold seq_batch in H. rinv. rename v into bs.
  destruct (batch_of_inv C U n Hn D G nb bs W E) as [HL [Hnb _]].
  pose proof (batch_nth_spec C U n UO Hn D G nb bs W E) as K.
  split; auto. split; auto. intros r Hr step.
  assert (Hit : itn (l_it (loc_at G r)) (Z.to_nat nb) = u32 (l_it (loc_at G r) + nb)).
  { unfold itn. destruct (Z.to_nat nb) eqn:En; [lia|]. rewrite <- En, Z2Nat.id by lia. auto. }
  assert (Hloc : loc_at (mkG (map2 loc_batch (g_locs G) bs)
       (mkRoot (map b_last bs) (map b_lp bs) (sigt (g_ro G)))) r = loc_batch (loc_at G r) (nth r bs dbatch)).
  { unfold loc_at. cbn [g_locs]. rewrite (map2_nth _ _ _ r dloc dbatch) by (rewrite ?(wf_locs _ _ _ W), ?HL; auto). auto. }
  rewrite Hloc. unfold ms_at, x_at, lp_at. rewrite Hloc. cbn [g_ro transit lps].
  rewrite (map_nth2 b_last bs r dbatch) by lia. rewrite (map_nth2 b_lp bs r dbatch) by lia.
  unfold loc_batch. cbn [l_sig l_it l_acc l_beta l_g].
  repeat change (mkMs (nth r (transit (g_ro G)) []) (nth r (lps (g_ro G)) (nof 0)) (l_g (loc_at G r))
    (l_acc (loc_at G r))) with (ms_at G r).
  assert (Hspec : nth r bs dbatch = batch_spec U D (x_at G r) (l_sig (loc_at G r)) nb (beta_at G r)
     (l_g (loc_at G r)) (l_it (loc_at G r)) (l_acc (loc_at G r)) (i_save_begin C) (lp_at G r)) by (apply K; auto).
  rewrite Hspec. unfold batch_spec. cbn [b_last b_lp b_g b_acc b_it].
  change (mkMs (x_at G r) (lp_at G r) (l_g (loc_at G r)) (l_acc (loc_at G r))) with (ms_at G r).
  fold step. rewrite Hit.
  split; [destruct (step (Z.to_nat nb) (ms_at G r)); auto|].
  split; [auto|]. split; [auto|]. split; [auto|].
  unfold ranks. rewrite (file_rows_concat r n 0 bs) by lia. rewrite Nat.sub_0_r, Hspec.
    unfold batch_spec. cbn [b_saved].
    change (mkMs (x_at G r) (lp_at G r) (l_g (loc_at G r)) (l_acc (loc_at G r))) with (ms_at G r).
    rewrite Hit. destruct (i_save_begin C <=? u32 (l_it (loc_at G r) + nb)); auto.
    rewrite map_map. auto.
Qed.

Lemma choose_j_range : forall i g j g', 0 <= i < zn n - 1 -> choose_j (A := A) C n i g = OK (j, g') -> 0 <= j < zn n.
Proof.
  intros i g j g' Hi H. destruct (choose_j_total C n RK VC i g Hi) as [j' [g'' [E Hj]]].
  rewrite E in H. injection H; intros; subst; auto.
Qed.

Lemma zget_nth_d : forall {X} (l : list X) i v (d : X), zget l i = OK v ->
  0 <= i < Z.of_nat (length l) /\ v = nth (Z.to_nat i) l d.
Proof.
  intros X l i v d H. apply zget_ok_inv in H. destruct H as [H1 H2]. split.
  - assert (Z.to_nat i < length l)%nat by (apply nth_error_Some; congruence). lia.
  - apply nth_error_nth with (d := d) in H2. auto.
Qed.

(** the two rearrangements of a swap *)
Definition swapped {X} (d : X) (l l' : list X) (i j : nat) : Prop :=
  l' = lset (lset l i (nth j l d)) j (nth i l d).

(** the decision of a swap attempt between i and j, with the generator state before the draw *)
Definition swap_sum (G : gst) (i j : nat) : num A :=
  nsub (nsub (nadd (logpost_at U D (x_at G i) (beta_at G j)) (logpost_at U D (x_at G j) (beta_at G i)))
    (lp_at G i)) (lp_at G j).
Definition swap_ok (s : num A) (g : Z) : bool :=
  if nltb (nof 0) s then true else nltb (fst (drand48 (A := A) g)) (nexp s).

Lemma seq_swap_view : forall G i G' d, wf G -> 0 <= i < zn n - 1 -> seq_swap C U n D G i = OK (G', d) ->
  exists j g1, 
    choose_j (A := A) C n i (l_g (loc_at G 0)) = OK (j, g1) /\ 0 <= j < zn n /\
    let ni := Z.to_nat i in let nj := Z.to_nat j in
    sigt (g_ro G') = sigt (g_ro G) /\
    (forall r, (r < n)%nat ->
      l_sig (loc_at G' r) = l_sig (loc_at G r) /\ l_it (loc_at G' r) = l_it (loc_at G r) /\
      l_acc (loc_at G' r) = l_acc (loc_at G r) /\ l_beta (loc_at G' r) = l_beta (loc_at G r)) /\
    d = (if swap_ok (swap_sum G ni nj) g1 then 1 else 0) /\
    transit (g_ro G') = (if swap_ok (swap_sum G ni nj) g1
       then lset (lset (transit (g_ro G)) ni (x_at G nj)) nj (x_at G ni) else transit (g_ro G)) /\
    lps (g_ro G') = (if swap_ok (swap_sum G ni nj) g1
       then lset (lset (lps (g_ro G)) ni (logpost_at U D (x_at G nj) (beta_at G ni))) nj
              (logpost_at U D (x_at G ni) (beta_at G nj)) else lps (g_ro G)).
Proof.
  intros G i G' d W Hi H. unfold seq_swap in H.
  rewrite !(getloc_ok C n) in H by (auto; unfold root, slave_rank; lia). cbn [rbind] in H.
  change (nth root (g_locs G) dloc) with (loc_at G 0) in H.
  change (nth slave_rank (g_locs G) dloc) with (loc_at G 1) in H.
  destruct (choose_j C n i (l_g (loc_at G 0))) as [[j g1]|] eqn:Ej; [|discriminate]. cbn [rbind] in H.
  pose proof (choose_j_range _ _ _ _ Hi Ej) as Hj. exists j, g1. split; auto. split; auto.
  assert (B : forall r k, (r < n)%nat -> 0 <= k < zn n ->
      zget (l_beta (loc_at G r)) k = OK (beta_at G (Z.to_nat k))).
  { intros r k Hr Hk. unfold beta_at, zn in *.
    rewrite (wf_same _ _ _ W (loc_at G r) (loc_at G (Z.to_nat k)));
      try (apply nth_In; rewrite (wf_locs _ _ _ W); lia).
    rewrite (zget_tot C n VC _ _ (nof 0)); auto. rewrite (wf_beta _ _ _ W); auto.
    apply nth_In; rewrite (wf_locs _ _ _ W); lia. }
  unfold zn in *.
  rewrite !(zget_tot C n VC (transit (g_ro G)) _ []) in H by (auto; rewrite (wf_tr _ _ _ W); lia). cbn [rbind] in H.
  rewrite !(zget_tot C n VC (lps (g_ro G)) _ (nof 0)) in H by (auto; rewrite (wf_lps _ _ _ W); lia). cbn [rbind] in H.
  rewrite !B in H by lia. cbn [rbind] in H.
  change (nth (Z.to_nat i) (transit (g_ro G)) []) with (x_at G (Z.to_nat i)) in H.
  change (nth (Z.to_nat j) (transit (g_ro G)) []) with (x_at G (Z.to_nat j)) in H.
  change (nth (Z.to_nat i) (lps (g_ro G)) (nof 0)) with (lp_at G (Z.to_nat i)) in H.
  change (nth (Z.to_nat j) (lps (g_ro G)) (nof 0)) with (lp_at G (Z.to_nat j)) in H.
  fold (swap_sum G (Z.to_nat i) (Z.to_nat j)) in H.
  set (s := swap_sum G (Z.to_nat i) (Z.to_nat j)) in *.
  assert (K : exists g2, (if nltb (nof 0) s then (true, g1)
                       else let (u, g2) := drand48 g1 in (nltb u (nexp s), g2)) = (swap_ok s g1, g2)).
  { unfold swap_ok. destruct (nltb (nof 0) s); eauto. destruct (drand48 g1); simpl; eauto. }
  destruct K as [g2 K]. rewrite K in H. clear K. cbn zeta in *.
  destruct (with_g0 G g2) as [G1|] eqn:EG; [|discriminate]. cbn [rbind] in H.
  destruct (with_g0_view _ _ _ W EG) as [R1 R2].
  destruct (swap_ok s g1).
  - do 4 (rewrite zset_ok in H by (rewrite ?lset_length, ?(wf_tr _ _ _ W), ?(wf_lps _ _ _ W); lia);
      cbn [rbind] in H).
    injection H; intros; subst. cbn [g_ro sigt transit lps]. repeat split; auto.
    all: apply R2; auto.
  - injection H; intros; subst. rewrite R1. repeat split; auto.
    all: apply R2; auto.
Qed.

Lemma dist_view : forall (G : gst) t, wf G -> length t = n -> 
  g_ro (seq_distribute G t) = g_ro G /\
  forall r, (r < n)%nat -> l_sig (loc_at (seq_distribute G t) r) = nth r t [] /\
    l_g (loc_at (seq_distribute G t) r) = l_g (loc_at G r) /\
    l_it (loc_at (seq_distribute G t) r) = l_it (loc_at G r) /\
    l_acc (loc_at (seq_distribute G t) r) = l_acc (loc_at G r) /\
    l_beta (loc_at (seq_distribute G t) r) = l_beta (loc_at G r).
Proof.
  intros G t W Ht. split; auto. intros r Hr. unfold loc_at, seq_distribute. cbn [g_locs].
  rewrite (map2_nth _ _ _ r dloc []) by (rewrite ?(wf_locs _ _ _ W); lia). cbn. auto 10.
Qed.

Lemma ladder_view : forall G nsw npr G', wf G -> seq_ladder C n G nsw npr = OK G' ->
  g_ro G' = g_ro G /\
  exists b, tune_ladder (scale_tune_ladder C) (zero_stretch C) (zn n) nsw npr (l_beta (loc_at G 0)) = OK b /\
  length b = n /\
  forall r, (r < n)%nat -> l_sig (loc_at G' r) = l_sig (loc_at G r) /\ l_g (loc_at G' r) = l_g (loc_at G r) /\
    l_it (loc_at G' r) = l_it (loc_at G r) /\ l_acc (loc_at G' r) = l_acc (loc_at G r) /\
    l_beta (loc_at G' r) = b.
Proof.
  intros G nsw npr G' W H. unfold seq_ladder in H. rewrite (getloc_ok C n) in H by (auto; unfold root; lia).
  cbn [rbind] in H. rinv. split; auto. eexists. split; [eassumption|]. split.
  - erewrite tune_ladder_length by eassumption. apply (wf_beta _ _ _ W). apply nth_In. rewrite (wf_locs _ _ _ W). unfold root; lia.
  - intros r Hr. unfold loc_at. cbn [g_locs].
    rewrite (map_nth2 _ _ r dloc) by (rewrite (wf_locs _ _ _ W); auto). cbn. auto 10.
Qed.

(** the locals that the tuning of a rank leaves alone *)
Definition same_chain (G G' : gst) : Prop :=
  transit (g_ro G') = transit (g_ro G) /\ lps (g_ro G') = lps (g_ro G) /\
  forall r, (r < n)%nat -> l_it (loc_at G' r) = l_it (loc_at G r) /\
    l_acc (loc_at G' r) = l_acc (loc_at G r) /\ l_beta (loc_at G' r) = l_beta (loc_at G r).

Lemma same_chain_refl : forall G, same_chain G G.
Proof. intros. repeat split; auto. Qed.
Lemma same_chain_trans : forall a b c, same_chain a b -> same_chain b c -> same_chain a c.
Proof.
  intros a b c [A1 [A2 A3]] [B1 [B2 B3]]. split; [congruence|]. split; [congruence|].
  intros r Hr. destruct (A3 r Hr) as [? [? ?]]. destruct (B3 r Hr) as [? [? ?]]. repeat split; congruence.
Qed.

Lemma tune_parm_view : forall rk al x lp jp G ars G' ars', wf G ->
  seq_tune_parm C U n D rk al x lp jp (G, ars) = OK (G', ars') ->
  same_chain G G' /\ g_ro G' = g_ro G.
Proof.
  intros rk al x lp jp G ars G' ars' W H. unfold seq_tune_parm in H. rinv.
  destruct (tune_matrix_shape C n Hn _ _ _ _ _ _ (wf_sigrow _ _ _ W) E) as [M1 M2].
  destruct (dist_view G v W M1) as [R1 R2].
  pose proof (seq_distribute_wf C n Hn G v W M1 M2) as W1.
  apply (tab_ok n _ _ (nof 0, 0)) in E0. destruct E0 as [L0 _].
  change (map2 loc_sig (g_locs G) v) with (g_locs (seq_distribute G v)).
  set (G1 := seq_distribute G v) in *. clearbody G1.
  split; [|auto]. unfold same_chain. cbn [g_ro]. split; [auto|]. split; [auto|].
  intros r Hr. destruct (R2 r Hr) as [_ [_ [? [? ?]]]].
  assert (K : loc_at (mkG (map2 loc_g (g_locs G1) (map snd v0)) (g_ro G)) r
              = loc_g (loc_at G1 r) (nth r (map snd v0) 0)).
  { unfold loc_at. cbn [g_locs].
    rewrite (map2_nth _ _ _ r dloc 0) by (rewrite ?map_length, ?(wf_locs _ _ _ W1); lia). auto. }
  rewrite K. cbn. auto.
Qed.

Lemma tune_parms_view : forall rk al x lp l G ars G' ars', wf G ->
  foldM l (seq_tune_parm C U n D rk al x lp) (G, ars) = OK (G', ars') ->
  same_chain G G' /\ g_ro G' = g_ro G.
Proof.
  induction l as [|jp l IH]; intros G ars G' ars' W H; cbn [foldM] in H; rinv.
  - split; auto. apply same_chain_refl.
  - destruct (seq_tune_parm_wf C U n Hn D _ _ _ _ _ _ _ _ _ W E) as [W1 _].
    destruct (tune_parm_view _ _ _ _ _ _ _ _ _ W E) as [S1 R1].
    destruct (IH _ _ _ _ W1 H) as [S2 R2]. split; [eapply same_chain_trans; eauto|congruence].
Qed.

Lemma tune_irank_view : forall G rk G', wf G -> 0 <= rk < zn n -> seq_tune_irank C U n D G rk = OK G' ->
  same_chain G G' /\
  (forall r, r <> Z.to_nat rk -> sigt_at G' r = sigt_at G r).
Proof.
  intros G rk G' W Hrk H. unfold seq_tune_irank in H. rinv.
  destruct (tune_parms_view _ _ _ _ _ _ _ _ _ W E2) as [S1 R1].
  destruct (seq_tune_parms_wf C U n Hn D _ _ _ _ _ _ _ _ _ W E2) as [W1 _].
  destruct (with_g0_view _ _ _ W1 E6) as [R2 L2].
  split.
  - eapply same_chain_trans; [exact S1|]. split; [cbn; rewrite R2; auto|]. split; [cbn; rewrite R2; auto|].
    intros r Hr. destruct (L2 r Hr) as [_ [? [? [? _]]]]. unfold loc_at in *. cbn [g_locs]. auto.
  - intros r Hne. unfold sigt_at. cbn [g_ro sigt]. rewrite R1 in E5.
    unfold modify_sigma_prop in E5.
    destruct (0 <=? z0); rinv;
      match goal with H : zset (sigt _) _ _ = OK _ |- _ => apply zset_ok_inv in H; destruct H as [_ ->] end;
      apply nth_lset_ne; auto.
Qed.

Lemma tune_all_view : forall flags G G', wf G -> seq_tune_all C U n D flags G = OK G' ->
  same_chain G G' /\
  (forall r, (r < n)%nat -> nth r flags 0 <> 1 -> sigt_at G' r = sigt_at G r).
Proof.
  intros flags G G' W. unfold seq_tune_all.
  assert (Hin : forall r, In r (zseq (zn n)) -> 0 <= r < zn n) by (intro r; apply (in_zseq C n VC)).
  revert G W. induction (zseq (zn n)) as [|k l IH]; intros G W H; cbn [foldM] in H; rinv.
  - split; auto. apply same_chain_refl.
  - assert (Hk : 0 <= k < zn n) by (apply Hin; left; auto).
    assert (K : SeqWf.wf C n v /\ same_chain G v /\ (forall r, (r < n)%nat -> nth r flags 0 <> 1 -> sigt_at v r = sigt_at G r)).
    { match goal with H : zget flags k = OK ?f, H2 : (if _ then _ else _) = OK v |- _ =>
        destruct (zget_nth_d flags k f 0 H) as [_ Hf]; destruct (Z.eqb_spec f 1); rename H2 into HT end.
      - split; [eapply seq_tune_irank_wf; eauto|]. destruct (tune_irank_view _ _ _ W Hk HT) as [S1 S2].
        split; auto. intros r Hr Hfr. apply S2. intros ->. congruence.
      - rinv. split; auto. split; auto. apply same_chain_refl. }
    destruct K as [W1 [S1 T1]].
    destruct (IH ltac:(intros; apply Hin; right; auto) v W1 H) as [S2 T2].
    split; [eapply same_chain_trans; eauto|]. intros r Hr Hf. rewrite T2 by auto. auto.
Qed.

End Views.
