(** The swap attempts of a run, one by one. *)
From Coq Require Import ZArith Arith List Bool Lia Permutation.
From Verif Require Import Base Arith Rand Mh Ladder Tune Mpi MpiMeta Spmd Prog Seq ListAux MhSpec SeqWf Refine
  SeqTotal System Runs SeqFiles History Views RunHist HistCount HistRows.
Import ListNotations.
Open Scope Z_scope.

(** one swap attempt: the two positions, the generator state of root when acceptance is decided, the
    state before (before the first position is drawn) and after, and whether the swap was executed *)
Record swrec {A} : Type := mkSw {
  sw_i : nat; sw_j : nat; sw_g : Z; sw_pre : gst (A := A); sw_post : gst (A := A); sw_done : bool }.
Arguments swrec A : clear implicits.

(** [attempt S D w]: how the positions are drawn, how the decision is taken, and what changes *)
Definition attempt {A} (S : Setup A) (D : Data A) (w : swrec A) : Prop :=
  let G := sw_pre w in let G' := sw_post w in let i := sw_i w in let j := sw_j w in
  (exists g1, i4_unif_0a (A := A) (Z.of_nat (s_n S) - 1) (l_g (loc_at G 0)) = OK (Z.of_nat i, g1) /\
     choose_j (A := A) (s_cfg S) (s_n S) (Z.of_nat i) g1 = OK (Z.of_nat j, sw_g w)) /\
  (i < s_n S - 1)%nat /\ (j < s_n S)%nat /\
  sw_done w = swap_ok (swap_sum (s_user S) D G i j) (sw_g w) /\
  same_locs (s_n S) G G' /\
  (forall r, (r < s_n S)%nat ->
    x_at G' r = (if sw_done w then if Nat.eqb r i then x_at G j else if Nat.eqb r j then x_at G i else x_at G r
                 else x_at G r) /\
    lp_at G' r = (if sw_done w then if Nat.eqb r j then logpost_at (s_user S) D (x_at G i) (beta_at G j)
                                    else if Nat.eqb r i then logpost_at (s_user S) D (x_at G j) (beta_at G i)
                                    else lp_at G r
                  else lp_at G r)) /\
  wf (s_cfg S) (s_n S) G /\ wf (s_cfg S) (s_n S) G'.

(** one after the other *)
Inductive swaps {A} : gst (A := A) -> list (swrec A) -> gst (A := A) -> Prop :=
| swaps_nil : forall G, swaps G [] G
| swaps_cons : forall w ws G', swaps (sw_post w) ws G' -> swaps (sw_pre w) (w :: ws) G'.

(** swap statistics: the number of attempts and of executed swaps is added up per lower position *)
Definition tally {A} (l : list (num A)) (i : nat) (d : Z) : list (num A) := lset l i (nadd (nth i l (nof 0)) (nof d)).
Definition attempts {A} (l : list (num A)) (ws : list (swrec A)) : list (num A) :=
  fold_left (fun l w => tally l (sw_i w) 1) ws l.
Definition successes {A} (l : list (num A)) (ws : list (swrec A)) : list (num A) :=
  fold_left (fun l w => tally l (sw_i w) (if sw_done w then 1 else 0)) ws l.

Section Swap.
Context {A : Arith}.
Variable S : Setup A.
Hypothesis HL : Legal S.
Notation C := (s_cfg S).
Notation U := (s_user S).
Notation n := (s_n S).
Let RK := proj1 HL.
Let VC := proj1 (proj2 HL).
Let VU := proj1 (proj2 (proj2 HL)).
Variable D : Data A.

Lemma bump_tally : forall (l l' : list (num A)) i d, 0 <= i -> bump l i d = OK l' -> l' = tally l (Z.to_nat i) d.
Proof.
  intros l l' i d Hi H. unfold bump in H. rinv. apply (zget_nth_d C n VC l i v (nof 0)) in E. destruct E as [_ ->].
  apply zset_ok_inv in H. destruct H as [_ ->]. reflexivity.
Qed.

Lemma beta_same : forall G G' : gst (A := A), same_locs n G G' -> forall r, (r < n)%nat -> beta_at G' r = beta_at G r.
Proof. intros G G' [_ H] r Hr. unfold beta_at. destruct (H r Hr) as [_ [_ [_ ->]]]. reflexivity. Qed.

Lemma round_attempt : forall k G isw nsw npr G' i' nsw' npr', wf C n G ->
  seq_round C U n D k (G, isw, nsw, npr) = OK (G', i', nsw', npr') ->
  exists w, sw_pre w = G /\ sw_post w = G' /\ attempt S D w /\
    (0 < Tune_Ladder C -> npr' = tally npr (sw_i w) 1 /\ nsw' = tally nsw (sw_i w) (if sw_done w then 1 else 0)) /\
    (Tune_Ladder C <= 0 -> npr' = npr /\ nsw' = nsw).
Proof.
  intros k G isw nsw npr G' i' nsw' npr' W H.
  pose proof (round_frame C U n D RK VC _ _ _ _ _ _ _ _ _ W H) as [SF [_ W']].
  unfold seq_round in H. rinv.
  match goal with H : getloc G root = OK ?l |- _ => apply getloc_nth in H; change (nth root (g_locs G) dloc) with (loc_at G 0) in H; subst l end.
  match goal with H : i4_unif_0a _ _ = OK (?i, ?g) |- _ => rename i into i0; rename g into g0; rename H into Hdraw end.
  pose proof (draw_range RK _ _ _ _ (nminus_range C n VC) Hdraw) as [Hi _].
  match goal with H : with_g0 _ _ = OK ?g |- _ => destruct (with_g0_view C n VC _ _ _ W H) as [R1 V1];
    pose proof (with_g0_frame C n VC _ _ _ W H) as [S1 _]; apply (with_g0_wf C n (vc_n _ _ VC)) in H; [|exact W]; rename g into Ga, H into Wa end.
  match goal with H : seq_swap _ _ _ _ _ _ = OK (?g, ?d) |- _ =>
    destruct (seq_swap_view C U n D RK VC _ _ _ _ Wa Hi H) as [j [g1 [Ej [Hj [Hs [HLc [Hd [HT HP]]]]]]]]; rename g into Gb; rename d into dsw; clear H end.
  assert (Hn : (2 <= n)%nat) by apply (vc_n _ _ VC). unfold zn in *.
  set (ni := Z.to_nat i0) in *. set (nj := Z.to_nat j) in *.
  assert (EX : forall r, x_at Ga r = x_at G r) by (intros; unfold x_at; rewrite R1; auto).
  assert (EL : forall r, lp_at Ga r = lp_at G r) by (intros; unfold lp_at; rewrite R1; auto).
  assert (EB : forall r, (r < n)%nat -> beta_at Ga r = beta_at G r) by (apply beta_same; auto).
  assert (ES : swap_sum U D Ga ni nj = swap_sum U D G ni nj).
  { unfold swap_sum. rewrite !EX, !EL, !EB by (unfold ni, nj; lia). reflexivity. }
  rewrite ES in *. set (ok := swap_ok (swap_sum U D G ni nj) g1) in *.
  assert (EG : Gb = G'). { destruct (0 <? Tune_Ladder C); rinv; auto. } subst Gb.
  exists (mkSw _ ni nj g1 G G' ok). cbn [sw_pre sw_post sw_i sw_j sw_g sw_done].
  split; [reflexivity|]. split; [reflexivity|]. split.
  - unfold attempt. cbn [sw_pre sw_post sw_i sw_j sw_g sw_done]. cbn zeta. split.
    { exists g0. replace (Z.of_nat ni) with i0 by (unfold ni; lia). replace (Z.of_nat nj) with j by (unfold nj; lia).
      split; [exact Hdraw|].
      assert (Eg : l_g (loc_at Ga 0) = g0). { destruct (V1 0%nat ltac:(lia)) as [_ [_ [_ [_ ->]]]]. reflexivity. }
      rewrite Eg in Ej. exact Ej. }
    split; [unfold ni; lia|]. split; [unfold nj; lia|]. split; [reflexivity|]. split; [exact SF|].
    split; [|split; [exact W|exact W']].
    intros r Hr. unfold x_at at 1, lp_at at 1. rewrite HT, HP. clear HT HP.
    assert (L1 : length (transit (g_ro Ga)) = n) by apply (wf_tr _ _ _ Wa).
    assert (L2 : length (lps (g_ro Ga)) = n) by apply (wf_lps _ _ _ Wa).
    assert (Hni : (ni < n)%nat) by (unfold ni; lia). assert (Hnj : (nj < n)%nat) by (unfold nj; lia).
    destruct ok.
    + split.
      * destruct (Nat.eqb_spec r ni) as [->|Hri].
        -- destruct (Nat.eq_dec ni nj) as [e|Hne].
           ++ rewrite <- e. rewrite nth_lset_eq by (rewrite lset_length, L1; auto). rewrite EX. reflexivity.
           ++ rewrite nth_lset_ne by auto. rewrite nth_lset_eq by (rewrite L1; auto). rewrite EX. reflexivity.
        -- destruct (Nat.eqb_spec r nj) as [->|Hrj].
           ++ rewrite nth_lset_eq by (rewrite lset_length, L1; auto). rewrite EX. reflexivity.
           ++ rewrite !nth_lset_ne by auto. apply EX.
      * destruct (Nat.eqb_spec r nj) as [->|Hrj].
        -- rewrite nth_lset_eq by (rewrite lset_length, L2; auto). rewrite EX, EB by auto. reflexivity.
        -- rewrite nth_lset_ne by auto. destruct (Nat.eqb_spec r ni) as [->|Hri].
           ++ rewrite nth_lset_eq by (rewrite L2; auto). rewrite EX, EB by auto. reflexivity.
           ++ rewrite nth_lset_ne by auto. apply EL.
    + split; [apply EX|apply EL].
  - destruct (Z.ltb_spec 0 (Tune_Ladder C)); rinv; (split; intros HT0; [|]); try lia; auto.
    match goal with H1 : bump npr _ _ = OK ?a, H2 : bump nsw _ _ = OK ?b |- _ => apply bump_tally in H1; [|lia]; apply bump_tally in H2; [|lia] end.
    subst. split; [reflexivity|]. unfold ok. reflexivity.
Qed.

Lemma rounds_attempts : forall l G isw nsw npr G' i' nsw' npr', wf C n G ->
  foldM l (seq_round C U n D) (G, isw, nsw, npr) = OK (G', i', nsw', npr') ->
  exists ws, length ws = length l /\ swaps G ws G' /\ Forall (attempt S D) ws /\
    (0 < Tune_Ladder C -> npr' = attempts npr ws /\ nsw' = successes nsw ws) /\
    (Tune_Ladder C <= 0 -> npr' = npr /\ nsw' = nsw).
Proof.
  induction l as [|k l IH]; intros G isw nsw npr G' i' nsw' npr' W H; cbn [foldM] in H.
  - injection H; intros; subst. exists []. repeat split; auto; constructor.
  - destruct (seq_round C U n D k (G, isw, nsw, npr)) as [[[[G1 i1] nsw1] npr1]|] eqn:E; [|discriminate]. cbn [rbind] in H.
    pose proof (round_frame C U n D RK VC _ _ _ _ _ _ _ _ _ W E) as [_ [_ W1]].
    destruct (round_attempt _ _ _ _ _ _ _ _ _ W E) as [w [Ep [Eq [Hw [Ht1 Ht2]]]]].
    destruct (IH _ _ _ _ _ _ _ _ W1 H) as [ws [Lw [Sw [Fw [Hc1 Hc2]]]]].
    exists (w :: ws). split; [cbn; auto|]. split; [rewrite <- Ep; constructor; rewrite Eq; exact Sw|]. split; [constructor; auto|].
    split; intros HT0.
    + destruct (Ht1 HT0) as [T1 T2]. destruct (Hc1 HT0) as [T3 T4]. cbn [attempts successes fold_left]. subst. auto.
    + destruct (Ht2 HT0) as [-> ->]. apply Hc2; auto.
Qed.

Lemma swaps_app : forall G ws G1 ws' G2, swaps (A := A) G ws G1 -> swaps G1 ws' G2 -> swaps G (ws ++ ws') G2.
Proof. induction 1; intros H'; cbn [app]; auto. constructor; auto. Qed.

(** the swaps of one batch *)
Definition batch_swaps (b : brec (A := A)) (ws : list (swrec A)) : Prop :=
  length ws = Z.to_nat (N_swap C) /\ swaps (br_mid b) ws (br_post b) /\ Forall (attempt S D) ws.

Lemma bruns_swaps : forall len i G isw nsw npr bl G' nsw' npr', bruns C U n D len i G isw nsw npr bl G' nsw' npr' -> wf C n G ->
  exists wss, Forall2 batch_swaps bl wss /\
    (0 < Tune_Ladder C -> npr' = attempts npr (concat wss) /\ nsw' = successes nsw (concat wss)) /\
    (Tune_Ladder C <= 0 -> npr' = npr /\ nsw' = nsw).
Proof.
  induction 1; intros W; [exists []; repeat split; auto; constructor|].
  pose proof (with_g0_wf C n (vc_n _ _ VC) _ _ _ W H2) as W1.
  pose proof (seq_batch_wf C U n (vu_ok _ _ VU) (vc_n _ _ VC) _ _ _ _ _ W1 H3) as W2.
  destruct (rounds_attempts _ _ _ _ _ _ _ _ _ W2 H4) as [ws [Lw [Sw [Fw [Hc1 Hc2]]]]].
  destruct (rounds_frame C U n D RK VC _ _ _ _ _ _ _ _ _ W2 H4) as [_ [_ W3]].
  destruct (IHbruns W3) as [wss [Hw [H6 H7]]].
  exists (ws :: wss). split; [constructor; auto|].
  { split; [rewrite Lw; unfold zseq; rewrite map_length, seq_length; reflexivity|]. split; auto. }
  split; intros HT0.
  - destruct (Hc1 HT0) as [-> ->]. destruct (H6 HT0) as [-> ->]. cbn [concat]. unfold attempts, successes.
    rewrite !fold_left_app. auto.
  - destruct (Hc2 HT0) as [-> ->]. apply H7; auto.
Qed.

(** the swaps of a whole run, and the statistics of each stack *)
Lemma history_swaps : forall G0 h Gf, history S D G0 h Gf ->
  Forall (fun s => exists wss, Forall2 batch_swaps (sr_batches s) wss /\
    (0 < Tune_Ladder C -> sr_npr s = attempts (repeat (nof 0) n) (concat wss) /\ sr_nsw s = successes (repeat (nof 0) n) (concat wss))) h.
Proof.
  intros G0 h Gf HH. destruct (history_count S HL _ _ _ _ HH) as [_ [HF _]]. eapply Forall_impl; [|exact HF].
  intros s [_ [_ [_ [_ [_ [Wp [_ [_ [_ [_ [_ [_ [_ [HB _]]]]]]]]]]]]]].
  destruct (bruns_swaps _ _ _ _ _ _ _ _ _ _ HB Wp) as [wss [H1 [H2 _]]]. exists wss. split; auto.
  intros HT0. unfold cnt0 in H2. rewrite (proj2 (Z.ltb_lt _ _) HT0) in H2. auto.
Qed.

Lemma history_swaps_flat : forall G0 h Gf, history S D G0 h Gf -> exists wss, Forall2 batch_swaps (hbatches h) wss.
Proof.
  intros G0 h Gf HH. pose proof (history_swaps _ _ _ HH) as HF. clear HH. unfold hbatches.
  induction HF as [|s h [wss [Hs _]] HF [w2 IH]]; [exists []; constructor|]. exists (wss ++ w2). cbn [map concat]. apply Forall2_app; auto.
Qed.

(** swaps only permute the parameter vectors *)
Lemma attempt_perm : forall w, attempt S D w -> Permutation (transit (g_ro (sw_pre w))) (transit (g_ro (sw_post w))).
Proof.
  intros w [_ [Hi [Hj [_ [_ [HX [W W']]]]]]].
  assert (E : transit (g_ro (sw_post w)) = if sw_done w then lset (lset (transit (g_ro (sw_pre w))) (sw_i w) (x_at (sw_pre w) (sw_j w))) (sw_j w) (x_at (sw_pre w) (sw_i w)) else transit (g_ro (sw_pre w))).
  { apply (nth_ext _ _ [] []).
    - destruct (sw_done w); rewrite ?lset_length, (wf_tr _ _ _ W), (wf_tr _ _ _ W'); auto.
    - rewrite (wf_tr _ _ _ W'). intros r Hr. destruct (HX r Hr) as [Hx _]. unfold x_at at 1 in Hx. rewrite Hx.
      destruct (sw_done w); auto. pose proof (wf_tr _ _ _ W) as L. 
      destruct (Nat.eqb_spec r (sw_i w)) as [->|Hri].
      + destruct (Nat.eq_dec (sw_i w) (sw_j w)) as [e|Hne].
        * rewrite e. rewrite nth_lset_eq by (rewrite lset_length, L; auto). reflexivity.
        * rewrite nth_lset_ne by auto. rewrite nth_lset_eq by (rewrite L; lia). reflexivity.
      + destruct (Nat.eqb_spec r (sw_j w)) as [->|Hrj].
        * rewrite nth_lset_eq by (rewrite lset_length, L; auto). reflexivity.
        * rewrite !nth_lset_ne by auto. reflexivity. }
  rewrite E. destruct (sw_done w); auto. unfold x_at. apply lset_swap_perm; rewrite (wf_tr _ _ _ W); lia.
Qed.
Lemma swaps_perm : forall G ws G', swaps G ws G' -> Forall (attempt S D) ws ->
  Permutation (transit (g_ro G)) (transit (g_ro G')).
Proof.
  induction 1; intros HF; auto. inversion HF; subst. eapply Permutation_trans; [apply attempt_perm; eauto|]. auto.
Qed.
End Swap.
