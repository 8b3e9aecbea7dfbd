(** Counting along a history: lengths of stacks and batches, iteration counters, saved rows. *)
From Coq Require Import ZArith Arith List Bool Lia Permutation.
From Verif Require Import Base Arith B64 Rand Mh Ladder Tune Mpi MpiMeta Spmd Prog Seq ListAux MhSpec SeqWf Refine
  SeqTotal System RandRange Demo Runs SeqFiles History Views RunHist.
Import ListNotations.
Open Scope Z_scope.

Fixpoint zsum (l : list Z) : Z := match l with [] => 0 | x :: t => x + zsum t end.

Section Frame.
Context {A : Arith}.
Variable C : Cfg A.
Variable U : User A.
Variable n : nat.
Variable D : Data A.
Hypothesis RK : RandOK A.
Hypothesis VC : ValidCfg C n.
Hypothesis VU : ValidUser C U.
Notation wf := (wf C n).

(** what swaps leave alone *)
Definition same_locs (G G' : gst (A := A)) : Prop :=
  sigt (g_ro G') = sigt (g_ro G) /\
  forall r, (r < n)%nat ->
    l_sig (loc_at G' r) = l_sig (loc_at G r) /\ l_it (loc_at G' r) = l_it (loc_at G r) /\
    l_acc (loc_at G' r) = l_acc (loc_at G r) /\ l_beta (loc_at G' r) = l_beta (loc_at G r).

Lemma same_locs_refl : forall G, same_locs G G.
Proof. intros; split; auto. Qed.
Lemma same_locs_trans : forall a b c, same_locs a b -> same_locs b c -> same_locs a c.
Proof.
  intros a b c [A1 A2] [B1 B2]. split; [congruence|]. intros r Hr.
  destruct (A2 r Hr) as [? [? [? ?]]]. destruct (B2 r Hr) as [? [? [? ?]]]. repeat split; congruence.
Qed.

Lemma lset_swap_perm : forall {X} (l : list X) i j (d : X), (i < length l)%nat -> (j < length l)%nat ->
  Permutation l (lset (lset l i (nth j l d)) j (nth i l d)).
Proof.
  intros X l i j d Hi Hj. apply (Permutation_nth l _ d). rewrite !lset_length. split; auto.
  exists (fun k => if Nat.eqb k i then j else if Nat.eqb k j then i else k).
  split; [|split].
  - intros k Hk. destruct (Nat.eqb_spec k i); auto. destruct (Nat.eqb_spec k j); auto.
  - intros a b Ha Hb. destruct (Nat.eqb_spec a i), (Nat.eqb_spec b i), (Nat.eqb_spec a j), (Nat.eqb_spec b j); lia.
  - intros k Hk. destruct (Nat.eqb_spec k i) as [->|Hki].
    + destruct (Nat.eq_dec i j) as [->|Hij].
      * apply nth_lset_eq. rewrite lset_length; auto.
      * rewrite nth_lset_ne by auto. apply nth_lset_eq. auto.
    + destruct (Nat.eqb_spec k j) as [->|Hkj].
      * apply nth_lset_eq. rewrite lset_length; auto.
      * rewrite !nth_lset_ne by auto. auto.
Qed.

Lemma with_g0_frame : forall G g G', wf G -> with_g0 G g = OK G' -> same_locs G G' /\ g_ro G' = g_ro G.
Proof.
  intros G g G' W H. destruct (with_g0_view C n VC _ _ _ W H) as [R L]. split; auto. split; [rewrite R; auto|].
  intros r Hr. destruct (L r Hr) as [? [? [? [? ?]]]]. auto.
Qed.

Lemma swap_frame : forall G i G' d, wf G -> 0 <= i < zn n - 1 -> seq_swap C U n D G i = OK (G', d) ->
  same_locs G G' /\ Permutation (transit (g_ro G)) (transit (g_ro G')).
Proof.
  intros G i G' d W Hi H.
  destruct (seq_swap_view C U n D RK VC _ _ _ _ W Hi H) as [j [g1 [_ [Hj [Hs [HL [_ [HT _]]]]]]]].
  split; [split; auto|]. rewrite HT. destruct (swap_ok _ _); auto.
  unfold x_at, zn in *. apply lset_swap_perm; rewrite (wf_tr _ _ _ W); lia.
Qed.

Lemma round_frame : forall k G isw nsw npr G' i' nsw' npr', wf G ->
  seq_round C U n D k (G, isw, nsw, npr) = OK (G', i', nsw', npr') ->
  same_locs G G' /\ Permutation (transit (g_ro G)) (transit (g_ro G')) /\ wf G'.
Proof.
  intros k G isw nsw npr G' i' nsw' npr' W H.
  pose proof (seq_round_wf C U n (vc_n _ _ VC) D _ _ _ _ _ _ _ _ _ W H) as W'.
  unfold seq_round in H. rinv.
  match goal with H : i4_unif_0a _ _ = _ |- _ => apply (draw_range RK _ _ _ _ (nminus_range C n VC)) in H; destruct H as [Hi _] end.
  match goal with H : with_g0 _ _ = OK ?g |- _ => destruct (with_g0_frame _ _ _ W H) as [S1 R1];
    apply (with_g0_wf C n (vc_n _ _ VC)) in H; [|exact W]; rename g into Ga, H into Wa end.
  match goal with H : seq_swap _ _ _ _ _ _ = _ |- _ => destruct (swap_frame _ _ _ _ Wa Hi H) as [S2 P2] end.
  rewrite R1 in P2.
  destruct (0 <? Tune_Ladder C); rinv; (split; [eapply same_locs_trans; eauto|auto]).
Qed.

Lemma rounds_frame : forall l G isw nsw npr G' i' nsw' npr', wf G ->
  foldM l (seq_round C U n D) (G, isw, nsw, npr) = OK (G', i', nsw', npr') ->
  same_locs G G' /\ Permutation (transit (g_ro G)) (transit (g_ro G')) /\ wf G'.
Proof.
  induction l as [|k l IH]; intros G isw nsw npr G' i' nsw' npr' W H; cbn [foldM] in H; rinv.
  - split; [apply same_locs_refl|auto].
  - destruct (round_frame _ _ _ _ _ _ _ _ _ W E) as [S1 [P1 W1]].
    destruct (IH _ _ _ _ _ _ _ _ W1 H) as [S2 [P2 W2]].
    split; [eapply same_locs_trans; eauto|]. split; auto. eapply Permutation_trans; eauto.
Qed.

(** ** counting inside one stack; [base] iterations were done before *)
Definition bcount (base : Z) (b : brec (A := A)) : Prop :=
  1 <= br_len b <= n_iter_a_batch_base C + n_iter_a_batch_rand C /\ 0 <= br_from b /\
  wf (br_pre b) /\ wf (br_mid b) /\
  seq_batch C U n D (br_pre b) (br_len b) = OK (br_mid b, br_rows b) /\
  same_locs (br_mid b) (br_post b) /\ Permutation (transit (g_ro (br_mid b))) (transit (g_ro (br_post b))) /\
  forall r, (r < n)%nat ->
    l_it (loc_at (br_pre b) r) = base + br_from b /\
    l_it (loc_at (br_mid b) r) = base + br_from b + br_len b.

(** the batches follow each other *)
Fixpoint bfollow (i : Z) (bl : list (brec (A := A))) : Prop :=
  match bl with [] => True | b :: t => br_from b = i /\ bfollow (i + br_len b) t end.

Lemma bruns_count : forall base len i G isw nsw npr bl G' a b,
  bruns C U n D len i G isw nsw npr bl G' a b ->
  wf G -> 0 <= i <= len -> len <= n_iter_a_stack C -> 0 <= base -> base + len <= INT_MAX ->
  (forall r, (r < n)%nat -> l_it (loc_at G r) = base + i) ->
  zsum (map br_len bl) = len - i /\ Forall (bcount base) bl /\ bfollow i bl /\ wf G' /\
  (forall r, (r < n)%nat -> l_it (loc_at G' r) = base + len) /\
  (forall r, (r < n)%nat -> l_beta (loc_at G' r) = l_beta (loc_at G r)) /\
  (forall r, (r < n)%nat -> l_sig (loc_at G' r) = l_sig (loc_at G r)) /\
  sigt (g_ro G') = sigt (g_ro G).
Proof.
  induction 1; intros W Hi Hlen Hb Hmax Hit.
  - assert (i = len) by lia. subst. cbn. split; [lia|]. split; [constructor|]. auto 10.
  - pose proof (vc_n _ _ VC) as Hn.
    destruct (next_batch_total C n RK VC len i (l_g l0)) as [nx' [nb' [E [Hnb [Hnx Hle]]]]]; [lia|auto|].
    rewrite E in H1. injection H1; intros; subst nx' nb' g. clear E H1.
    pose proof (with_g0_wf C n Hn _ _ _ W H2) as W1.
    destruct (with_g0_frame _ _ _ W H2) as [S1 R1].
    pose proof (seq_batch_wf C U n (vu_ok _ _ VU) Hn _ _ _ _ _ W1 H3) as W2.
    destruct (seq_batch_view C U n D VC VU _ _ _ _ W1 H3) as [_ [T2 V2]].
    destruct (rounds_frame _ _ _ _ _ _ _ _ _ W2 H4) as [S3 [P3 W3]].
    assert (I1 : forall r, (r < n)%nat -> l_it (loc_at G1 r) = base + i).
    { intros r Hr. destruct S1 as [_ S1]. destruct (S1 r Hr) as [_ [-> _]]. auto. }
    assert (I2 : forall r, (r < n)%nat -> l_it (loc_at G2 r) = base + i + nb).
    { intros r Hr. destruct (V2 r Hr) as [_ [_ [_ [-> _]]]]. rewrite I1 by auto.
      apply u32_small. unfold UINT_MOD, INT_MAX in *. lia. }
    assert (I3 : forall r, (r < n)%nat -> l_it (loc_at G3 r) = base + nx).
    { intros r Hr. destruct S3 as [_ S3]. destruct (S3 r Hr) as [_ [-> _]]. rewrite I2; auto. lia. }
    destruct (IHbruns W3) as [J1 [J2 [J3 [J4 [J5 [J6 [J7 J8]]]]]]]; auto; [lia|].
    split; [cbn [map zsum br_len]; lia|]. split.
    { constructor; auto. unfold bcount. cbn [br_len br_from br_pre br_mid br_post br_rows].
      split; [lia|]. split; [lia|]. split; [auto|]. split; [auto|]. split; [auto|]. split; [auto|]. split; [auto|].
      intros r Hr. rewrite I1, I2 by auto. lia. }
    split; [cbn [bfollow br_from br_len]; split; auto; replace (i + nb) with nx by lia; auto|].
    split; [exact J4|]. split; [exact J5|]. split; [|split].
    + intros r Hr. rewrite J6 by auto. destruct S3 as [_ S3]. destruct (S3 r Hr) as [_ [_ [_ ->]]].
      destruct (V2 r Hr) as [_ [_ [-> _]]]. destruct S1 as [_ S1]. apply S1; auto.
    + intros r Hr. rewrite J7 by auto. destruct S3 as [_ S3]. destruct (S3 r Hr) as [-> _].
      destruct (V2 r Hr) as [_ [-> _]]. destruct S1 as [_ S1]. apply S1; auto.
    + rewrite J8. destruct S3 as [-> _]. rewrite T2. apply S1.
Qed.

(** ** counting along the run *)
Definition scount (s : srec (A := A)) : Prop :=
  1 <= sr_len s <= n_iter_a_stack C /\ 0 <= sr_from s /\ sr_end s <= N_iter C /\
  (sr_end s < N_iter C -> sr_len s = n_iter_a_stack C) /\
  wf (sr_in s) /\ wf (sr_pre s) /\ wf (sr_mid s) /\ wf (sr_lad s) /\ wf (sr_post s) /\
  sr_pre s = seq_distribute (sr_in s) (sigt (g_ro (sr_in s))) /\
  zsum (map br_len (sr_batches s)) = sr_len s /\ Forall (bcount (sr_from s)) (sr_batches s) /\
  bfollow 0 (sr_batches s) /\
  bruns C U n D (sr_len s) 0 (sr_pre s) 0 (cnt0 C n) (cnt0 C n) (sr_batches s) (sr_mid s) (sr_nsw s) (sr_npr s) /\
  (if adapts C (sr_mid s) then seq_ladder C n (sr_mid s) (sr_nsw s) (sr_npr s) else OK (sr_mid s)) = OK (sr_lad s) /\
  (if tunes C (sr_end s) then
     seq_tune_all C U n D (map (tune_flag C) (rates (sr_pre s) (sr_lad s) (sr_len s))) (sr_lad s)
   else OK (sr_lad s)) = OK (sr_post s) /\
  (forall r, (r < n)%nat ->
    l_it (loc_at (sr_in s) r) = sr_from s /\ l_it (loc_at (sr_pre s) r) = sr_from s /\
    l_it (loc_at (sr_mid s) r) = sr_end s /\ l_it (loc_at (sr_lad s) r) = sr_end s /\
    l_it (loc_at (sr_post s) r) = sr_end s) /\
  (forall r, (r < n)%nat -> l_beta (loc_at (sr_mid s) r) = l_beta (loc_at (sr_in s) r)) /\
  (forall r, (r < n)%nat -> l_sig (loc_at (sr_pre s) r) = sigt_at (sr_in s) r) /\
  sigt (g_ro (sr_lad s)) = sigt (g_ro (sr_in s)).

Fixpoint sfollow (i : Z) (G : gst (A := A)) (h : list (srec (A := A))) (Gf : gst (A := A)) : Prop :=
  match h with
  | [] => G = Gf
  | s :: t => sr_from s = i /\ sr_in s = G /\ sfollow (i + sr_len s) (sr_post s) t Gf
  end.

Lemma sruns_count : forall i len G h G', sruns C U n D i len G h G' -> wf G ->
  0 <= i <= N_iter C -> 1 <= len <= n_iter_a_stack C -> (i < N_iter C -> len = n_iter_a_stack C) ->
  (forall r, (r < n)%nat -> l_it (loc_at G r) = i) ->
  zsum (map sr_len h) = N_iter C - i /\ Forall scount h /\ sfollow i G h G' /\ wf G' /\
  (forall r, (r < n)%nat -> l_it (loc_at G' r) = N_iter C).
Proof.
  induction 1 as [i len G Hge|i len nx0 len' nx G bl G1 nsw npr G2 G3 hl G4 Hlt Hnx0 Elen Enx HB HLad HT HR IH];
    intros W Hi Hl Hst Hit.
  - assert (i = N_iter C) by lia. subst. cbn. split; [lia|]. split; [constructor|]. auto 10.
  - pose proof (vc_n _ _ VC) as Hn. pose proof (vc_sum _ _ VC) as Hsum.
    pose proof (vc_stack _ _ VC) as Hst1.
    apply i32_inv in Hnx0. destruct Hnx0 as [-> _].
    assert (Hlen : 1 <= len' <= n_iter_a_stack C /\ nx = i + len' /\ nx <= N_iter C /\
       (nx < N_iter C -> len' = n_iter_a_stack C)).
    { subst len' nx. destruct (Z.ltb_spec (N_iter C) (i + len)); [lia|]. specialize (Hst Hlt). lia. }
    destruct Hlen as [Hl1 [Hnx [Hnx2 Hfull]]]. clear Elen Enx.
    assert (Wd : wf (seq_distribute G (sigt (g_ro G)))).
    { apply seq_distribute_wf; auto; [apply (wf_sigt _ _ _ W)|apply (wf_sigrow _ _ _ W)]. }
    destruct (dist_view C n VC G (sigt (g_ro G)) W (wf_sigt _ _ _ W)) as [Rd Ld].
    destruct (bruns_count i len' 0 _ _ _ _ _ _ _ _ HB Wd) as [B1 [B2 [B3 [W1 [I1 [Be1 [Sg1 T1]]]]]]]; try lia.
    { intros r Hr. destruct (Ld r Hr) as [_ [_ [-> _]]]. rewrite Hit by auto. lia. }
    assert (L2 : wf G2 /\ g_ro G2 = g_ro G1 /\ forall r, (r < n)%nat -> l_it (loc_at G2 r) = i + len').
    { destruct (adapts C G1).
      - destruct (ladder_view C n VC _ _ _ _ W1 HLad) as [R2 [b [_ [_ V2]]]]. split; [eapply seq_ladder_wf; eauto|].
        split; auto. intros r Hr. destruct (V2 r Hr) as [_ [_ [-> _]]]. auto.
      - injection HLad; intros; subst. auto. }
    destruct L2 as [W2 [R2 I2]].
    assert (L3 : wf G3 /\ forall r, (r < n)%nat -> l_it (loc_at G3 r) = i + len').
    { destruct (tunes C nx).
      - destruct (tune_all_view C U n D VC VU _ _ _ W2 HT) as [[_ [_ V3]] _].
        split; [eapply seq_tune_all_wf; eauto; apply VU|]. intros r Hr. destruct (V3 r Hr) as [-> _]. auto.
      - injection HT; intros; subst. auto. }
    destruct L3 as [W3 I3].
    destruct (IH W3) as [J1 [J2 [J3 [J4 J5]]]]; try lia.
    { intros r Hr. rewrite I3 by auto. lia. }
    split; [cbn [map zsum sr_len]; lia|]. split.
    { constructor; auto. unfold scount, sr_end. cbn [sr_len sr_from sr_in sr_pre sr_batches sr_mid sr_lad sr_post sr_nsw sr_npr].
      rewrite <- Hnx.
      split; [auto|]. split; [lia|]. split; [auto|]. split; [auto|]. split; [auto|]. split; [auto|].
      split; [auto|]. split; [auto|]. split; [auto|]. split; [auto|]. split; [lia|]. split; [auto|]. split; [auto|].
      split; [auto|]. split; [auto|]. split; [auto|]. split; [|split; [|split]].
      - intros r Hr. rewrite I1, I2, I3, Hit by auto. destruct (Ld r Hr) as [_ [_ [-> _]]]. rewrite Hit by auto. lia.
      - intros r Hr. rewrite Be1 by auto. apply Ld; auto.
      - intros r Hr. apply Ld; auto.
      - rewrite R2, T1, Rd. auto. }
    split; [cbn [sfollow sr_from sr_in sr_len sr_post]; rewrite <- Hnx; auto|]. auto.
Qed.
End Frame.
