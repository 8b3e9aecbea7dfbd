(** The swap statistics handed to the ladder adaptation, and the ladder along runs in exact arithmetic. *)
From Coq Require Import ZArith Arith List Bool Lia Reals Lra.
From Flocq Require Import Core IEEE754.BinarySingleNaN.
From Verif Require Import Base Arith B64 B64Facts Rand Mh Ladder Tune Mpi MpiMeta Spmd Prog Seq ListAux MhSpec SeqWf Refine
  SeqTotal System RandRange Runs SeqFiles History Views RunHist HistCount HistRows SwapLemmas LadderReal LadderOrder LadderRuns.
Import ListNotations.
Open Scope Z_scope.

(** attempts whose first position is k, and how many of these were executed *)
Definition tried {A} (k : nat) (ws : list (swrec A)) : Z := Z.of_nat (length (filter (fun w => Nat.eqb (sw_i w) k) ws)).
Definition done {A} (k : nat) (ws : list (swrec A)) : Z :=
  Z.of_nat (length (filter (fun w => Nat.eqb (sw_i w) k && sw_done w) ws)).

Lemma tried_range : forall {A} k (ws : list (swrec A)), 0 <= done k ws <= tried k ws /\ tried k ws <= Z.of_nat (length ws).
Proof.
  intros A k ws. unfold done, tried. induction ws as [|w ws IH]; cbn [filter length]; [lia|].
  destruct (Nat.eqb (sw_i w) k); destruct (sw_done w); cbn [andb length]; lia.
Qed.

(** integers up to [bound] are exact *)
Definition exact_to (A : Arith) (bound : Z) : Prop := forall z, 0 <= z -> forall d, 0 <= d <= 1 -> z + d <= bound ->
  @nadd A (nof z) (nof d) = nof (z + d).

Lemma exact_N : forall bound, exact_to NArith bound.
Proof. intros bound z Hz d Hd H. cbn. rewrite plus_IZR. reflexivity. Qed.
Lemma exact_R : forall bound, exact_to RArith bound.
Proof. intros bound z Hz d Hd H. cbn. rewrite plus_IZR. reflexivity. Qed.
Lemma exact_b64 : forall L, exact_to (B64 L) (2 ^ 53).
Proof.
  intros L z Hz d Hd H. change (@nadd (B64 L) (nof z) (nof d)) with (Bplus mode_NE (bof z) (bof d)).
  change (@nof (B64 L) (z + d)) with (bof (z + d)).
  destruct (bof_ok z) as [V1 F1]; [lia|]. destruct (bof_ok d) as [V2 F2]; [lia|]. destruct (bof_ok (z + d)) as [V3 F3]; [lia|].
  assert (R : rnd (B2R (bof z) + B2R (bof d)) = IZR (z + d)).
  { rewrite V1, V2, <- plus_IZR. apply rnd_id. apply fmt_IZR. lia. }
  destruct (bplus_ok (bof z) (bof d) F1 F2) as [V F].
  { rewrite R. rewrite <- V3. apply abs_B2R_lt_emax. }
  destruct (Z.eq_dec (z + d) 0) as [E0|E0].
  - assert (z = 0) by lia. assert (d = 0) by lia. subst. apply (B2SF_inj _ _ (Bplus mode_NE (bof 0) (bof 0)) (bof (0 + 0))). vm_compute. reflexivity.
  - assert (NZ : B2R (bof (z + d)) <> 0%R) by (rewrite V3; apply not_0_IZR; auto).
    assert (EV : B2R (Bplus mode_NE (bof z) (bof d)) = B2R (bof (z + d))) by congruence.
    apply B2R_inj; auto.
    + destruct (Bplus mode_NE (bof z) (bof d)); cbn in F, EV |- *; try discriminate; auto; exfalso; apply NZ; rewrite <- EV; reflexivity.
    + destruct (bof (z + d)); cbn in F3, NZ |- *; try discriminate; auto; exfalso; apply NZ; reflexivity.
Qed.

Section Counts.
Context {A : Arith}.
Variable bound : Z.
Hypothesis HX : exact_to A bound.

Lemma fold_counts : forall (n : nat) (d : swrec A -> Z), (forall w, 0 <= d w <= 1) ->
  forall (ws : list (swrec A)) (f : nat -> Z) (l : list (num A)), length l = n -> (forall k, (k < n)%nat -> 0 <= f k) ->
  (forall k, (k < n)%nat -> nth k l (nof 0) = nof (f k) /\ f k + Z.of_nat (length ws) <= bound) ->
  let r := fold_left (fun l w => tally l (sw_i w) (d w)) ws l in
  length r = n /\ forall k, (k < n)%nat ->
    nth k r (nof 0) = nof (f k + fold_right (fun w z => (if Nat.eqb (sw_i w) k then d w else 0) + z) 0 ws).
Proof.
  intros n d Hd. induction ws as [|w ws IH]; intros f l L P H r; cbn [fold_left fold_right] in *.
  - split; auto. intros k Hk. unfold r. rewrite Z.add_0_r. apply H. auto.
  - set (f' := fun k => f k + (if Nat.eqb (sw_i w) k then d w else 0)).
    destruct (IH f' (tally l (sw_i w) (d w))) as [I1 I2].
    + unfold tally. rewrite lset_length. auto.
    + intros k Hk. unfold f'. specialize (P k Hk). specialize (Hd w). destruct (Nat.eqb (sw_i w) k); lia.
    + intros k Hk. destruct (H k Hk) as [H1 H2]. specialize (P k Hk). pose proof (Hd w) as Hw. split.
      * unfold tally, f'. destruct (Nat.eqb_spec (sw_i w) k) as [->|Hne].
        -- rewrite nth_lset_eq by lia. rewrite H1. apply HX; try lia. cbn [length] in H2. lia.
        -- rewrite nth_lset_ne by auto. rewrite Z.add_0_r. exact H1.
      * unfold f'. cbn [length] in H2. destruct (Nat.eqb (sw_i w) k); lia.
    + split; [exact I1|]. intros k Hk. fold r in I2. rewrite (I2 k Hk). f_equal. unfold f'. lia.
Qed.

Lemma sum_tried : forall k (ws : list (swrec A)), fold_right (fun w z => (if Nat.eqb (sw_i w) k then 1 else 0) + z) 0 ws = tried k ws.
Proof.
  intros k ws. unfold tried. induction ws as [|w ws IH]; cbn [fold_right filter]; auto. rewrite IH.
  destruct (Nat.eqb (sw_i w) k); cbn [length]; lia.
Qed.
Lemma sum_done : forall k (ws : list (swrec A)),
  fold_right (fun w z => (if Nat.eqb (sw_i w) k then if sw_done w then 1 else 0 else 0) + z) 0 ws = done k ws.
Proof.
  intros k ws. unfold done. induction ws as [|w ws IH]; cbn [fold_right filter]; auto. rewrite IH.
  destruct (Nat.eqb (sw_i w) k); destruct (sw_done w); cbn [andb length]; lia.
Qed.

Lemma stats_exact : forall n (ws : list (swrec A)), Z.of_nat (length ws) <= bound ->
  attempts (repeat (nof 0) n) ws = map (fun k => nof (tried k ws)) (seq 0 n) /\
  successes (repeat (nof 0) n) ws = map (fun k => nof (done k ws)) (seq 0 n).
Proof.
  intros n ws HB. split.
  - destruct (fold_counts n (fun _ => 1) ltac:(lia) ws (fun _ => 0) (repeat (nof 0) n)) as [L K].
    + apply repeat_length.
    + lia.
    + intros k Hk. split; [apply nth_repeat|lia].
    + apply (nth_ext _ _ (nof 0) (nof 0)); [unfold attempts; rewrite L, map_length, seq_length; auto|].
      intros k Hk. unfold attempts in *. rewrite L in Hk. rewrite (K k Hk).
      rewrite (map_nth2 _ _ k 0%nat) by (rewrite seq_length; auto). rewrite seq_nth by auto. rewrite sum_tried. reflexivity.
  - destruct (fold_counts n (fun w => if sw_done w then 1 else 0) ltac:(intros w; cbn beta; destruct (sw_done w); lia) ws (fun _ => 0) (repeat (nof 0) n)) as [L K].
    + apply repeat_length.
    + lia.
    + intros k Hk. split; [apply nth_repeat|lia].
    + apply (nth_ext _ _ (nof 0) (nof 0)); [unfold successes; rewrite L, map_length, seq_length; auto|].
      intros k Hk. unfold successes in *. rewrite L in Hk. rewrite (K k Hk).
      rewrite (map_nth2 _ _ k 0%nat) by (rewrite seq_length; auto). rewrite seq_nth by auto. rewrite sum_done. reflexivity.
Qed.
End Counts.

(** the statistics of every stack of a run *)
Lemma run_stats : forall A (S : Setup A), Legal S -> forall D G0 h Gf, history S D G0 h Gf -> 0 < Tune_Ladder (s_cfg S) ->
  forall bound, exact_to A bound -> forall s, In s h -> Z.max 0 (N_swap (s_cfg S)) * Z.of_nat (length (sr_batches s)) <= bound -> 
  exists wss, Forall2 (batch_swaps S D) (sr_batches s) wss /\
    sr_npr s = map (fun k => nof (tried k (concat wss))) (seq 0 (s_n S)) /\
    sr_nsw s = map (fun k => nof (done k (concat wss))) (seq 0 (s_n S)).
Proof.
  intros A S HL D G0 h Gf HH HT bound HX s Hs HB. pose proof (history_swaps S HL D G0 h Gf HH) as HF.
  rewrite Forall_forall in HF. destruct (HF s Hs) as [wss [H2 HN]]. destruct (HN HT) as [E1 E2]. exists wss. split; auto.
  assert (Len : Z.of_nat (length (concat wss)) <= bound).
  { clear - H2 HB. assert (K : length (concat wss) = (length (sr_batches s) * Z.to_nat (N_swap (s_cfg S)))%nat).
    { clear HB. induction H2 as [|b ws bl wss [L _] H2 IH]; auto. cbn [concat length]. rewrite app_length, IH, L. lia. }
    rewrite K. lia. }
  destruct (stats_exact bound HX (s_n S) (concat wss) Len) as [K1 K2]. rewrite E1, E2. auto.
Qed.

(** a stack has at most n_iter_a_stack batches *)
Lemma batch_count : forall {A} (S : Setup A), Legal S -> forall D G0 h Gf, history S D G0 h Gf -> forall s, In s h ->
  Z.of_nat (length (sr_batches s)) <= n_iter_a_stack (s_cfg S).
Proof.
  intros A S HL D G0 h Gf HH s Hs. destruct (history_count S HL _ _ _ _ HH) as [_ [F _]]. rewrite Forall_forall in F.
  destruct (F s Hs) as [H1 [_ [_ [_ [_ [_ [_ [_ [_ [_ [HZ [HB _]]]]]]]]]]]].
  apply Z.le_trans with (sr_len s); [|lia]. rewrite <- HZ. clear - HB.
  induction HB as [|b bl Hb HB IH]; cbn [length map zsum]; [lia|]. destruct Hb as [Hb _]. lia.
Qed.
