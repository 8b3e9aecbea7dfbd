(** Whole-run statements about swaps and cached log-posteriors. *)
From Coq Require Import ZArith Arith List Bool Reals Lia Lra Permutation.
From Flocq Require Import Core IEEE754.BinarySingleNaN.
From Verif Require Import Base Arith B64 Rand Mh Ladder Tune Mpi MpiMeta Spmd Prog Seq ListAux MhSpec SeqWf Refine
  SeqTotal System B64Facts RandRange Seeds Runs SeqFiles History Views RunHist HistCount HistRows SwapLemmas SwapReal ChainInv Stale.
Import ListNotations.
Open Scope Z_scope.

(** the swap attempts of a batch, in order, lead from the state after its iterations to its end *)
Definition attempts_of {A} (S : Setup A) (D : Data A) (b : brec (A := A)) (ws : list (swrec A)) : Prop :=
  Z.of_nat (length ws) = Z.max 0 (N_swap (s_cfg S)) /\ swaps (br_mid b) ws (br_post b) /\ Forall (attempt S D) ws.

(** cached values and betas are those of the input ladder *)
Definition right_at {A} (S : Setup A) (D : Data A) (G : gst (A := A)) : Prop :=
  forall r, (r < s_n S)%nat -> lp_at G r = logpost_at (s_user S) D (x_at G r) (nth r (Beta_Values (s_cfg S)) (nof 0)) /\
    beta_at G r = nth r (Beta_Values (s_cfg S)) (nof 0).
Section Run.
Context {A : Arith}.
Variable S : Setup A.
Hypothesis HL : Legal S.
Notation C := (s_cfg S).
Notation U := (s_user S).
Notation n := (s_n S).

Lemma batch_attempts : forall D G0 h Gf, history S D G0 h Gf -> forall b, In b (hbatches h) -> exists ws, attempts_of S D b ws.
Proof.
  intros D G0 h Gf HH b Hb. destruct (history_swaps_flat S HL D _ _ _ HH) as [wss F].
  induction F as [|b' ws bl wss' [H1 [H2 H3]] F IH]; [contradiction|]. destruct Hb as [->|Hb]; [|auto].
  exists ws. split; [lia|auto].
Qed.

Lemma attempts_all : forall D G0 h Gf, history S D G0 h Gf -> forall (Q : swrec A -> Prop), (forall w, attempt S D w -> Q w) ->
  forall b, In b (hbatches h) -> exists ws, attempts_of S D b ws /\ Forall Q ws.
Proof.
  intros D G0 h Gf HH Q HQ b Hb. destruct (batch_attempts _ _ _ _ HH b Hb) as [ws Hw]. exists ws. split; auto.
  eapply Forall_impl; [exact HQ|apply Hw].
Qed.
End Run.

Lemma nth_all_eq : forall {X} (d : X) n l l', length l = n -> length l' = n -> (forall r, (r < n)%nat -> nth r l' d = nth r l d) -> l' = l.
Proof. intros X d n l l' H1 H2 H. apply (nth_ext _ _ d d); [congruence|]. rewrite H2. auto. Qed.

Lemma swaps_exchange : forall A (S : Setup A), Legal S -> forall D G0 h Gf, history S D G0 h Gf ->
  forall b, In b (hbatches h) -> exists ws, attempts_of S D b ws /\
    Forall (fun w =>
      (sw_i w < s_n S)%nat /\ (sw_j w < s_n S)%nat /\
      (sw_done w = false -> transit (g_ro (sw_post w)) = transit (g_ro (sw_pre w)) /\ lps (g_ro (sw_post w)) = lps (g_ro (sw_pre w))) /\
      (sw_done w = true ->
         x_at (sw_post w) (sw_i w) = x_at (sw_pre w) (sw_j w) /\ x_at (sw_post w) (sw_j w) = x_at (sw_pre w) (sw_i w)) /\
      (forall r, (r < s_n S)%nat -> r <> sw_i w -> r <> sw_j w ->
         x_at (sw_post w) r = x_at (sw_pre w) r /\ lp_at (sw_post w) r = lp_at (sw_pre w) r) /\
      sigt (g_ro (sw_post w)) = sigt (g_ro (sw_pre w)) /\
      (forall r, (r < s_n S)%nat ->
         l_sig (loc_at (sw_post w) r) = l_sig (loc_at (sw_pre w) r) /\ l_it (loc_at (sw_post w) r) = l_it (loc_at (sw_pre w) r) /\
         l_acc (loc_at (sw_post w) r) = l_acc (loc_at (sw_pre w) r) /\ l_beta (loc_at (sw_post w) r) = l_beta (loc_at (sw_pre w) r))) ws /\
    Permutation (transit (g_ro (br_mid b))) (transit (g_ro (br_post b))).
Proof.
  intros A S HL D G0 h Gf HH b Hb. destruct (batch_attempts S HL _ _ _ _ HH b Hb) as [ws Hw]. exists ws. split; auto. split.
  - destruct Hw as [_ [_ F]]. eapply Forall_impl; [|exact F]. clear. 
    intros w [_ [Hi [Hj [_ [[SL1 SL2] [HX [W W']]]]]]]. split; [lia|]. split; [exact Hj|]. split; [|split; [|split; [|split; auto]]].
    + intros Hd. rewrite Hd in HX. split.
      * apply (nth_all_eq [] (s_n S)); [apply (wf_tr _ _ _ W)|apply (wf_tr _ _ _ W')|]. intros r Hr. apply (HX r Hr).
      * apply (nth_all_eq (nof 0) (s_n S)); [apply (wf_lps _ _ _ W)|apply (wf_lps _ _ _ W')|]. intros r Hr. apply (HX r Hr).
    + intros Hd. rewrite Hd in HX. split.
      * destruct (HX (sw_i w) ltac:(lia)) as [-> _]. rewrite Nat.eqb_refl. reflexivity.
      * destruct (HX (sw_j w) Hj) as [-> _]. rewrite Nat.eqb_refl. destruct (Nat.eqb_spec (sw_j w) (sw_i w)) as [->|]; auto.
    + intros r Hr Hri Hrj. destruct (HX r Hr) as [-> ->].
      rewrite (proj2 (Nat.eqb_neq _ _) Hri), (proj2 (Nat.eqb_neq _ _) Hrj). destruct (sw_done w); auto.
  - eapply swaps_perm; apply Hw.
Qed.

Lemma swaps_cached : forall A (S : Setup A), Legal S -> forall D G0 h Gf, history S D G0 h Gf ->
  forall b, In b (hbatches h) -> exists ws, attempts_of S D b ws /\
    Forall (fun w => sw_done w = true ->
      let G := sw_post w in
      lp_at G (sw_i w) = logpost_at (s_user S) D (x_at G (sw_i w)) (beta_at G (sw_i w)) /\
      lp_at G (sw_j w) = logpost_at (s_user S) D (x_at G (sw_j w)) (beta_at G (sw_j w))) ws.
Proof.
  intros A S HL D G0 h Gf HH. apply (attempts_all S HL D _ _ _ HH).
  intros w [_ [Hi [Hj [_ [SL [HX _]]]]]] Hd. cbn zeta. rewrite Hd in HX.
  assert (Hi' : (sw_i w < s_n S)%nat) by lia.
  rewrite !(beta_same S _ _ SL) by auto. destruct (HX _ Hi') as [-> ->]. destruct (HX _ Hj) as [-> ->]. rewrite !Nat.eqb_refl.
  destruct (Nat.eqb_spec (sw_j w) (sw_i w)) as [E|E].
  - rewrite E, !Nat.eqb_refl. auto.
  - rewrite (proj2 (Nat.eqb_neq (sw_i w) (sw_j w))) by auto. auto.
Qed.

Lemma swaps_partners : forall A (S : Setup A), Legal S -> forall D G0 h Gf, history S D G0 h Gf ->
  forall b, In b (hbatches h) -> exists ws, attempts_of S D b ws /\
    Forall (fun w => (sw_i w < s_n S - 1)%nat /\ (sw_j w < s_n S)%nat /\
      (Swapmode (s_cfg S) = 0 -> sw_j w = Datatypes.S (sw_i w)) /\
      (Swapmode (s_cfg S) = 1 -> sw_j w <> sw_i w) /\
      (Swapmode (s_cfg S) <> 0 -> Swapmode (s_cfg S) <> 1 -> sw_j w = 0%nat)) ws.
Proof.
  intros A S HL D G0 h Gf HH. apply (attempts_all S HL D _ _ _ HH).
  intros w Hw. split; [apply Hw|]. split; [apply Hw|]. exact (partner_legal _ S D w Hw).
Qed.

Lemma all_drawn : forall L n, (2 <= n)%nat -> Z.of_nat n <= INT_MAX ->
  (forall i, 0 <= i < Z.of_nat n - 1 -> exists g, 0 <= g < RMOD /\ i4_unif_0a (A := B64 L) (Z.of_nat n - 1) g = OK (i, lcg g)) /\
  (forall C : Cfg (B64 L), Swapmode C = 1 -> forall i j, 0 <= i < Z.of_nat n - 1 -> 0 <= j < Z.of_nat n -> j <> i ->
     exists g g', 0 <= g < RMOD /\ choose_j C n i g = OK (j, g')).
Proof.
  intros L n Hn Hx. split.
  - intros i Hi. apply RandSurj_b64; lia.
  - intros C HC. apply partner_all; auto. apply RandSurj_b64.
Qed.

Lemma same_drawn : forall L n, (2 <= n)%nat -> Z.of_nat n <= INT_MAX ->
  forall C : Cfg (B64 L), Swapmode C <> 0 -> Swapmode C <> 1 ->
  exists g i g1 g2, 0 <= g < RMOD /\ i4_unif_0a (A := B64 L) (Z.of_nat n - 1) g = OK (i, g1) /\ choose_j C n i g1 = OK (i, g2).
Proof.
  intros L n Hn Hx C H0 H1. destruct (RandSurj_b64 L (Z.of_nat n - 1) 0) as [g [Hg E]]; try lia.
  exists g, 0, (lcg g), (lcg g). split; auto. split; auto. unfold choose_j.
  rewrite (proj2 (Z.eqb_neq _ _) H0), (proj2 (Z.eqb_neq _ _) H1). reflexivity.
Qed.

(** ** cached values *)
Lemma cached_states : forall A (S : Setup A), Legal S -> Tune_Ladder (s_cfg S) <= 0 ->
  forall D G0 h Gf, history S D G0 h Gf ->
  right_at S D G0 /\ right_at S D Gf /\
  (forall s, In s h -> right_at S D (sr_pre s) /\ right_at S D (sr_mid s) /\ right_at S D (sr_lad s) /\ right_at S D (sr_post s)) /\
  (forall b, In b (hbatches h) -> right_at S D (br_pre b) /\ right_at S D (br_mid b) /\ right_at S D (br_post b)).
Proof.
  intros A S HL HT D G0 h Gf HH. destruct (holds_always S HL D _ (fixed_inv S D HT) _ _ _ HH) as [H0 [F [_ H1]]].
  assert (K : forall G, holds S (fixedP S D) G -> right_at S D G).
  { intros G H r Hr. destruct (H r Hr) as [E1 E2]. rewrite <- E2. auto. }
  split; [auto|]. split; [auto|]. split.
  - intros s Hs. rewrite Forall_forall in F. destruct (F s Hs) as [_ [[_ ?] [_ [[_ ?] [[_ ?] [_ ?]]]]]]. auto 10.
  - intros b Hb. destruct (hb_all S _ _ F b Hb) as [[_ ?] [[_ ?] [_ ?]]]. auto.
Qed.

Lemma cached_rows : forall A (S : Setup A), Legal S -> Tune_Ladder (s_cfg S) <= 0 ->
  forall D, dataset S D -> forall k tr X, execution S k tr X -> forall r, (r < s_n S)%nat ->
  forall ev, In ev (file (FChain r) tr) ->
  exists q, ev = EvRow r q /\ r_lp q = logpost_at (s_user S) D (r_parm q) (nth r (Beta_Values (s_cfg S)) (nof 0)).
Proof.
  intros A S HL HT D HD k tr X HE r Hr ev He.
  destruct (rows_hold S HL D _ (fixed_inv S D HT) _ _ _ HE HD r Hr ev He) as [q [b [-> [H1 H2]]]].
  exists q. split; auto. rewrite <- H2. exact H1.
Qed.

Lemma adaptation_keeps : forall A (S : Setup A), Legal S -> forall D G0 h Gf, history S D G0 h Gf ->
  forall s, In s h -> (forall r, (r < s_n S)%nat -> cached_at S D (sr_in s) r) ->
  forall r, (r < s_n S)%nat -> cached_at S D (sr_mid s) r /\
    lp_at (sr_lad s) r = logpost_at (s_user S) D (x_at (sr_lad s) r) (beta_at (sr_in s) r).
Proof.
  intros A S HL D G0 h Gf HH s Hs Hc r Hr.
  destruct (holds_stack S HL D _ (cached_step S D) _ _ _ HH s Hs Hc) as [_ [_ Hm]]. split; [apply Hm; auto|].
  destruct (ladder_stale S HL D _ _ _ HH s Hs r Hr) as [-> [-> <-]]. apply Hm; auto.
Qed.

Lemma stale_exists : forall L, l_pow L (bof 4) (nlit (A := B64 L) 5 1) = bof 2 ->
  exists S : Setup (B64 L), Legal S /\ 0 < Tune_Ladder (s_cfg S) /\
  exists D G0 h Gf, history S D G0 h Gf /\ exists s r, In s h /\ (r < s_n S)%nat /\
    cached_at S D (sr_mid s) r /\ ~ cached_at S D (sr_lad s) r.
Proof.
  intros L HP. exists (flat L). split; [apply flat_legal|]. split; [reflexivity|].
  destruct (history_exists (flat L) (flat_legal L)) as [D [G0 [h [Gf HH]]]]. exists D, G0, h, Gf. split; auto.
  destruct (flat_stale L HP D G0 h Gf HH) as [s [Hs [H1 [_ H2]]]]. exists s, 1%nat. split; auto. split; [cbn; lia|]. auto.
Qed.

(** ** over the reals *)
Lemma attempt_rule : forall (S : Setup RArith) D Lk w, tempered S D Lk -> attempt S D w ->
  cached_at S D (sw_pre w) (sw_i w) -> cached_at S D (sw_pre w) (sw_j w) ->
  let i := sw_i w in let j := sw_j w in let G := sw_pre w in
  (0 <= unif (sw_g w) < 1)%R /\
  (sw_done w = true <->
   (unif (sw_g w) < Rmin 1 (exp ((beta_at G i - beta_at G j) * (Lk (x_at G j) - Lk (x_at G i)))))%R).
Proof.
  intros S D Lk w HT Hw Hi Hj i j G. split; [apply unit_range_lt|].
  destruct Hw as [_ [_ [_ [Hd _]]]]. rewrite Hd, swap_ok_R. unfold i, j, G.
  rewrite (swap_sum_tempered S D Lk _ _ _ HT Hi Hj). reflexivity.
Qed.

Lemma attempts_rule : forall S : Setup RArith, Legal S -> Tune_Ladder (s_cfg S) <= 0 -> forall D Lk, tempered S D Lk ->
  forall G0 h Gf, history S D G0 h Gf -> forall b, In b (hbatches h) ->
  exists ws, attempts_of S D b ws /\
    Forall (fun w : swrec RArith => let i := sw_i w in let j := sw_j w in let G := sw_pre w in
      (sw_done w = true <->
       (unif (sw_g w) < Rmin 1 (exp ((nth i (Beta_Values (s_cfg S)) 0 - nth j (Beta_Values (s_cfg S)) 0) *
                                     (Lk (x_at G j) - Lk (x_at G i)))))%R)) ws.
Proof.
  intros S HL HT D Lk HLk G0 h Gf HH b Hb. destruct (batch_attempts S HL _ _ _ _ HH b Hb) as [ws Hw]. exists ws. split; auto.
  destruct (holds_always S HL D _ (fixed_inv S D HT) _ _ _ HH) as [_ [F _]].
  destruct (hb_all S _ _ F b Hb) as [_ [[_ Hm] _]]. destruct Hw as [_ [Hs Fw]].
  destruct (swaps_hold S D _ (fixed_inv S D HT) _ _ _ Hs Fw Hm) as [FH _].
  rewrite Forall_forall in *. intros w Hin. destruct (FH w Hin) as [Hp _]. pose proof (Fw w Hin) as Hw.
  assert (Hi : (sw_i w < s_n S)%nat) by (destruct Hw as [_ [? _]]; lia).
  assert (Hj : (sw_j w < s_n S)%nat) by apply Hw.
  destruct (Hp _ Hi) as [Ci Bi]. destruct (Hp _ Hj) as [Cj Bj].
  destruct (attempt_rule S D Lk w HLk Hw Ci Cj) as [_ R]. cbn zeta in *. rewrite Bi, Bj in R. exact R.
Qed.

(** every draw is below 1 and none is below 0 *)
Lemma draw_below_one : forall L g, @nltb (B64 L) (fst (drand48 g)) (bof 1) = true.
Proof.
  intros L g. destruct (drand48_b64 L g) as [V F]. destruct (bof_ok 1) as [V1 F1]; [vm_compute; discriminate|].
  cbn [nltb B64]. rewrite Bltb_correct by auto. rewrite V, V1. pose proof (unit_range_lt g). apply Rlt_bool_true. lra.
Qed.
Lemma draw_not_below_zero : forall L g, @nltb (B64 L) (fst (drand48 g)) (B754_zero false) = false.
Proof.
  intros L g. destruct (drand48_b64 L g) as [V F].
  cbn [nltb B64]. rewrite Bltb_correct by auto. rewrite V. cbn [B2R]. pose proof (unit_range_lt g). apply Rlt_bool_false. lra.
Qed.

(** a run has batches, and a batch has attempts *)
Lemma batch_exists : forall {A} (S : Setup A), Legal S -> 0 < N_iter (s_cfg S) -> forall D G0 h Gf, history S D G0 h Gf ->
  exists b, In b (hbatches h).
Proof.
  intros A S HL HN D G0 h Gf HH. pose proof (vc_n _ _ (proj1 (proj2 HL))) as Hn.
  destruct (history_walks S HL _ _ _ _ HH 0%nat ltac:(lia)) as [xs [W [_ [_ [HZ _]]]]].
  destruct (hbatches h) as [|b l]; [|exists b; left; auto]. inversion W; subst. cbn in HZ. lia.
Qed.
Lemma attempt_exists : forall {A} (S : Setup A), Legal S -> 0 < N_iter (s_cfg S) -> 0 < N_swap (s_cfg S) ->
  exists D b w ws, attempt S D w /\ attempts_of S D b (w :: ws).
Proof.
  intros A S HL HN HS. destruct (history_exists S HL) as [D [G0 [h [Gf HH]]]].
  destruct (batch_exists S HL HN _ _ _ _ HH) as [b Hb]. destruct (batch_attempts S HL _ _ _ _ HH b Hb) as [ws Hw].
  destruct ws as [|w ws]; [destruct Hw as [Hl _]; cbn [length] in Hl; lia|].
  exists D, b, w, ws. split; auto. destruct Hw as [_ [_ F]]. inversion F; auto.
Qed.
