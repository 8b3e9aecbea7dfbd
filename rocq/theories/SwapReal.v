(** Swap decisions over the reals, and which partners can be drawn. *)
From Coq Require Import ZArith Arith List Bool Reals Lia Lra.
From Flocq Require Import Core IEEE754.BinarySingleNaN.
From Verif Require Import Base Arith B64 Rand Mh Mpi Prog Seq ListAux SeqWf SeqTotal B64Facts RandRange Seeds Runs History Views
  RunHist HistCount HistRows SwapLemmas.
Import ListNotations.
Open Scope Z_scope.

(** ** every value below a is drawn by some generator state *)
Definition RandSurj (A : Arith) : Prop := forall a v, 0 < a <= INT_MAX -> 0 <= v < a ->
  exists g, 0 <= g < RMOD /\ i4_unif_0a (A := A) a g = OK (v, lcg g).

Lemma surj_state : forall a v, 0 < a <= INT_MAX -> 0 <= v < a -> exists g, 0 <= g < RMOD /\
  (IZR v + / 4 <= IZR (lcg g) / IZR RMOD * IZR a <= IZR v + / 2)%R.
Proof.
  intros a v Ha Hv. unfold INT_MAX in *. set (k := (2 * v + 1) * 2 ^ 47 / a).
  assert (K1 : a * k <= (2 * v + 1) * 2 ^ 47) by (apply Z.mul_div_le; lia).
  assert (K2 : (2 * v + 1) * 2 ^ 47 < a * k + a) by (pose proof (Z.mul_succ_div_gt ((2 * v + 1) * 2 ^ 47) a ltac:(lia)) as Q; fold k in Q; lia).
  assert (Hk : 0 <= k < RMOD).
  { unfold RMOD. split; [apply Z.div_pos; lia|]. apply Z.div_lt_upper_bound; lia. }
  exists (unlcg k). split.
  - unfold unlcg. apply Z.mod_pos_bound. unfold RMOD; lia.
  - rewrite lcg_unlcg by auto.
    assert (E : (IZR k / IZR RMOD * IZR a = IZR (a * k) / 281474976710656)%R).
    { rewrite mult_IZR. change RMOD with 281474976710656. field. }
    rewrite E. apply IZR_le in K1. apply IZR_lt in K2. rewrite plus_IZR in K2.
    assert (E2 : (IZR ((2 * v + 1) * 2 ^ 47) = (2 * IZR v + 1) * 140737488355328)%R).
    { rewrite mult_IZR, plus_IZR, mult_IZR. reflexivity. }
    rewrite E2 in *. assert (A1 : (IZR a <= 2147483647)%R) by (apply IZR_le; lia).
    split; lra.
Qed.

Lemma RandSurj_R : RandSurj RArith.
Proof.
  intros a v Ha Hv. destruct (surj_state a v Ha Hv) as [g [Hg [G1 G2]]]. exists g. split; [exact Hg|].
  unfold i4_unif_0a. rewrite (surjective_pairing (drand48 (A := RArith) g)), drand48_R.
  cbn [nfloor nmul nof RArith].
  assert (K : Rfloor (IZR (lcg g) / IZR RMOD * IZR a) = v).
  { assert (v <= Rfloor (IZR (lcg g) / IZR RMOD * IZR a) < v + 1); [|lia].
    unfold Rfloor. apply Int_part_bounds; rewrite ?plus_IZR; lra. }
  rewrite K, n2i_R by (unfold INT_MIN, INT_MAX in *; lia). reflexivity.
Qed.

Lemma RandSurj_b64 : forall L, RandSurj (B64 L).
Proof.
  intros L a v Ha Hv. destruct (surj_state a v Ha Hv) as [g [Hg [G1 G2]]]. exists g. split; [exact Hg|].
  unfold INT_MAX in *.
  destruct (scaled_ok L g a) as [F [V [R RS]]]; [lia|].
  destruct (bint_ok mode_DN _ F) as [F2 V2].
  set (p := Bmult mode_NE (fst (drand48 (A := B64 L) g)) (bof a)) in *.
  unfold i4_unif_0a. rewrite (surjective_pairing (drand48 (A := B64 L) g)).
  unfold n2i. cbn [ntrunc nfloor nmul nof B64]. fold p.
  rewrite (btrunc_int _ _ F2 V2). cbn [rbind].
  assert (E : round_mode mode_DN (B2R p) = v).
  { simpl. apply Zfloor_imp. rewrite plus_IZR, V. split.
    - apply rnd_ge_fmt; [apply fmt_IZR; lia|lra].
    - apply Rle_lt_trans with (IZR v + / 2)%R; [|lra]. apply rnd_le_fmt; [|lra].
      replace (IZR v + / 2)%R with (IZR (2 * v + 1) * bpow radix2 (-1))%R.
      + apply fmt_scaled; lia.
      + rewrite plus_IZR, mult_IZR. simpl. lra. }
  rewrite E. replace ((INT_MIN <=? v)%Z && _) with true; [reflexivity|].
  symmetry. apply andb_true_iff. unfold INT_MIN, INT_MAX. split; apply Z.leb_le; lia.
Qed.

(** ** partners *)
Lemma partner_legal : forall A (S : Setup A) D w, attempt S D w ->
  (Swapmode (s_cfg S) = 0 -> sw_j w = Datatypes.S (sw_i w)) /\
  (Swapmode (s_cfg S) = 1 -> sw_j w <> sw_i w) /\
  (Swapmode (s_cfg S) <> 0 -> Swapmode (s_cfg S) <> 1 -> sw_j w = 0%nat).
Proof.
  intros A S D w [[g1 [_ HJ]] _]. unfold choose_j in HJ.
  split; [|split].
  - intros E. rewrite E in HJ. cbn in HJ. injection HJ; intros; lia.
  - intros E. rewrite E in HJ. cbn [Z.eqb Pos.eqb] in HJ. rinv.
    destruct (Z.leb_spec (Z.of_nat (sw_i w)) z); lia.
  - intros E0 E1. rewrite (proj2 (Z.eqb_neq _ _) E0), (proj2 (Z.eqb_neq _ _) E1) in HJ. injection HJ; intros; lia.
Qed.

Lemma partner_all : forall A, RandSurj A -> forall (C : Cfg A) n, Swapmode C = 1 -> (2 <= n)%nat -> Z.of_nat n <= INT_MAX ->
  forall i j, 0 <= i < Z.of_nat n - 1 -> 0 <= j < Z.of_nat n -> j <> i ->
  exists g g', 0 <= g < RMOD /\ choose_j C n i g = OK (j, g').
Proof.
  intros A HS C n HM Hn Hx i j Hi Hj Hne. unfold choose_j. rewrite HM. cbn [Z.eqb Pos.eqb].
  destruct (HS (Z.of_nat n - 1) (if i <=? j then j - 1 else j)) as [g [Hg E]]; [lia| |].
  { destruct (Z.leb_spec i j); lia. }
  exists g, (lcg g). split; [auto|]. unfold Prog.zn. rewrite E. cbn [rbind]. f_equal. f_equal.
  destruct (Z.leb_spec i j).
  - replace (i <=? j - 1) with true by (symmetry; apply Z.leb_le; lia). lia.
  - replace (i <=? j) with false by (symmetry; apply Z.leb_gt; lia). auto.
Qed.

(** ** the decision over the reals *)
Open Scope R_scope.

(** the number in [0,1) the generator yields next *)
Definition unif (g : Z) : R := IZR (lcg g) / IZR RMOD.

Lemma swap_ok_R : forall s g, swap_ok (A := RArith) s g = true <-> unif g < Rmin 1 (exp s).
Proof.
  intros s g. unfold swap_ok. rewrite drand48_R. fold (unif g). cbn [nltb nof nexp RArith].
  pose proof (unit_range_lt g) as [U0 U1]. fold (unif g) in U0, U1.
  destruct (Rltb 0 s) eqn:E.
  - apply Rltb_true in E. split; auto. intros _. unfold Rmin. destruct (Rle_dec 1 (exp s)); auto.
    exfalso. apply n. rewrite <- exp_0. left. apply exp_increasing. auto.
  - apply Rltb_false in E. rewrite Rltb_true.
    assert (exp s <= 1). { rewrite <- exp_0. destruct E as [E| ->]; [left; apply exp_increasing; auto|right; auto]. }
    unfold Rmin. destruct (Rle_dec 1 (exp s)); split; lra.
Qed.

(** the unnormalised density of the two positions *)
Definition pair_density (S : Setup RArith) (D : Data RArith) (G : gst (A := RArith)) (i j : nat) : R :=
  exp (logpost_at (s_user S) D (x_at G i) (beta_at G i)) * exp (logpost_at (s_user S) D (x_at G j) (beta_at G j)).

(** the cached log-posterior of position r is that of the vector stored there *)
Definition cached_at {A} (S : Setup A) (D : Data A) (G : gst (A := A)) (r : nat) : Prop :=
  lp_at G r = logpost_at (s_user S) D (x_at G r) (beta_at G r).

(** likelihood tempered as beta * L(x) *)
Definition tempered (S : Setup RArith) (D : Data RArith) (Lk : list R -> R) : Prop :=
  forall x beta, u_logll (s_user S) x (d_nline D) (d_arr D) beta = beta * Lk x.

Lemma swap_sum_tempered : forall S D Lk G i j, tempered S D Lk ->
  cached_at S D G i -> cached_at S D G j ->
  swap_sum (A := RArith) (s_user S) D G i j = (beta_at G i - beta_at G j) * (Lk (x_at G j) - Lk (x_at G i)).
Proof.
  intros S D Lk G i j HT Hi Hj. unfold swap_sum. rewrite Hi, Hj. unfold logpost_at. rewrite !HT.
  cbn [nsub nadd RArith]. change (num RArith) with R in *. ring.
Qed.

Lemma swap_sum_density : forall S D G i j, cached_at S D G i -> cached_at S D G j ->
  pair_density S D G i j * exp (swap_sum (A := RArith) (s_user S) D G i j) =
  exp (logpost_at (s_user S) D (x_at G j) (beta_at G i)) * exp (logpost_at (s_user S) D (x_at G i) (beta_at G j)).
Proof.
  intros S D G i j Hi Hj. unfold pair_density, swap_sum. rewrite Hi, Hj. rewrite <- !exp_plus. f_equal.
  cbn [nsub nadd RArith]. change (num RArith) with R in *. ring.
Qed.

Lemma balance_min : forall a b x, 0 < a -> 0 < b -> 0 < x -> a * x = b -> a * Rmin 1 x = b * Rmin 1 (/ x).
Proof.
  intros a b x Ha Hb Hx E. subst b. unfold Rmin. destruct (Rle_dec 1 x) as [H|H], (Rle_dec 1 (/ x)) as [H'|H'].
  - assert (x = 1). { apply Rinv_le_contravar in H'; [|lra]. rewrite Rinv_inv, Rinv_1 in H'. lra. } subst. lra.
  - rewrite Rmult_assoc, Rinv_r by lra. lra.
  - lra.
  - exfalso. apply H'. rewrite <- Rinv_1. apply Rinv_le_contravar; lra.
Qed.

Lemma cached_after : forall A (S : Setup A) D w, attempt S D w ->
  (forall r, (r < s_n S)%nat -> cached_at S D (sw_pre w) r) -> forall r, (r < s_n S)%nat -> cached_at S D (sw_post w) r.
Proof.
  intros A S D w [_ [Hi [Hj [_ [SL [HX _]]]]]] HC r Hr. destruct (HX r Hr) as [H1 H2].
  unfold cached_at. rewrite H1, H2, (beta_same S _ _ SL) by auto.
  destruct (sw_done w); [|apply HC; auto].
  destruct (Nat.eqb_spec r (sw_j w)) as [Hrj|Hrj], (Nat.eqb_spec r (sw_i w)) as [Hri|Hri];
    try (rewrite <- ?Hrj, <- ?Hri; reflexivity).
  apply HC; auto.
Qed.

Lemma swap_balance : forall (S : Setup RArith) D w, attempt S D w -> sw_done w = true ->
  cached_at S D (sw_pre w) (sw_i w) -> cached_at S D (sw_pre w) (sw_j w) ->
  pair_density S D (sw_pre w) (sw_i w) (sw_j w) * Rmin 1 (exp (swap_sum (s_user S) D (sw_pre w) (sw_i w) (sw_j w))) =
  pair_density S D (sw_post w) (sw_i w) (sw_j w) * Rmin 1 (exp (swap_sum (s_user S) D (sw_post w) (sw_i w) (sw_j w))).
Proof.
  intros S D w HA Hd Ci Cj. pose proof HA as [_ [Hi [Hj [_ [SL [HX _]]]]]].
  set (i := sw_i w) in *. set (j := sw_j w) in *.
  assert (Hi' : (i < s_n S)%nat) by lia.
  destruct (HX i Hi') as [Xi Li]. destruct (HX j Hj) as [Xj Lj]. rewrite Hd in *. rewrite Nat.eqb_refl in *.
  pose proof (beta_same S _ _ SL i Hi') as Bi. pose proof (beta_same S _ _ SL j Hj) as Bj.
  destruct (Nat.eqb_spec j i) as [e|Hne].
  { (* the same position twice *)
    clearbody i j. subst j. rewrite Nat.eqb_refl in *. assert (E1 : swap_sum (A := RArith) (s_user S) D (sw_pre w) i i = 0).
    { unfold swap_sum. rewrite Ci. cbn [nsub nadd RArith]. change (num RArith) with R in *. ring. }
    assert (E2 : swap_sum (A := RArith) (s_user S) D (sw_post w) i i = 0).
    { unfold swap_sum. rewrite Xi, Li, Bi. cbn [nsub nadd RArith]. change (num RArith) with R in *. ring. }
    rewrite E1, E2. unfold pair_density. rewrite Xi, Bi. reflexivity. }
  destruct (Nat.eqb_spec i j) as [e|_]; [congruence|].
  assert (Ci' : cached_at S D (sw_post w) i). { unfold cached_at. rewrite Li, Xi, Bi. auto. }
  assert (Cj' : cached_at S D (sw_post w) j). { unfold cached_at. rewrite Lj, Xj, Bj. auto. }
  assert (ES : swap_sum (A := RArith) (s_user S) D (sw_post w) i j = - swap_sum (A := RArith) (s_user S) D (sw_pre w) i j).
  { unfold swap_sum. rewrite Ci', Cj', Ci, Cj, Xi, Xj, Bi, Bj. cbn [nsub nadd RArith]. change (num RArith) with R in *. ring. }
  rewrite ES, exp_Ropp. apply balance_min.
  - apply Rmult_lt_0_compat; apply exp_pos.
  - apply Rmult_lt_0_compat; apply exp_pos.
  - apply exp_pos.
  - rewrite swap_sum_density by auto. unfold pair_density. rewrite Xi, Xj, Bi, Bj. reflexivity.
Qed.
