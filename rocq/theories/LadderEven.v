(** The adaptation of the ladder when neighbouring swap rates do not differ. *)
From Coq Require Import ZArith Arith Reals Lra Lia List Bool Psatz.
From Verif Require Import Base Arith Mh Ladder ListAux LadderReal LadderOrder.
Import ListNotations.
Open Scope R_scope.
Local Notation N := NArith.
Local Notation num := (option R).

(** neighbouring rates are equal or one of them is undefined; the first and the last are undefined or 1/100 or more *)
Definition evenly (m : nat) (nsw npr : list num) : Prop :=
  let s k := val (nth k nsw None) in let p k := val (nth k npr None) in
  (forall k, (1 <= k <= m - 2)%nat -> p (k - 1)%nat = 0 \/ p k = 0 \/ s (k - 1)%nat * p k = s k * p (k - 1)%nat) /\
  (p 0%nat = 0 \/ p 0%nat <= 100 * s 0%nat) /\ (p (m - 2)%nat = 0 \/ p (m - 2)%nat <= 100 * s (m - 2)%nat).

Section Even.
Variables (m : nat) (b : nat -> R).
Hypothesis Hb : forall k, (k < m)%nat -> 0 < b k.

Definition cl (k : nat) : R := 1 / sqrt (b 0%nat * b k * b (k + 1)%nat / b 1%nat).
Lemma cl_pos : forall k, (k + 1 < m)%nat -> 0 < b 0%nat * b k * b (k + 1)%nat / b 1%nat.
Proof.
  intros k Hk. pose proof (Hb 0%nat ltac:(lia)). pose proof (Hb k ltac:(lia)). pose proof (Hb (k + 1)%nat Hk). pose proof (Hb 1%nat ltac:(lia)).
  apply Rdiv_lt_0_compat; [|lra]. apply Rmult_lt_0_compat; [apply Rmult_lt_0_compat|]; lra.
Qed.
Lemma cl_step : forall k, (k + 2 < m)%nat -> cl k / Rpower ((1 / b k) / (1 / b (k + 2)%nat)) (/ 2) = cl (k + 1).
Proof.
  intros k Hk. pose proof (Hb 0%nat ltac:(lia)) as P0. pose proof (Hb k ltac:(lia)) as P1. pose proof (Hb (k + 1)%nat ltac:(lia)) as P2.
  pose proof (Hb (k + 2)%nat ltac:(lia)) as P3. pose proof (Hb 1%nat ltac:(lia)) as P4.
  replace (1 / b k / (1 / b (k + 2)%nat)) with (b (k + 2)%nat / b k) by (field; lra).
  assert (Q : 0 < b (k + 2)%nat / b k) by (apply Rdiv_lt_0_compat; lra). rewrite half_sqrt by exact Q.
  pose proof (cl_pos k ltac:(lia)) as C. unfold cl. replace (k + 1 + 1)%nat with (k + 2)%nat by lia.
  replace (b 0%nat * b (k + 1)%nat * b (k + 2)%nat / b 1%nat) with ((b 0%nat * b k * b (k + 1)%nat / b 1%nat) * (b (k + 2)%nat / b k)) by (field; lra).
  rewrite sqrt_mult by lra. assert (0 < sqrt (b 0%nat * b k * b (k + 1)%nat / b 1%nat)) by (apply sqrt_lt_R0; exact C).
  assert (0 < sqrt (b (k + 2)%nat / b k)) by (apply sqrt_lt_R0; exact Q). field. lra.
Qed.
Lemma cl_0 : (2 <= m)%nat -> cl 0 = 1 / b 0%nat.
Proof.
  intro Hm. unfold cl. pose proof (Hb 0%nat ltac:(lia)). pose proof (Hb 1%nat ltac:(lia)). cbn [Nat.add].
  replace (b 0%nat * b 0%nat * b 1%nat / b 1%nat) with (b 0%nat * b 0%nat) by (field; lra). rewrite sqrt_square by lra. reflexivity.
Qed.
Variables (sc zs : R) (a : nat -> num).
Hypothesis Hgeo : forall k t, (1 <= k <= m - 2)%nat -> newT sc zs b a t k = geomT b t k.
Hypothesis Hlow0 : (3 <= m)%nat -> low (a 0%nat) = false.
Hypothesis Hlow1 : (3 <= m)%nat -> low (a (m - 2)%nat) = false.
Lemma even_temps : (2 <= m)%nat -> forall i, (i <= m - 2)%nat -> forall k, (k < m)%nat ->
  temps sc zs m b a i k = if (k <=? i)%nat then cl k else 1 / b k.
Proof.
  intros Hm. induction i as [|i IH]; intros Hi k Hk.
  - destruct k; cbn [Nat.leb temps]; [rewrite cl_0 by lia|]; reflexivity.
  - cbn [temps]. unfold bodyT, edge1, edge0. rewrite Hlow0, Hlow1 by lia. rewrite Hgeo by lia.
    unfold upd. destruct (Nat.eqb_spec k (S i)) as [->|Hne].
    + rewrite Nat.leb_refl. unfold geomT. replace (S i - 1)%nat with i by lia. rewrite IH by lia. rewrite Nat.leb_refl.
      replace (S i + 1)%nat with (i + 2)%nat by lia. replace (S i) with (i + 1)%nat by lia. apply cl_step. lia.
    + rewrite IH by lia. destruct (Nat.leb_spec k i); destruct (Nat.leb_spec k (S i)); auto; lia.
Qed.
End Even.

Lemma evenly_rates : forall sc zs m nsw npr, counts m nsw npr -> evenly m nsw npr -> (2 <= m)%nat ->
  let a := rates_of (fun k => val (nth k nsw None)) (fun k => val (nth k npr None)) in
  (forall b k t, (1 <= k <= m - 2)%nat -> newT sc zs b a t k = geomT b t k) /\
  low (a 0%nat) = false /\ low (a (m - 2)%nat) = false.
Proof.
  intros sc zs m nsw npr [_ [_ HC]] HE Hm a. unfold evenly in HE.
  set (s := fun k => val (nth k nsw None)) in *. set (p := fun k => val (nth k npr None)) in *. cbv zeta in HE. unfold a, rates_of. change (fun k => val (nth k nsw None)) with s. change (fun k => val (nth k npr None)) with p.
  change (fun k => if Reqb (val (nth k npr None)) 0 then None else Some (val (nth k nsw None) / val (nth k npr None))) with (fun k => if Reqb (p k) 0 then None else Some (s k / p k)).
  assert (P : forall k, (k < m)%nat -> 0 <= s k <= p k).
  { intros k Hk. destruct (HC k Hk) as [s' [p' [E1 [E2 H]]]]. unfold s, p. rewrite E1, E2. cbn [val].
    pose proof (IZR_le 0 s' ltac:(lia)). pose proof (IZR_le s' p' ltac:(lia)). lra. }
  destruct HE as [H1 [H2 H3]].
  assert (Q : forall k, (k < m)%nat -> p k = 0 \/ p k <= 100 * s k -> low (if Reqb (p k) 0 then None else Some (s k / p k)) = false).
  { intros k Hk H. destruct (Reqb_cases (p k) 0) as [[-> _]|[-> Hne]]; [reflexivity|]. cbn [low]. apply Rltb_false.
    pose proof (P k Hk). destruct H as [H|H]; [contradiction|]. apply (Rmult_le_reg_r (p k)); [lra|]. unfold Rdiv. rewrite Rmult_assoc, Rinv_l by lra. lra. }
  split; [|split; apply Q; auto; lia].
  intros b k t Hk. unfold newT. cbv beta. pose proof (P k ltac:(lia)) as P1. pose proof (P (k - 1)%nat ltac:(lia)) as P2.
  destruct (Reqb_cases (p (k - 1)%nat) 0) as [[-> _]|[-> N1]]; [reflexivity|].
  destruct (Reqb_cases (p k) 0) as [[-> _]|[-> N2]]; [reflexivity|].
  destruct (H1 k Hk) as [H|[H|H]]; try contradiction. change (s (k - 1)%nat * p k = s k * p (k - 1)%nat) in H.
  assert (E : s (k - 1)%nat / p (k - 1)%nat = s k / p k).
  { apply (Rmult_eq_reg_r (p k * p (k - 1)%nat)); [|apply Rmult_integral_contrapositive; auto].
    replace (s (k - 1)%nat / p (k - 1)%nat * (p k * p (k - 1)%nat)) with (s (k - 1)%nat * p k) by (field; auto). rewrite H. field; auto. }
  rewrite E. destruct (Rltb 0 (s k / p k + s k / p k)); [|reflexivity].
  replace ((s k / p k - s k / p k) / (s k / p k + s k / p k)) with 0 by (unfold Rdiv at 1; ring).
  rewrite (proj2 (Rltb_false 0 0)) by lra. rewrite Reqb_refl. reflexivity.
Qed.

Definition bval (l : list num) (k : nat) : R := val (nth k l None).

(** one such adaptation: the ends stay, the others become sqrt(b0 bk bk+1 / b1) *)
Lemma adapt_even : forall sc zs m beta nsw npr, (2 <= m)%nat -> length beta = m -> Forall pos beta -> counts m nsw npr -> evenly m nsw npr ->
  exists beta' : list num, tune_ladder (A := N) (Some sc) (Some zs) (Z.of_nat m) nsw npr beta = OK beta' /\ length beta' = m /\ Forall pos beta' /\
    bval beta' 0 = bval beta 0 /\ bval beta' (m - 1) = bval beta (m - 1) /\
    (forall k, (1 <= k <= m - 2)%nat -> bval beta' k = sqrt (bval beta 0 * bval beta k * bval beta (k + 1) / bval beta 1)).
Proof.
  intros sc zs m beta nsw npr Hm L F HC HE. destruct (pos_vals beta F) as [Vb Pb].
  pose proof (evenly_rates sc zs m nsw npr HC HE Hm) as [G [L0 L1]]. cbv zeta in G.
  destruct (counts_vals m nsw npr HC) as [Vs [Vp HR]]. pose proof HC as [Ls [Lp _]].
  assert (Pb' : forall k, (k < m)%nat -> 0 < val (nth k beta None)) by (intros; apply Pb; lia).
  set (b := fun k => val (nth k beta None)) in *.
  pose proof (even_temps m b Pb' sc zs _ (G b) (fun _ => L0) (fun _ => L1) Hm (m - 2)%nat (le_n _)) as ET.
  assert (CP : forall k, (k + 1 < m)%nat -> 0 < cl b k).
  { intros k Hk. unfold cl. apply Rdiv_lt_0_compat; [lra|]. apply sqrt_lt_R0. apply (cl_pos m b Pb'); auto. }
  destruct (tune_ladder_val sc zs m beta b nsw npr _ _ _ Hm L Vb Pb' Ls Vs Lp Vp (fun k _ => eq_refl)) as [beta' [E [L' V']]].
  - intros k Hk. rewrite ET by lia. destruct (Nat.leb_spec k (m - 2)); [|lia]. pose proof (CP k ltac:(lia)). lra.
  - assert (TV : forall k, (k < m)%nat -> bval beta' k = if (1 <=? k)%nat && (k <=? m - 2)%nat then sqrt (b 0%nat * b k * b (k + 1)%nat / b 1%nat) else b k).
    { intros k Hk. unfold bval. rewrite V' by lia. cbn [val]. unfold tuned.
      destruct ((1 <=? k)%nat && (k <=? m - 2)%nat) eqn:E2; [|reflexivity]. apply andb_true_iff in E2. destruct E2 as [E2 E3].
      apply Nat.leb_le in E2. rewrite ET by lia. rewrite E3. apply Nat.leb_le in E3. unfold cl.
      assert (0 < sqrt (b 0%nat * b k * b (k + 1)%nat / b 1%nat)) by (apply sqrt_lt_R0; apply (cl_pos m b Pb'); lia). field. lra. }
    exists beta'. split; [exact E|]. split; [exact L'|]. split.
    { eapply vals_pos; [exact V'|]. intros k Hk. specialize (TV k ltac:(lia)). unfold bval in TV. rewrite V' in TV by lia. cbn [val] in TV. rewrite TV.
      destruct ((1 <=? k)%nat && (k <=? m - 2)%nat) eqn:E2; [|apply Pb'; lia]. apply andb_true_iff in E2. destruct E2 as [E2 E3].
      apply Nat.leb_le in E3. apply sqrt_lt_R0. apply (cl_pos m b Pb'); lia. }
    split; [rewrite TV by lia; reflexivity|]. split.
    { rewrite TV by lia. replace (m - 1 <=? m - 2)%nat with false by (symmetry; apply Nat.leb_gt; lia). rewrite andb_false_r. reflexivity. }
    intros k Hk. rewrite TV by lia. replace ((1 <=? k)%nat && (k <=? m - 2)%nat) with true; [reflexivity|].
    symmetry. apply andb_true_iff. split; apply Nat.leb_le; lia.
Qed.

(** ** The gaps are averaged around a circle *)
Section Circle.
Variable (M : nat).
Hypothesis HM : (1 <= M)%nat.
Variable d : nat -> nat -> R.     (* time, place *)
Hypothesis Hin : forall j k, (k < M - 1)%nat -> d (S j) k = (d j k + d j (k + 1)%nat) / 2.
Hypothesis Hend : forall j, d (S j) (M - 1)%nat = (d j (M - 1)%nat + d j 0%nat) / 2.

Definition D (j k : nat) : R := d j (k mod M).
Lemma D_step : forall j k, D (S j) k = (D j k + D j (S k)) / 2.
Proof.
  intros j k. unfold D. pose proof (Nat.mod_upper_bound k M ltac:(lia)) as U.
  destruct (Nat.eq_dec (k mod M)%nat (M - 1)%nat) as [E|E].
  - rewrite E. rewrite Hend. replace (S k mod M)%nat with 0%nat; [reflexivity|].
    replace (S k) with (k + 1)%nat by lia. rewrite Nat.add_mod by lia. rewrite E. destruct (Nat.eq_dec M 1) as [->|N1]; [reflexivity|].
    rewrite (Nat.mod_small 1 M) by lia. replace (M - 1 + 1)%nat with M by lia. rewrite Nat.mod_same by lia. reflexivity.
  - rewrite Hin by (revert U E; generalize (k mod M)%nat; intros; lia). replace (S k mod M)%nat with (k mod M + 1)%nat; [reflexivity|].
    replace (S k) with (k + 1)%nat by lia. rewrite Nat.add_mod by lia. destruct (Nat.eq_dec M 1) as [E1|N1]; [exfalso; revert U E; generalize (k mod M)%nat; intros; lia|].
    rewrite (Nat.mod_small 1 M) by lia. rewrite (Nat.mod_small (k mod M + 1) M); [reflexivity|revert U E; generalize (k mod M)%nat; intros; lia].
Qed.
Lemma D_period : forall j k, D j (k + M) = D j k.
Proof. intros. unfold D. f_equal. rewrite <- (Nat.mul_1_l M) at 1. apply Nat.mod_add. lia. Qed.
Lemma D_le : forall h j, (forall k, D j k <= h) -> forall n k, D (j + n) k <= h.
Proof.
  intros h j H. induction n as [|n IH]; intro k; [rewrite Nat.add_0_r; auto|]. replace (j + S n)%nat with (S (j + n)) by lia.
  rewrite D_step. pose proof (IH k). pose proof (IH (S k)). lra.
Qed.
(** a small value spreads *)
Lemma D_spread : forall h v j k0, (forall k, D j k <= h) -> D j k0 <= v -> v <= h ->
  forall n k, (k <= k0 <= k + n)%nat -> D (j + n) k <= h - (h - v) / 2 ^ n.
Proof.
  intros h v j k0 H H0 Hv. induction n as [|n IH]; intros k Hk.
  - rewrite Nat.add_0_r. replace k with k0 by lia. simpl. lra.
  - replace (j + S n)%nat with (S (j + n)) by lia. rewrite D_step. pose proof (D_le h j H n k) as A. pose proof (D_le h j H n (S k)) as B.
    assert (P : 0 < 2 ^ n) by (apply pow_lt; lra).
    assert (E : (h - v) / 2 ^ S n = (h - v) / 2 ^ n / 2) by (simpl; field; lra). rewrite E.
    destruct (Nat.le_gt_cases k0 (k + n)) as [C|C].
    + pose proof (IH k ltac:(lia)). lra.
    + pose proof (IH (S k) ltac:(lia)). lra.
Qed.
Lemma in_window : forall k i, (i < M)%nat -> exists k0, (k <= k0 <= k + (M - 1))%nat /\ (k0 mod M)%nat = i.
Proof.
  intros k i Hi. set (r := (k mod M)%nat). pose proof (Nat.mod_upper_bound k M ltac:(lia)) as U. fold r in U.
  pose proof (Nat.div_mod k M ltac:(lia)) as DM. fold r in DM. set (q := (k / M)%nat) in *.
  destruct (Nat.le_gt_cases r i) as [C|C].
  - exists (i + q * M)%nat. split; [nia|]. rewrite Nat.mod_add by lia. apply Nat.mod_small. lia.
  - exists (i + (q + 1) * M)%nat. split; [nia|]. rewrite Nat.mod_add by lia. apply Nat.mod_small. lia.
Qed.
(** M - 1 steps pull everything away from the bound by a fixed part *)
Lemma D_pull : forall h j, 0 <= h -> (forall k, D j k <= h) -> (exists i, (i < M)%nat /\ d j i <= 0) ->
  forall k, D (j + (M - 1)) k <= h * (1 - / 2 ^ (M - 1)).
Proof.
  intros h j Hh H [i [Hi H0]] k. destruct (in_window k i Hi) as [k0 [Hk E]].
  pose proof (D_spread h 0 j k0 H ltac:(unfold D; rewrite E; exact H0) Hh (M - 1) k Hk) as K.
  replace (h * (1 - / 2 ^ (M - 1))) with (h - (h - 0) / 2 ^ (M - 1)) by (unfold Rdiv; ring). exact K.
Qed.
End Circle.

Section Limit.
Variable (M : nat).
Hypothesis HM : (1 <= M)%nat.
Variable d : nat -> nat -> R.
Hypothesis Hin : forall j k, (k < M - 1)%nat -> d (S j) k = (d j k + d j (k + 1)%nat) / 2.
Hypothesis Hend : forall j, d (S j) (M - 1)%nat = (d j (M - 1)%nat + d j 0%nat) / 2.
(** not all gaps are on one side of their mean *)
Hypothesis Hneg : forall j, exists i, (i < M)%nat /\ d j i <= 0.
Hypothesis Hpos : forall j, exists i, (i < M)%nat /\ 0 <= d j i.
Variable h : R.
Hypothesis Hh : 0 <= h.
Hypothesis H0 : forall k, (k < M)%nat -> Rabs (d 0 k) <= h.
Definition q : R := 1 - / 2 ^ (M - 1).
Lemma q_range : 0 <= q < 1.
Proof.
  unfold q. assert (1 <= 2 ^ (M - 1)) by (apply pow_R1_Rle; lra). assert (0 < / 2 ^ (M - 1)) by (apply Rinv_0_lt_compat; lra).
  assert (/ 2 ^ (M - 1) <= 1) by (rewrite <- Rinv_1; apply Rinv_le_contravar; lra). lra.
Qed.
Lemma both : forall n k, - (h * q ^ n) <= D M d (n * (M - 1)) k <= h * q ^ n.
Proof.
  pose proof q_range as Q. induction n as [|n IH]; intro k.
  - cbn [Nat.mul pow]. rewrite Rmult_1_r. pose proof (H0 (k mod M) (Nat.mod_upper_bound k M ltac:(lia))) as K. unfold D. revert K. unfold Rabs. destruct (Rcase_abs (d 0%nat (k mod M)%nat)); intro; lra.
  - assert (P : 0 <= h * q ^ n) by (apply Rmult_le_pos; [exact Hh|apply pow_le; lra]).
    replace (S n * (M - 1))%nat with (n * (M - 1) + (M - 1))%nat by lia.
    pose proof (D_pull M HM d Hin Hend (h * q ^ n) (n * (M - 1)) P (fun k => proj2 (IH k)) (Hneg _) k) as A.
    assert (B : D M (fun j k => - d j k) (n * (M - 1) + (M - 1)) k <= h * q ^ n * (1 - / 2 ^ (M - 1))).
    { apply (D_pull M HM (fun j k => - d j k)); auto.
      - intros j i Hi. rewrite Hin by auto. lra.
      - intros j. rewrite Hend. lra.
      - intro i. pose proof (IH i) as [I1 _]. unfold D in *. lra.
      - destruct (Hpos (n * (M - 1))) as [i [Hi Hd]]. exists i. split; auto. lra. }
    unfold D in *. fold q in A, B. cbn [pow]. split; [|lra]. replace (h * (q * q ^ n)) with (h * q ^ n * q) by ring. lra.
Qed.
Lemma small_after : forall e, 0 < e -> exists J, forall j, (J <= j)%nat -> forall k, (k < M)%nat -> Rabs (d j k) <= e.
Proof.
  intros e He. pose proof q_range as Q.
  assert (X : exists n, h * q ^ n <= e).
  { destruct (pow_lt_1_zero q ltac:(rewrite Rabs_pos_eq; lra) (e / (h + 1)) ltac:(apply Rdiv_lt_0_compat; lra)) as [n Hn]. exists n.
    specialize (Hn n (le_n _)). rewrite Rabs_pos_eq in Hn by (apply pow_le; lra).
    apply Rle_trans with ((h + 1) * q ^ n); [apply Rmult_le_compat_r; [apply pow_le|]; lra|].
    apply Rle_trans with ((h + 1) * (e / (h + 1))); [apply Rmult_le_compat_l; lra|]. right. field. lra. }
  destruct X as [n Hn]. exists (n * (M - 1))%nat. intros j Hj k Hk.
  assert (A : D M d j k <= e).
  { replace j with (n * (M - 1) + (j - n * (M - 1)))%nat by lia. apply D_le; auto. intro i. pose proof (both n i). lra. }
  assert (B : D M (fun j k => - d j k) j k <= e).
  { replace j with (n * (M - 1) + (j - n * (M - 1)))%nat by lia. apply D_le; auto.
    - intros j' i Hi. rewrite Hin by auto. lra.
    - intros j'. rewrite Hend. lra.
    - intro i. pose proof (both n i) as [I _]. unfold D in *. lra. }
  unfold D in *. rewrite Nat.mod_small in A, B by auto. apply Rabs_le. lra.
Qed.
End Limit.

(** ** Sequences of such adaptations *)
Section Seq.
Variables (m : nat) (B : nat -> list num).
Hypothesis Hm : (2 <= m)%nat.
Hypothesis HL : forall j, length (B j) = m.
Hypothesis HF : forall j, Forall pos (B j).
Hypothesis He0 : forall j, bval (B (S j)) 0 = bval (B j) 0.
Hypothesis He1 : forall j, bval (B (S j)) (m - 1) = bval (B j) (m - 1).
Hypothesis Hk : forall j k, (1 <= k <= m - 2)%nat -> bval (B (S j)) k = sqrt (bval (B j) 0 * bval (B j) k * bval (B j) (k + 1) / bval (B j) 1).

Lemma sqb : forall j k, (k < m)%nat -> 0 < bval (B j) k.
Proof. intros j k H. apply (proj2 (pos_vals (B j) (HF j)) k). rewrite HL. exact H. Qed.
Definition lb (j k : nat) : R := ln (bval (B j) k).
Definition mu : R := (lb 0 (m - 1) - lb 0 0) / INR (m - 1).
Lemma lb0 : forall j, lb j 0 = lb 0 0.
Proof. induction j as [|j IH]; auto. unfold lb in *. rewrite He0. exact IH. Qed.
Lemma lb1 : forall j, lb j (m - 1) = lb 0 (m - 1).
Proof. induction j as [|j IH]; auto. unfold lb in *. rewrite He1. exact IH. Qed.
Lemma ln_sqrt : forall x, 0 < x -> ln (sqrt x) = ln x / 2.
Proof. intros x Hx. rewrite <- half_sqrt by auto. unfold Rpower. rewrite ln_exp. lra. Qed.
Lemma lbk : forall j k, (k <= m - 2)%nat -> lb (S j) k = (lb j 0 + lb j k + lb j (k + 1) - lb j 1) / 2.
Proof.
  intros j k H. destruct k as [|k].
  - unfold lb. rewrite He0. cbn [Nat.add]. lra.
  - unfold lb. rewrite Hk by lia. pose proof (sqb j 0%nat ltac:(lia)) as P0. pose proof (sqb j (S k) ltac:(lia)) as P1.
    pose proof (sqb j (S k + 1)%nat ltac:(lia)) as P2. pose proof (sqb j 1%nat ltac:(lia)) as P3.
    assert (Q0 : 0 < bval (B j) 0 * bval (B j) (S k)) by (apply Rmult_lt_0_compat; auto).
    assert (Q : 0 < bval (B j) 0 * bval (B j) (S k) * bval (B j) (S k + 1)) by (apply Rmult_lt_0_compat; auto).
    rewrite ln_sqrt by (apply Rdiv_lt_0_compat; auto). unfold Rdiv at 2. rewrite ln_mult by (auto; apply Rinv_0_lt_compat; auto).
    rewrite ln_Rinv by auto. rewrite ln_mult by auto. rewrite ln_mult by auto. lra.
Qed.
Definition dd (j k : nat) : R := lb j (k + 1) - lb j k - mu.
Lemma dd_in : forall j k, (k < (m - 1) - 1)%nat -> dd (S j) k = (dd j k + dd j (k + 1)) / 2.
Proof. intros j k H. unfold dd. rewrite !lbk by lia. lra. Qed.
Lemma dd_end : forall j, dd (S j) ((m - 1) - 1) = (dd j ((m - 1) - 1) + dd j 0) / 2.
Proof.
  intro j. unfold dd. replace (m - 1 - 1 + 1)%nat with (m - 1)%nat by lia. rewrite (lb1 (S j)), (lb1 j). rewrite lbk by lia.
  replace (m - 1 - 1 + 1)%nat with (m - 1)%nat by lia. rewrite (lb1 j). cbn [Nat.add]. lra.
Qed.
Lemma side : forall (f : nat -> R) n, (exists i, (i < n)%nat /\ f i <= 0) \/ (forall i, (i < n)%nat -> 0 < f i).
Proof.
  intros f. induction n as [|n [[i [Hi H]]|H]]; [right; intros; lia|left; exists i; split; [lia|auto]|].
  destruct (Rle_lt_dec (f n) 0) as [C|C]; [left; exists n; split; [lia|auto]|].
  right. intros i Hi. destruct (Nat.eq_dec i n) as [->|]; auto. apply H. lia.
Qed.
Lemma mu_tot : lb 0 (m - 1) = lb 0 0 + INR (m - 1) * mu.
Proof. unfold mu. assert (0 < INR (m - 1)) by (apply lt_0_INR; lia). field. lra. Qed.
Lemma dd_neg : forall j, exists i, (i < m - 1)%nat /\ dd j i <= 0.
Proof.
  intro j. destruct (side (dd j) (m - 1)) as [H|H]; auto. exfalso.
  assert (K : forall k, (1 <= k <= m - 1)%nat -> lb j 0 + INR k * mu < lb j k).
  { induction k as [|k IH]; [lia|]. intro HK. rewrite S_INR. pose proof (H k ltac:(lia)) as H1. unfold dd in H1. replace (k + 1)%nat with (S k) in H1 by lia.
    destruct k as [|k]; [simpl; lra|]. specialize (IH ltac:(lia)). lra. }
  specialize (K (m - 1)%nat ltac:(lia)). rewrite lb1, lb0, mu_tot in K. lra.
Qed.
Lemma dd_pos : forall j, exists i, (i < m - 1)%nat /\ 0 <= dd j i.
Proof.
  intro j. destruct (side (fun k => - dd j k) (m - 1)) as [[i [Hi H]]|H]; [exists i; split; [auto|lra]|]. exfalso.
  assert (K : forall k, (1 <= k <= m - 1)%nat -> lb j k < lb j 0 + INR k * mu).
  { induction k as [|k IH]; [lia|]. intro HK. rewrite S_INR. pose proof (H k ltac:(lia)) as H1. unfold dd in H1. replace (k + 1)%nat with (S k) in H1 by lia.
    destruct k as [|k]; [simpl; lra|]. specialize (IH ltac:(lia)). lra. }
  specialize (K (m - 1)%nat ltac:(lia)). rewrite lb1, lb0, mu_tot in K. lra.
Qed.
Lemma bounded : forall (f : nat -> R) n, exists h, 0 <= h /\ forall k, (k < n)%nat -> Rabs (f k) <= h.
Proof.
  intro f. induction n as [|n [h [H0 H]]]; [exists 0; split; [lra|intros; lia]|]. exists (h + Rabs (f n)). pose proof (Rabs_pos (f n)).
  split; [lra|]. intros k HK. destruct (Nat.eq_dec k n) as [->|]; [lra|]. specialize (H k ltac:(lia)). lra.
Qed.
Lemma lb_lim : forall k, (k <= m - 1)%nat -> Un_cv (fun j => lb j k) (lb 0 0 + INR k * mu).
Proof.
  intros k HK e He. destruct (bounded (dd 0) (m - 1)) as [h [H0 H1]].
  assert (PI : 0 < INR m) by (apply lt_0_INR; lia).
  destruct (small_after (m - 1) ltac:(lia) dd dd_in dd_end dd_neg dd_pos h H0 H1 (e / (2 * INR m))) as [J HJ]; [apply Rdiv_lt_0_compat; lra|].
  exists J. intros j Hj. unfold R_dist. set (e' := e / (2 * INR m)) in *.
  assert (K : forall i, (i <= m - 1)%nat -> Rabs (lb j i - (lb 0 0 + INR i * mu)) <= INR i * e').
  { induction i as [|i IH]; intro Hi.
    - rewrite lb0. simpl. replace (lb 0 0 - (lb 0 0 + 0 * mu)) with 0 by ring. rewrite Rabs_R0. lra.
    - specialize (IH ltac:(lia)). pose proof (HJ j Hj i ltac:(lia)) as HD. rewrite S_INR.
      replace (lb j (S i) - (lb 0 0 + (INR i + 1) * mu)) with ((lb j i - (lb 0 0 + INR i * mu)) + dd j i).
      + eapply Rle_trans; [apply Rabs_triang|]. lra.
      + unfold dd. replace (i + 1)%nat with (S i) by lia. ring. }
  specialize (K k HK). apply Rle_lt_trans with (INR k * e'); auto.
  apply Rle_lt_trans with (INR m * e'); [apply Rmult_le_compat_r; [unfold e'; left; apply Rdiv_lt_0_compat; lra|apply le_INR; lia]|].
  unfold e'. replace (INR m * (e / (2 * INR m))) with (e / 2) by (field; lra). lra.
Qed.
Lemma b_lim : forall k, (k <= m - 1)%nat -> Un_cv (fun j => bval (B j) k)
  (bval (B 0%nat) 0 * Rpower (bval (B 0%nat) (m - 1) / bval (B 0%nat) 0) (INR k / INR (m - 1))).
Proof.
  intros k HK. pose proof (sqb 0%nat 0%nat ltac:(lia)) as P0. pose proof (sqb 0%nat (m - 1)%nat ltac:(lia)) as P1.
  replace (bval (B 0%nat) 0 * Rpower (bval (B 0%nat) (m - 1) / bval (B 0%nat) 0) (INR k / INR (m - 1))) with (exp (lb 0 0 + INR k * mu)).
  - assert (C : Un_cv (fun j => exp (lb j k)) (exp (lb 0 0 + INR k * mu))).
    { apply continuity_seq; [apply derivable_continuous_pt; apply derivable_pt_exp|apply lb_lim; auto]. }
    intros e He. destruct (C e He) as [J HJ]. exists J. intros j Hj. specialize (HJ j Hj). unfold lb in HJ at 1. rewrite exp_ln in HJ by (apply sqb; lia). exact HJ.
  - rewrite exp_plus. unfold lb at 1. rewrite exp_ln by auto. f_equal. unfold Rpower. f_equal. unfold Rdiv at 2. rewrite ln_mult by (auto; apply Rinv_0_lt_compat; auto).
    rewrite ln_Rinv by auto. unfold mu, lb. unfold Rdiv. ring.
Qed.
End Seq.
