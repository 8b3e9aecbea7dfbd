(** Which way the adaptation moves a temperature. *)
From Coq Require Import ZArith Arith Reals Lra Lia List Bool Psatz.
From Verif Require Import Base Arith Mh Ladder ListAux LadderReal LadderOrder LadderEven.
Import ListNotations.
Open Scope R_scope.
Local Notation N := NArith.
Local Notation num := (option R).

Section Toward.
Variables (sc zs : R) (m : nat) (b : nat -> R) (a : nat -> num) (i : nat).
Hypothesis Hi : (1 <= i <= m - 2)%nat.
Hypothesis N0 : i = 1%nat -> low (a 0%nat) = false.
Hypothesis N1 : i = (m - 2)%nat -> low (a (m - 2)%nat) = false.

Lemma body_ne : forall j t, i <> j -> bodyT sc zs m b a j t i = t i.
Proof.
  intros j t Hne. unfold bodyT, edge1, edge0.
  assert (E0 : forall t, (if low (a 0%nat) then upd t 1 (t 0%nat - (t 0%nat - t 2%nat) * zs) else t) i = t i).
  { intro t'. destruct (low (a 0%nat)) eqn:E; [|reflexivity]. apply upd_ne. intro K. specialize (N0 ltac:(lia)). discriminate. }
  destruct (low (a (m - 2)%nat)) eqn:E.
  - rewrite upd_ne by (intro K; specialize (N1 ltac:(lia)); discriminate). rewrite E0. apply upd_ne. auto.
  - rewrite E0. apply upd_ne. auto.
Qed.
Lemma body_eq : forall t, bodyT sc zs m b a i t i = newT sc zs b a t i.
Proof.
  intro t. unfold bodyT, edge1, edge0.
  assert (E0 : forall t, (if low (a 0%nat) then upd t 1 (t 0%nat - (t 0%nat - t 2%nat) * zs) else t) i = t i).
  { intro t'. destruct (low (a 0%nat)) eqn:E; [|reflexivity]. apply upd_ne. intro K. specialize (N0 ltac:(lia)). discriminate. }
  assert (E2 : forall t v, upd t i v i = v) by (intros; unfold upd; rewrite Nat.eqb_refl; reflexivity).
  destruct (low (a (m - 2)%nat)) eqn:E.
  - rewrite upd_ne by (intro K; specialize (N1 ltac:(lia)); discriminate). rewrite E0. apply E2.
  - rewrite E0. apply E2.
Qed.
Lemma before : forall j, (j < i)%nat -> temps sc zs m b a j i = 1 / b i.
Proof. induction j as [|j IH]; intro H; [reflexivity|]. cbn [temps]. rewrite body_ne by lia. apply IH. lia. Qed.
Lemma after : forall n, temps sc zs m b a (i + n) i = newT sc zs b a (temps sc zs m b a (i - 1)) i.
Proof.
  induction n as [|n IH].
  - rewrite Nat.add_0_r. assert (X : forall j, (1 <= j)%nat -> temps sc zs m b a j = bodyT sc zs m b a j (temps sc zs m b a (j - 1))).
    { intros [|j] Hj; [lia|]. cbn [temps]. replace (S j - 1)%nat with j by lia. reflexivity. }
    rewrite (X i) by lia. apply body_eq.
  - replace (i + S n)%nat with (S (i + n)) by lia. cbn [temps]. rewrite body_ne by lia. exact IH.
Qed.
Lemma inner_val : temps sc zs m b a (m - 2) i = newT sc zs b a (temps sc zs m b a (i - 1)) i /\ temps sc zs m b a (i - 1) i = 1 / b i.
Proof. split; [|apply before; lia]. replace (m - 2)%nat with (i + (m - 2 - i))%nat by lia. apply after. Qed.
End Toward.

Definition sval (l : list num) (k : nat) : R := val (nth k l None).

(** rates are quotients of counts *)
Lemma devi_sign : forall s1 p1 s2 p2, 0 <= s1 <= p1 -> 0 <= s2 <= p2 -> 0 < p1 -> 0 < p2 ->
  let x := s1 / p1 in let y := s2 / p2 in let d := (y - x) / (y + x) in
  (s1 * p2 < s2 * p1 -> 0 < x + y /\ 0 < d <= 1) /\ (s2 * p1 < s1 * p2 -> 0 < x + y /\ -1 <= d < 0).
Proof.
  intros s1 p1 s2 p2 H1 H2 P1 P2 x y d.
  assert (Hx : 0 <= x) by (apply Rmult_le_pos; [lra|left; apply Rinv_0_lt_compat; lra]).
  assert (Hy : 0 <= y) by (apply Rmult_le_pos; [lra|left; apply Rinv_0_lt_compat; lra]).
  assert (PP : 0 < p1 * p2) by (apply Rmult_lt_0_compat; lra).
  assert (Ex : x * (p1 * p2) = s1 * p2) by (unfold x; field; lra). assert (Ey : y * (p1 * p2) = s2 * p1) by (unfold y; field; lra).
  split; intro H.
  - assert (L : x < y) by (apply (Rmult_lt_reg_r (p1 * p2)); lra). split; [lra|]. unfold d. split; [apply Rdiv_lt_0_compat; lra|].
    apply (Rmult_le_reg_r (y + x)); [lra|]. unfold Rdiv. rewrite Rmult_assoc, Rinv_l by lra. lra.
  - assert (L : y < x) by (apply (Rmult_lt_reg_r (p1 * p2)); lra). split; [lra|]. unfold d. split.
    + apply (Rmult_le_reg_r (y + x)); [lra|]. unfold Rdiv. rewrite Rmult_assoc, Rinv_l by lra. lra.
    + apply (Rmult_lt_reg_r (y + x)); [lra|]. unfold Rdiv. rewrite Rmult_assoc, Rinv_l by lra. lra.
Qed.
Lemma inv_lt : forall x y, 0 < x -> x < 1 / y -> 0 < y -> y < 1 / x.
Proof. intros x y Hx H Hy. replace y with (/ (1 / y)) by (field; lra). unfold Rdiv at 2. rewrite Rmult_1_l. apply Rinv_lt_contravar; auto. apply Rmult_lt_0_compat; [|apply Rdiv_lt_0_compat]; lra. Qed.
Lemma inv_gt : forall x y, 0 < y -> 1 / y < x -> 1 / x < y.
Proof. intros x y Hy H. assert (0 < 1 / y) by (apply Rdiv_lt_0_compat; lra). replace y with (/ (1 / y)) by (field; lra). unfold Rdiv at 1. rewrite Rmult_1_l. apply Rinv_lt_contravar; auto. apply Rmult_lt_0_compat; lra. Qed.

(** the new value of a beta that the treatment of the ends leaves alone *)
Lemma toward_val : forall sc zs m beta nsw npr i, 0 <= sc <= 1 -> 0 <= zs <= 1 -> (3 <= m)%nat -> length beta = m -> Forall pos beta ->
  counts m nsw npr -> m <> 4%nat \/ bval beta 1 <= bval beta 2 -> (1 <= i <= m - 2)%nat ->
  0 < sval npr (i - 1) -> 0 < sval npr i ->
  (i = 1%nat -> sval npr 0 <= 100 * sval nsw 0) -> (i = (m - 2)%nat -> sval npr (m - 2) <= 100 * sval nsw (m - 2)) ->
  exists (beta' : list num) (t : nat -> R), tune_ladder (A := N) (Some sc) (Some zs) (Z.of_nat m) nsw npr beta = OK beta' /\
    0 < bval beta' i /\ t i = 1 / bval beta i /\
    let x := sval nsw (i - 1) / sval npr (i - 1) in let y := sval nsw i / sval npr i in
    bval beta' i = 1 / newT sc zs (bval beta) (fun k => if Nat.eqb k i then Some y else Some x) t i.
Proof.
  intros sc zs m beta nsw npr i Hsc Hzs Hm L F HC H4 Hi P1 P2 L1 L2. destruct (pos_vals beta F) as [Vb Pb].
  destruct (counts_vals m nsw npr HC) as [Vs [Vp HR]]. pose proof HC as [Ls [Lp _]].
  assert (Pb' : forall k, (k < m)%nat -> 0 < val (nth k beta None)) by (intros; apply Pb; lia).
  set (a := rates_of (fun k => val (nth k nsw None)) (fun k => val (nth k npr None))) in *.
  assert (TP : forall k, (k < m)%nat -> 0 < temps sc zs m (fun k => val (nth k beta None)) a (m - 2) k).
  { intros k Hk. exact (proj1 (temps_pos sc zs m _ _ Hsc Hzs Pb' HR H4 (m - 2)%nat (le_n _)) k Hk). }
  destruct (tune_ladder_val sc zs m beta _ nsw npr _ _ _ ltac:(lia) L Vb Pb' Ls Vs Lp Vp (fun k _ => eq_refl)) as [beta' [E [L' V']]].
  { intros k Hk. pose proof (TP k ltac:(lia)) as T. fold a. lra. }
  fold a in V'. assert (A : forall k, 0 < sval npr k -> a k = Some (sval nsw k / sval npr k)).
  { intros k Hk. unfold a, rates_of. fold (sval npr k) (sval nsw k). destruct (Reqb_cases (sval npr k) 0) as [[_ K]|[-> _]]; [lra|reflexivity]. }
  assert (Lw : forall k, 0 < sval npr k -> sval npr k <= 100 * sval nsw k -> low (a k) = false).
  { intros k Hk Hl. rewrite A by auto. cbn [low]. apply Rltb_false. apply (Rmult_le_reg_r (sval npr k)); [lra|]. unfold Rdiv. rewrite Rmult_assoc, Rinv_l by lra. lra. }
  destruct (inner_val sc zs m (bval beta) a i Hi) as [I1 I2].
  - intros ->. apply Lw; auto.
  - intros Ei. apply Lw; [rewrite <- Ei; auto|auto].
  - exists beta', (temps sc zs m (bval beta) a (i - 1)). split; [exact E|].
    assert (V : bval beta' i = 1 / temps sc zs m (bval beta) a (m - 2) i).
    { unfold bval at 1. rewrite V' by lia. cbn [val]. unfold tuned. replace ((1 <=? i)%nat && (i <=? m - 2)%nat) with true; [reflexivity|].
      symmetry. apply andb_true_iff. split; apply Nat.leb_le; lia. }
    split; [rewrite V; apply Rdiv_lt_0_compat; [lra|apply TP; lia]|]. split; [exact I2|]. cbv zeta. rewrite V, I1. f_equal.
    unfold newT. rewrite !A by auto. replace (i - 1 =? i)%nat with false by (symmetry; apply Nat.eqb_neq; lia). rewrite Nat.eqb_refl. reflexivity.
Qed.

Lemma toward : forall sc zs m beta nsw npr i, 0 < sc <= 1 -> 0 <= zs < 1 -> (3 <= m)%nat -> length beta = m -> Forall pos beta ->
  counts m nsw npr -> m <> 4%nat \/ bval beta 1 <= bval beta 2 -> (1 <= i <= m - 2)%nat ->
  0 < sval npr (i - 1) -> 0 < sval npr i ->
  (i = 1%nat -> sval npr 0 <= 100 * sval nsw 0) -> (i = (m - 2)%nat -> sval npr (m - 2) <= 100 * sval nsw (m - 2)) ->
  exists beta' : list num, tune_ladder (A := N) (Some sc) (Some zs) (Z.of_nat m) nsw npr beta = OK beta' /\
    (sval nsw (i - 1) * sval npr i < sval nsw i * sval npr (i - 1) -> 100 * bval beta (i - 1) < 99 * bval beta i ->
       bval beta (i - 1) < bval beta' i < bval beta i) /\
    (sval nsw i * sval npr (i - 1) < sval nsw (i - 1) * sval npr i -> 101 * bval beta i < 100 * bval beta (i + 1) ->
       bval beta i < bval beta' i < bval beta (i + 1)).
Proof.
  intros sc zs m beta nsw npr i Hsc Hzs Hm L F HC H4 Hi P1 P2 L1 L2.
  destruct (toward_val sc zs m beta nsw npr i ltac:(lra) ltac:(lra) Hm L F HC H4 Hi P1 P2 L1 L2) as [beta' [t [E [Pv [Et V]]]]].
  exists beta'. split; [exact E|]. cbv zeta in V.
  assert (C : forall k, (k < m)%nat -> 0 <= sval nsw k <= sval npr k).
  { intros k Hk. destruct HC as [_ [_ HC]]. destruct (HC k Hk) as [s' [p' [E1 [E2 H]]]]. unfold sval. rewrite E1, E2. cbn [val].
    pose proof (IZR_le 0 s' ltac:(lia)). pose proof (IZR_le s' p' ltac:(lia)). lra. }
  pose proof (devi_sign _ _ _ _ (C (i - 1)%nat ltac:(lia)) (C i ltac:(lia)) P1 P2) as DS. cbv zeta in DS.
  set (x := sval nsw (i - 1) / sval npr (i - 1)) in *. set (y := sval nsw i / sval npr i) in *.
  assert (B : forall k, (k < m)%nat -> 0 < bval beta k) by (intros k Hk; apply (proj2 (pos_vals beta F) k); rewrite L; exact Hk).
  pose proof (B i ltac:(lia)) as B0. pose proof (B (i - 1)%nat ltac:(lia)) as B1. pose proof (B (i + 1)%nat ltac:(lia)) as B2.
  unfold newT in V. replace (i - 1 =? i)%nat with false in V by (symmetry; apply Nat.eqb_neq; lia). rewrite Nat.eqb_refl in V.
  destruct DS as [D1 D2]. split; intros HR HB.
  - destruct (D1 HR) as [S [d0 d1]]. rewrite (proj2 (Rltb_true 0 (x + y))) in V by exact S. rewrite (proj2 (Rltb_true 0 _)) in V by exact d0.
    set (d := (y - x) / (y + x)) in *. unfold incT in V. rewrite Et in V.
    assert (G : 1 / bval beta i < 1 / bval beta (i - 1) * (1 - / 100)).
    { apply (Rmult_lt_reg_r (bval beta i * bval beta (i - 1))); [apply Rmult_lt_0_compat; lra|].
      replace (1 / bval beta i * (bval beta i * bval beta (i - 1))) with (bval beta (i - 1)) by (field; lra).
      replace (1 / bval beta (i - 1) * (1 - / 100) * (bval beta i * bval beta (i - 1))) with (99 / 100 * bval beta i) by (field; lra). lra. }
    assert (Q : 0 < 1 / bval beta (i - 1)) by (apply Rdiv_lt_0_compat; lra).
    set (df := 1 / bval beta (i - 1) - 1 / bval beta i) in *. assert (Pd : 0 < df) by (unfold df; lra).
    assert (J : 0 < (if Reqb d 1 then df * (1 - zs) else df * d * sc)).
    { destruct (Reqb d 1); [apply Rmult_lt_0_compat; lra|]. apply Rmult_lt_0_compat; [apply Rmult_lt_0_compat; lra|lra]. }
    set (T := Rmin _ _) in V. assert (T1 : 1 / bval beta i < T) by (unfold T; apply Rmin_glb_lt; [lra|exact G]).
    assert (T2 : T < 1 / bval beta (i - 1)) by (unfold T; eapply Rle_lt_trans; [apply Rmin_r|]; lra).
    assert (Q0 : 0 < 1 / bval beta i) by (apply Rdiv_lt_0_compat; lra).
    rewrite V. split; [apply inv_lt; lra|apply inv_gt; lra].
  - destruct (D2 HR) as [S [d0 d1]]. rewrite (proj2 (Rltb_true 0 (x + y))) in V by exact S.
    set (d := (y - x) / (y + x)) in *. rewrite (proj2 (Rltb_false 0 d)) in V by lra. destruct (Reqb_cases d 0) as [[_ K]|[K _]]; [lra|]. rewrite K in V.
    unfold decT in V. rewrite Et in V.
    assert (G : 1 / bval beta (i + 1) * (1 + / 100) < 1 / bval beta i).
    { apply (Rmult_lt_reg_r (bval beta i * bval beta (i + 1))); [apply Rmult_lt_0_compat; lra|].
      replace (1 / bval beta i * (bval beta i * bval beta (i + 1))) with (bval beta (i + 1)) by (field; lra).
      replace (1 / bval beta (i + 1) * (1 + / 100) * (bval beta i * bval beta (i + 1))) with (101 / 100 * bval beta i) by (field; lra). lra. }
    assert (Q : 0 < 1 / bval beta (i + 1)) by (apply Rdiv_lt_0_compat; lra).
    set (df := 1 / bval beta i - 1 / bval beta (i + 1)) in *. assert (Pd : 0 < df) by (unfold df; lra).
    assert (J : 0 < (if Reqb d (-1) then df * (1 - zs) else df * - d * sc)).
    { destruct (Reqb d (-1)); [apply Rmult_lt_0_compat; lra|]. apply Rmult_lt_0_compat; [apply Rmult_lt_0_compat; lra|lra]. }
    set (T := Rmax _ _) in V. assert (T1 : T < 1 / bval beta i) by (unfold T; apply Rmax_lub_lt; [lra|exact G]).
    assert (T2 : 1 / bval beta (i + 1) < T) by (unfold T; eapply Rlt_le_trans; [|apply Rmax_r]; lra).
    rewrite V. split; [apply inv_lt; lra|apply inv_gt; lra].
Qed.
