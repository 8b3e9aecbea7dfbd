(** Four ranks, outermost temperatures 1000 and 1, as in the shipped configurations with a tuned ladder: the betas stay positive
    through sixty adaptations. *)
From Coq Require Import ZArith Arith List Bool Reals Lia Lra Psatz.
From Verif Require Import Base Arith B64 Rand Mh Ladder Tune Mpi MpiMeta Spmd Prog Seq ListAux MhSpec SeqWf Refine
  SeqTotal System RandRange Runs SeqFiles History Views RunHist HistCount HistRows SwapLemmas ChainInv Stale LadderRuns LadderReal LadderOrder LadderN.
Import ListNotations.
Open Scope R_scope.

(** ** one adaptation *)
(** the value computed for a rank: [tm], [ti] present temperatures of the rank below and of the rank, [Tm], [Ti], [Tp] old ones *)
Definition step_to (tm ti Tm Ti Tp v : R) : Prop :=
  v = tm / sqrt (Tm / Tp) \/
  (exists k, 0 <= k <= 9 / 10 /\ v = Rmin (ti + (Tm - Ti) * k) (Tm * (1 - / 100))) \/
  (exists k, 0 <= k <= 9 / 10 /\ v = Rmax (ti - (Ti - Tp) * k) (Tp * (1 + / 100))).

Lemma newT_step : forall sc zs b a t i, 0 <= sc <= 9 / 10 -> 1 / 10 <= zs <= 3 / 10 -> (forall k, rate (a k)) ->
  0 < 1 / b (i - 1)%nat / (1 / b (i + 1)%nat) ->
  step_to (t (i - 1)%nat) (t i) (1 / b (i - 1)%nat) (1 / b i) (1 / b (i + 1)%nat) (newT sc zs b a t i).
Proof.
  intros sc zs b a t i Hs Hz Ha Hp.
  assert (G : step_to (t (i - 1)%nat) (t i) (1 / b (i - 1)%nat) (1 / b i) (1 / b (i + 1)%nat) (geomT b t i)).
  { left. unfold geomT. rewrite half_sqrt by exact Hp. reflexivity. }
  unfold newT. pose proof (Ha (i - 1)%nat) as R1. pose proof (Ha i) as R2.
  destruct (a (i - 1)%nat) as [x|]; destruct (a i) as [y|]; auto. cbn [rate] in R1, R2.
  destruct (Rltb_cases 0 (x + y)) as [[-> Hs']|[-> _]]; auto.
  pose proof (devi_range x y R1 R2 Hs') as Hd. set (d := (y - x) / (y + x)) in *.
  destruct (Rltb_cases 0 d) as [[-> Hd']|[-> Hd']].
  - right. left. unfold incT. destruct (Reqb d 1).
    + exists (1 - zs). split; [lra|reflexivity].
    + exists (d * sc). split; [nra|]. f_equal. ring.
  - destruct (Reqb_cases d 0) as [[-> E]|[-> E]]; auto. right. right. unfold decT. destruct (Reqb d (-1)).
    + exists (1 - zs). split; [lra|reflexivity].
    + exists (- d * sc). split; [nra|]. f_equal. ring.
Qed.

Section Num.
Variables m x y zs : R.
Hypothesis Hm : 196 / 1000 <= m <= 36 / 100.
Hypothesis Hx : m <= x <= 2290.
Hypothesis Hy : m <= y <= 22672 / 10.
Hypothesis Hxy : x <= 103 / 100 -> y <= 20.
Hypothesis Hz : 1 / 10 <= zs <= 3 / 10.

Definition fine (v : R) : Prop :=
  m <= v <= 2290 /\ m * sqrt x <= v /\ (v <= 103 / 100 -> y <= 20 /\ x <= 103 / 10) /\ (x <= 103 / 100 -> v <= 1000).

Lemma sqrt_b : forall u v, 0 <= v -> v * v <= u -> v <= sqrt u.
Proof. intros u v H1 H2. rewrite <- (sqrt_square v H1). apply sqrt_le_1_alt. exact H2. Qed.
Lemma sqrt_u : forall u v, 0 <= v -> u <= v * v -> sqrt u <= v.
Proof. intros u v H1 H2. rewrite <- (sqrt_square v H1). apply sqrt_le_1_alt. exact H2. Qed.

Lemma sqx : 442 / 1000 <= sqrt x <= 48 /\ sqrt x * sqrt x = x.
Proof. split; [split; [apply sqrt_b; lra|apply sqrt_u; lra]|apply sqrt_sqrt; lra]. Qed.

Lemma big_fine : forall v, 70 <= v <= 2290 -> (x <= 103 / 100 -> v <= 1000) -> fine v.
Proof. intros v H1 H2. pose proof sqx as [S _]. split; [lra|]. split; [assert (m * sqrt x <= 36 / 100 * 48) by (apply Rmult_le_compat; lra); lra|]. split; [intros; lra|exact H2]. Qed.

Lemma first_fine : forall v, step_to 1000 x 1000 x y v -> fine v.
Proof.
  intros v [->|[[k [Hk ->]]|[k [Hk ->]]]]; pose proof sqx as [S SS].
  - assert (Ey : 1000 / sqrt (1000 / y) = sqrt (1000 * y)).
    { assert (0 < sqrt (1000 / y)) by (apply sqrt_lt_R0; apply Rdiv_lt_0_compat; lra).
      apply Rmult_eq_reg_r with (sqrt (1000 / y)); [|lra]. unfold Rdiv at 1. rewrite Rmult_assoc, Rinv_l, Rmult_1_r by lra.
      rewrite <- sqrt_mult_alt by lra. replace (1000 * y * (1000 / y)) with (1000 * 1000) by (field; lra). rewrite sqrt_square; lra. }
    rewrite Ey. assert (L : 10 <= sqrt (1000 * y)) by (apply sqrt_b; lra).
    split; [split; [lra|apply sqrt_u; nra]|]. split; [|split; [intros; lra|]].
    + apply sqrt_b; [nra|]. replace (m * sqrt x * (m * sqrt x)) with (m * m * (sqrt x * sqrt x)) by ring. rewrite SS.
      assert (m * m <= 36 / 100 * m) by nra. assert (m * m * x <= 36 / 100 * m * 2290) by (apply Rmult_le_compat; nra). lra.
    + intros H. apply sqrt_u; [lra|]. specialize (Hxy H). lra.
  - unfold Rmin. destruct (Rle_dec (x + (1000 - x) * k) (1000 * (1 - / 100))) as [H|H].
    + assert (V : (1 - k) * x + k * 1000 = x + (1000 - x) * k) by ring.
      assert (Q : x <= x + (1000 - x) * k \/ 900 <= x + (1000 - x) * k). { destruct (Rle_dec x 1000); [left; nra|right; nra]. }
      split; [split; [|lra]|split; [|split; [|intros; lra]]].
      * destruct Q; lra.
      * destruct Q as [Q|Q]; [|nra]. apply Rle_trans with x; [|lra]. rewrite <- SS at 2. nra.
      * intros Hv. destruct Q as [Q|Q]; [|lra]. assert (x <= 103 / 100) by lra. split; [auto|lra].
    + apply big_fine; lra.
  - unfold Rmax. set (w := x - (x - y) * k).
    assert (W : 1 / 10 * x + 9 / 10 * y <= Rmax w (y * (1 + / 100))).
    { unfold Rmax, w. destruct (Rle_dec y x); [assert (0 <= (x - y) * (9 / 10 - k)) by (apply Rmult_le_pos; lra)|]; destruct (Rle_dec _ _); lra. }
    assert (W2 : y * (1 + / 100) <= Rmax w (y * (1 + / 100))) by apply Rmax_r.
    assert (U : Rmax w (y * (1 + / 100)) <= 2290 /\ (x <= 103 / 100 -> Rmax w (y * (1 + / 100)) <= 1000)).
    { split; [|intros H; specialize (Hxy H)]; unfold Rmax, w; destruct (Rle_dec y x);
        [assert (0 <= (x - y) * k) by (apply Rmult_le_pos; lra)|assert (0 <= (y - x) * (1 - k)) by (apply Rmult_le_pos; lra)|assert (0 <= (x - y) * k) by (apply Rmult_le_pos; lra)|assert (0 <= (y - x) * (1 - k)) by (apply Rmult_le_pos; lra)]; destruct (Rle_dec _ _); lra. }
    change (fine (Rmax w (y * (1 + / 100)))). set (v := Rmax w (y * (1 + / 100))) in *. clearbody v.
    split; [lra|]. split; [|split; [intros; lra|tauto]].
    apply Rle_trans with (1 / 10 * x + 9 / 10 * y); [|exact W]. rewrite <- SS at 2.
    assert (R0 : 0 <= sqrt m <= 6 / 10) by (split; [apply sqrt_pos|apply sqrt_u; lra]).
    assert (RR : sqrt m * sqrt m = m) by (apply sqrt_sqrt; lra). set (r := sqrt m) in *. set (q := sqrt x) in *.
    assert (Q1 : 0 <= (q - 3 * r) * (q - 3 * r)) by apply Rle_0_sqr. assert (Q2 : 0 <= r * q) by (apply Rmult_le_pos; lra).
    assert (Q3 : m * q <= 6 / 10 * (r * q)) by (replace (m * q) with (r * (r * q)) by (rewrite <- RR; ring); apply Rmult_le_compat_r; lra). lra.
Qed.

Lemma edge_fine : fine (1000 - (1000 - y) * zs).
Proof. apply big_fine; [split; nra|]. intros H. specialize (Hxy H). nra. Qed.

(** the second rank, when its present temperature is still the old one *)
Lemma second_low : forall t v, fine t -> step_to t y x y 1 v -> 99 / 100 * m <= v <= 22672 / 10 /\ (t <= 103 / 100 -> v <= 20).
Proof.
  intros t v [F1 [F2 [F3 F4]]] H. pose proof sqx as [S SS]. destruct H as [->|[[k [Hk ->]]|[k [Hk ->]]]].
  - replace (x / 1) with x by field. assert (P : 0 < sqrt x) by lra.
    assert (E : t / sqrt x * sqrt x = t) by (field; lra). set (v := t / sqrt x) in *. clearbody v.
    split; [split|].
    + assert (m <= v); [|lra]. apply Rmult_le_reg_r with (sqrt x); lra.
    + destruct (Rle_dec x (103 / 100)) as [H|H].
      * specialize (F4 H). apply Rmult_le_reg_r with (sqrt x); lra.
      * assert (1014 / 1000 <= sqrt x) by (apply sqrt_b; lra). apply Rmult_le_reg_r with (sqrt x); lra.
    + intros H. apply Rmult_le_reg_r with (sqrt x); lra.
  - unfold Rmin. destruct (Rle_dec _ _) as [H|H].
    + split; [split; [|lra]|].
      * destruct (Rle_dec x y); [assert (0 <= (y - x) * (1 - k)) by (apply Rmult_le_pos; lra)|assert (0 <= (x - y) * k) by (apply Rmult_le_pos; lra)]; lra.
      * intros Ht. destruct (F3 Ht). lra.
    + split; [lra|]. intros Ht. destruct (F3 Ht). lra.
  - unfold Rmax. destruct (Rle_dec _ _) as [H|H].
    + split; [lra|intros; lra].
    + assert (Q : y - (y - 1) * k <= Rmax y 1).
      { unfold Rmax. destruct (Rle_dec y 1); [assert (0 <= (1 - y) * (1 - k)) by (apply Rmult_le_pos; lra)|assert (0 <= (y - 1) * k) by (apply Rmult_le_pos; lra)]; lra. }
      unfold Rmax in Q. split; [split; [lra|destruct (Rle_dec y 1); lra]|].
      intros Ht. destruct (F3 Ht). destruct (Rle_dec y 1); lra.
Qed.

(** ... and when it has been set by the treatment of the edge *)
Lemma second_edge : forall t ti v, fine t -> ti = t - (t - 1) * (1 - zs) -> step_to t ti x y 1 v -> -2041 <= v <= 2290.
Proof.
  intros t ti v [F1 [F2 [F3 F4]]] Et H. pose proof sqx as [S SS]. assert (T : 0 <= ti <= 700) by (rewrite Et; split; nra).
  destruct H as [->|[[k [Hk ->]]|[k [Hk ->]]]].
  - replace (x / 1) with x by field. assert (E : t / sqrt x * sqrt x = t) by (field; lra). set (v := t / sqrt x) in *. clearbody v. split.
    + apply Rmult_le_reg_r with (sqrt x); lra.
    + destruct (Rle_dec x (103 / 100)) as [H|H].
      * specialize (F4 H). apply Rmult_le_reg_r with (sqrt x); lra.
      * assert (1014 / 1000 <= sqrt x) by (apply sqrt_b; lra). apply Rmult_le_reg_r with (sqrt x); lra.
  - assert (0 <= x * k) by (apply Rmult_le_pos; lra). assert (y * k <= 22672 / 10 * (9 / 10)) by (apply Rmult_le_compat; lra).
    unfold Rmin. destruct (Rle_dec _ _) as [H'|H']; split; lra.
  - assert (0 <= y * k) by (apply Rmult_le_pos; lra).
    unfold Rmax. destruct (Rle_dec _ _) as [H'|H']; split; lra.
Qed.

(** the two temperatures after the adaptation; A, B: the edges are treated *)
Lemma four_step : forall (A B : bool) t1 t1b t2b t2c t1d t2d,
  step_to 1000 x 1000 x y t1 -> t1b = (if A then 1000 - (1000 - y) * zs else t1) ->
  t2b = (if B then t1b - (t1b - 1) * (1 - zs) else y) -> step_to t1b t2b x y 1 t2c ->
  t1d = (if A then 1000 - (1000 - t2c) * zs else t1b) -> t2d = (if B then t1d - (t1d - 1) * (1 - zs) else t2c) ->
  99 / 100 * m <= t1d <= 2290 /\ 99 / 100 * m <= t2d <= 22672 / 10 /\ (t1d <= 103 / 100 -> t2d <= 20).
Proof.
  intros A B t1 t1b t2b t2c t1d t2d H1 E1 E2 H2 E3 E4.
  assert (F : fine t1b) by (rewrite E1; destruct A; [apply edge_fine|apply first_fine; exact H1]).
  destruct B.
  - pose proof (second_edge t1b t2b t2c F E2 H2) as K. pose proof F as [F1 _].
    assert (R : 99 / 100 * m <= t1d <= 2290) by (rewrite E3; destruct A; [split; nra|lra]).
    split; [exact R|]. rewrite E4. split; [split; nra|intros; nra].
  - subst t2b. destruct (second_low t1b t2c F H2) as [K1 K2]. subst t2d. destruct A.
    + assert (500 <= t1d) by (rewrite E3; nra). split; [split; [lra|rewrite E3; nra]|]. split; [exact K1|intros; lra].
    + subst t1d. pose proof F as [F1 _]. split; [lra|]. auto.
Qed.
End Num.

(** ** the function *)
Definition inv4 (m : R) (beta : list (option R)) : Prop :=
  exists b1 b2, beta = [Some (1 / 1000); Some b1; Some b2; Some 1] /\ 0 < b1 /\ 0 < b2 /\
    m <= 1 / b1 <= 2290 /\ m <= 1 / b2 <= 22672 / 10 /\ (1 / b1 <= 103 / 100 -> 1 / b2 <= 20).

Lemma temps_four : forall sc zs b a, 0 <= sc <= 9 / 10 -> 1 / 10 <= zs <= 3 / 10 -> (forall k, rate (a k)) ->
  1 / b 0%nat = 1000 -> 1 / b 3%nat = 1 -> forall m, 196 / 1000 <= m <= 36 / 100 ->
  m <= 1 / b 1%nat <= 2290 -> m <= 1 / b 2%nat <= 22672 / 10 -> (1 / b 1%nat <= 103 / 100 -> 1 / b 2%nat <= 20) ->
  let t1 := temps sc zs 4 b a 2 1 in let t2 := temps sc zs 4 b a 2 2 in
  99 / 100 * m <= t1 <= 2290 /\ 99 / 100 * m <= t2 <= 22672 / 10 /\ (t1 <= 103 / 100 -> t2 <= 20).
Proof.
  intros sc zs b a Hs Hz Ha E0 E3 m Hm Hx Hy Hxy t1 t2.
  set (u := temps sc zs 4 b a 1).
  assert (K1 : step_to 1000 (1 / b 1%nat) 1000 (1 / b 1%nat) (1 / b 2%nat) (newT sc zs b a (temps sc zs 4 b a 0) 1)).
  { pose proof (newT_step sc zs b a (temps sc zs 4 b a 0) 1 Hs Hz Ha) as K. cbn [temps Nat.sub Nat.add] in K. rewrite E0 in K. apply K.
    apply Rdiv_lt_0_compat; lra. }
  assert (K2 : step_to (u 1%nat) (u 2%nat) (1 / b 1%nat) (1 / b 2%nat) 1 (newT sc zs b a u 2)).
  { pose proof (newT_step sc zs b a u 2 Hs Hz Ha) as K. cbn [Nat.sub Nat.add] in K. rewrite E3 in K. apply K.
    apply Rdiv_lt_0_compat; lra. }
  apply (four_step m (1 / b 1%nat) (1 / b 2%nat) zs Hm Hx Hy Hxy Hz (low (a 0%nat)) (low (a 2%nat))
    (newT sc zs b a (temps sc zs 4 b a 0) 1) (u 1%nat) (u 2%nat) (newT sc zs b a u 2)); auto.
  - unfold u. cbn [temps]. unfold bodyT, edge1, edge0. cbn [Nat.sub]. destruct (low (a 0%nat)), (low (a 2%nat)); unfold upd; cbn [Nat.eqb]; rewrite ?E0; reflexivity.
  - unfold u. cbn [temps]. unfold bodyT, edge1, edge0. cbn [Nat.sub]. destruct (low (a 0%nat)), (low (a 2%nat)); unfold upd; cbn [Nat.eqb]; rewrite ?E0, ?E3; reflexivity.
  - assert (U0 : u 0%nat = 1000).
    { unfold u. cbn [temps]. unfold bodyT, edge1, edge0. cbn [Nat.sub]. destruct (low (a 0%nat)), (low (a 2%nat)); unfold upd; cbn [Nat.eqb]; exact E0. }
    unfold t1. change (temps sc zs 4 b a 2) with (bodyT sc zs 4 b a 2 u). unfold bodyT, edge1, edge0. cbn [Nat.sub].
    destruct (low (a 0%nat)), (low (a 2%nat)); unfold upd; cbn [Nat.eqb]; rewrite ?U0; reflexivity.
  - assert (U3 : u 3%nat = 1).
    { unfold u. cbn [temps]. unfold bodyT, edge1, edge0. cbn [Nat.sub]. destruct (low (a 0%nat)), (low (a 2%nat)); unfold upd; cbn [Nat.eqb]; exact E3. }
    unfold t2, t1. change (temps sc zs 4 b a 2) with (bodyT sc zs 4 b a 2 u). unfold bodyT, edge1, edge0. cbn [Nat.sub].
    destruct (low (a 0%nat)), (low (a 2%nat)); unfold upd; cbn [Nat.eqb]; rewrite ?U3; reflexivity.
Qed.

Lemma adapt_four : forall sc zs m beta nsw npr, 0 <= sc <= 9 / 10 -> 1 / 10 <= zs <= 3 / 10 -> 196 / 1000 <= m <= 36 / 100 ->
  inv4 m beta -> counts 4 nsw npr ->
  exists beta', tune_ladder (A := NArith) (Some sc) (Some zs) 4 nsw npr beta = OK beta' /\ inv4 (99 / 100 * m) beta'.
Proof.
  intros sc zs m beta nsw npr Hsc Hzs Hm [b1 [b2 [Eb [P1 [P2 [Hx [Hy Hxy]]]]]]] HC.
  destruct (counts_vals 4 nsw npr HC) as [Vs [Vp HR]]. destruct HC as [Ls [Lp _]].
  set (b := fun k => val (nth k beta None)).
  assert (Vb : vals beta b). { subst beta. intros k Hk. cbn in Hk. unfold b. destruct k as [|[|[|[|k]]]]; try reflexivity. lia. }
  assert (Pb : forall k, (k < 4)%nat -> 0 < b k). { intros k Hk. unfold b. subst beta. destruct k as [|[|[|[|k]]]]; cbn; lra || lia. }
  assert (L : length beta = 4%nat) by (subst beta; reflexivity).
  assert (B0 : 1 / b 0%nat = 1000) by (unfold b; subst beta; cbn; field).
  assert (B3 : 1 / b 3%nat = 1) by (unfold b; subst beta; cbn; field).
  assert (B1 : b 1%nat = b1) by (unfold b; subst beta; reflexivity). assert (B2 : b 2%nat = b2) by (unfold b; subst beta; reflexivity).
  match type of HR with forall k, rate (?a k) => set (a0 := a) in * end.
  destruct (temps_four sc zs b a0 Hsc Hzs HR B0 B3 m Hm) as [T1 [T2 T3]]; rewrite ?B1, ?B2; auto.
  cbv zeta in T1, T2, T3.
  destruct (tune_ladder_val sc zs 4 beta b nsw npr _ _ a0 ltac:(lia) L Vb Pb Ls Vs Lp Vp (fun k _ => eq_refl)) as [beta' [E [L' V']]].
  { intros k Hk. assert (k = 1 \/ k = 2)%nat as [->| ->] by lia; cbn [Nat.sub]; lra. }
  exists beta'. split; [exact E|].
  pose proof (V' 0%nat ltac:(lia)) as W0. pose proof (V' 1%nat ltac:(lia)) as W1. pose proof (V' 2%nat ltac:(lia)) as W2. pose proof (V' 3%nat ltac:(lia)) as W3.
  unfold tuned in W0, W1, W2, W3. cbn [Nat.leb Nat.sub andb] in W0, W1, W2, W3.
  set (t1 := temps sc zs 4 b a0 2 1) in *. set (t2 := temps sc zs 4 b a0 2 2) in *. clearbody t1 t2.
  exists (1 / t1), (1 / t2).
  assert (I1 : 1 / (1 / t1) = t1) by (field; lra). assert (I2 : 1 / (1 / t2) = t2) by (field; lra). rewrite I1, I2.
  split.
  { destruct beta' as [|c0 [|c1 [|c2 [|c3 [|c4 r]]]]]; try discriminate L'. cbn [nth] in W0, W1, W2, W3. rewrite W0, W1, W2, W3.
    assert (Q0 : b 0%nat = 1 / 1000) by (rewrite <- B0; field; pose proof (Pb 0%nat ltac:(lia)); lra).
    assert (Q3 : b 3%nat = 1) by (pose proof (Pb 3%nat ltac:(lia)); apply Rmult_eq_reg_r with (1 / b 3%nat); [rewrite B3 at 2; field; lra|lra]).
    rewrite Q0, Q3. reflexivity. }
  split; [apply Rdiv_lt_0_compat; lra|]. split; [apply Rdiv_lt_0_compat; lra|]. auto.
Qed.

(** ** runs *)
Section Indexed.
Open Scope Z_scope.
Context {A : Arith}.
Variable S : Setup A.
Hypothesis HL : Legal S.
Notation C := (s_cfg S).
Notation n := (s_n S).
Let VC := proj1 (proj2 HL).
Let VU := proj1 (proj2 (proj2 HL)).
Variable D : Data A.

(** as [betas_hist], with a property that depends on the number of iterations done *)
Lemma betas_from : forall Q : Z -> list (num A) -> Prop, Q 0 (firstn n (Beta_Values C)) ->
  forall G0 h Gf, history S D G0 h Gf ->
  (forall s b, In s h -> Q (sr_from s) b -> Q (sr_end s) b) ->
  (forall s b b', In s h -> 0 < Tune_Ladder C -> sr_end s < N_stopTuneLadder C -> List.length b = n -> Q (sr_from s) b ->
     tune_ladder (scale_tune_ladder C) (zero_stretch C) (zn n) (sr_nsw s) (sr_npr s) b = OK b' -> Q (sr_end s) b') ->
  forall G, In G (LadderRuns.states G0 h Gf) -> exists i b, List.length b = n /\ Q i b /\ ladder_is S G b.
Proof.
  intros Q Q0 G0 h Gf HH Qm Qs. pose proof (vc_n _ _ VC) as Hn.
  set (P := fun i (G : gst (A := A)) => exists b, List.length b = n /\ Q i b /\ ladder_is S G b).
  destruct (history_count S HL _ _ _ _ HH) as [_ [F [HF _]]]. rewrite Forall_forall in F.
  assert (P0 : P 0 G0).
  { exists (firstn n (Beta_Values C)). split; [|split; [exact Q0|]].
    - destruct (init_beta S HL D _ _ _ HH 0%nat ltac:(lia)) as [_ E].
      pose proof HH as [_ [[lg HI] _]]. destruct (init_view S HL _ _ _ HI) as [W _]. rewrite <- E.
      apply (wf_beta _ _ _ W). apply nth_In. rewrite (wf_locs _ _ _ W). lia.
    - intros r Hr. apply (init_beta S HL D _ _ _ HH r Hr). }
  assert (K : forall s, In s h -> P (sr_from s) (sr_in s) -> (forall G, In G (sstates s) -> exists i, P i G) /\ P (sr_end s) (sr_post s)).
  { intros s Hs [b [Lb [Hb HB]]]. destruct (stack_betas S HL D _ _ _ HH s Hs b HB) as [Kp [Kb Km]].
    destruct (F s Hs) as [H1 [H2 [H3 [_ [_ [_ [Wm [Wl [_ [_ [_ [_ [_ [_ [HLad [HT [HI _]]]]]]]]]]]]]]]]].
    assert (Pl : P (sr_end s) (sr_lad s)).
    { destruct (adapts C (sr_mid s)) eqn:Ea; [|injection HLad; intros <-; exists b; auto].
      destruct (ladder_view C n VC _ _ _ _ Wm HLad) as [_ [b' [Eb [Lb' V]]]]. exists b'. split; [exact Lb'|]. split.
      - rewrite (Km 0%nat ltac:(lia)) in Eb. unfold adapts in Ea.
        apply andb_true_iff in Ea. destruct Ea as [Ea1 Ea]. apply Z.ltb_lt in Ea. apply Z.ltb_lt in Ea1.
        change (nth 0 (g_locs (sr_mid s)) dloc) with (loc_at (sr_mid s) 0) in Ea1.
        destruct (HI 0%nat ltac:(lia)) as [_ [_ [EI _]]]. rewrite EI in Ea1. pose proof (vc_sum _ _ VC). pose proof (vc_stack _ _ VC).
        rewrite u2i_small in Ea1 by (unfold sr_end in *; lia). apply (Qs s b b'); auto; unfold sr_end in *; lia.
      - intros r Hr. apply (V r Hr). }
    assert (Pp : P (sr_end s) (sr_post s)).
    { destruct Pl as [b' [L' [Q' B']]]. exists b'. split; [exact L'|split; [exact Q'|]]. destruct (tunes C (sr_end s)).
      - destruct (tune_all_view C (s_user S) n D VC VU _ _ _ Wl HT) as [[_ [_ V]] _]. intros r Hr. destruct (V r Hr) as [_ [_ ->]]. auto.
      - injection HT; intros <-. exact B'. }
    split; [|exact Pp].
    intros G HG. unfold sstates in HG. cbn [In] in HG.
    destruct HG as [<-|[<-|HG]]; [exists (sr_from s), b; auto|exists (sr_from s), b; auto|].
    apply in_app_or in HG. destruct HG as [HG|[<-|[<-|[<-|[]]]]]; [exists (sr_from s), b; auto|exists (sr_from s), b; auto|eauto|eauto]. }
  assert (K2 : forall l i G, sfollow i G l Gf -> (forall s, In s l -> In s h) -> P i G ->
     (forall G', In G' (concat (map sstates l)) -> exists i, P i G') /\ exists i, P i Gf).
  { clear - K. induction l as [|s l IH]; intros i G HF Hin HP; cbn [sfollow] in HF.
    - subst. split; [intros G' []|eauto].
    - destruct HF as [E1 [E HF]]. destruct (K s (Hin s (or_introl eq_refl)) ltac:(rewrite E, E1; auto)) as [Ks Kp].
      destruct (IH _ _ HF) as [K1 K3].
      + intros x Hx. apply Hin. right. exact Hx.
      + unfold sr_end in Kp. rewrite E1 in Kp. exact Kp.
      + split; auto. intros G' HG. cbn [map concat] in HG. apply in_app_or in HG. destruct HG; auto. }
  destruct (K2 h 0 G0 HF (fun s H => H) P0) as [K3 K4]. intros G HG. change (exists i, P i G). unfold LadderRuns.states in HG. cbn [In] in HG.
  destruct HG as [<-|HG]; [eauto|]. apply in_app_or in HG. destruct HG as [HG|[<-|[]]]; auto.
Qed.
End Indexed.

Definition m4 (j : nat) : R := 36 / 100 * (99 / 100) ^ j.
Lemma m4_range : forall j, (j <= 60)%nat -> 196 / 1000 <= m4 j <= 36 / 100.
Proof.
  intros j Hj. assert (K : (99 / 100) ^ 60 <= (99 / 100) ^ j <= 1).
  { assert (P : forall k, 0 < (99 / 100) ^ k <= 1). { induction k as [|k IH]; cbn [pow]; [lra|]. split; [apply Rmult_lt_0_compat; lra|]. assert ((99 / 100) * (99 / 100) ^ k <= 1 * 1) by (apply Rmult_le_compat; lra). lra. }
    split; [|apply P]. replace 60%nat with (j + (60 - j))%nat by lia. rewrite pow_add. destruct (P j), (P (60 - j)%nat).
    assert ((99 / 100) ^ j * (99 / 100) ^ (60 - j) <= (99 / 100) ^ j * 1) by (apply Rmult_le_compat_l; lra). lra. }
  assert (T : 9 / 10 <= (99 / 100) ^ 10 - 4 / 1000) by (cbn [pow]; lra).
  assert (E : (99 / 100) ^ 60 = ((99 / 100) ^ 10) ^ 6) by (rewrite <- pow_mult; reflexivity).
  assert (T2 : (904 / 1000) ^ 6 <= (99 / 100) ^ 60) by (rewrite E; apply pow_incr; lra).
  assert (T3 : 545 / 1000 <= (904 / 1000) ^ 6) by (cbn [pow]; lra). unfold m4. lra.
Qed.

(** ladders of four betas with ends 1/1000 and 1, adapted at the end of at most sixty stacks *)
Lemma run_four : forall S : Setup NArith, Legal S -> forall sc zs,
  scale_tune_ladder (s_cfg S) = Some sc -> zero_stretch (s_cfg S) = Some zs -> 0 <= sc <= 9 / 10 -> 1 / 10 <= zs <= 3 / 10 ->
  s_n S = 4%nat -> inv4 (36 / 100) (firstn 4 (Beta_Values (s_cfg S))) ->
  (N_stopTuneLadder (s_cfg S) <= N_iter (s_cfg S))%Z -> (N_stopTuneLadder (s_cfg S) <= 60 * n_iter_a_stack (s_cfg S))%Z ->
  forall D G0 h Gf, history S D G0 h Gf -> forall G, In G (LadderRuns.states G0 h Gf) -> forall r, (r < 4)%nat ->
  inv4 (196 / 1000) (l_beta (loc_at G r)).
Proof.
  intros S HL sc zs Esc Ezs Hsc Hzs H4 HI HN1 HN2 D G0 h Gf HH G HG r Hr. pose proof HL as [_ [VC _]].
  pose proof (history_count S HL _ _ _ _ HH) as [_ [F _]]. rewrite Forall_forall in F.
  pose proof (vc_stack _ _ VC) as Hst.
  destruct (betas_from S HL D (fun i b => exists j, (Z.of_nat j * n_iter_a_stack (s_cfg S) <= i)%Z /\ (j <= 60)%nat /\ inv4 (m4 j) b))
    with (G0 := G0) (h := h) (Gf := Gf) (G := G) as [i [b [_ [[j [_ [Hj Q]]] HB]]]]; auto.
  - exists 0%nat. split; [lia|]. split; [lia|]. rewrite H4. unfold m4. cbn [pow]. rewrite Rmult_1_r. exact HI.
  - intros s b Hs [j [K1 K2]]. exists j. split; [|exact K2]. destruct (F s Hs) as [L0 _]. unfold sr_end in *. lia.
  - intros s b b' Hs HT He Lb [j [K1 [K2 K3]]] E. rewrite Esc, Ezs, H4 in E.
    pose proof (run_counts S HL D G0 h Gf HH HT s Hs) as HC. rewrite H4 in HC.
    destruct (adapt_four sc zs (m4 j) b (sr_nsw s) (sr_npr s) Hsc Hzs (m4_range j K2) K3 HC) as [b1 [E1 I1]].
    assert (EB : OK b1 = OK b') by (rewrite <- E1; exact E). injection EB; intros <-.
    assert (HLn : sr_len s = n_iter_a_stack (s_cfg S)).
    { destruct (F s Hs) as [_ [_ [_ [Z4 _]]]]. apply Z4. lia. }
    assert (K4 : (Z.of_nat (Datatypes.S j) * n_iter_a_stack (s_cfg S) <= sr_end s)%Z) by (unfold sr_end in *; lia).
    exists (Datatypes.S j). split; [exact K4|]. split; [nia|].
    replace (m4 (Datatypes.S j)) with (99 / 100 * m4 j) by (unfold m4; cbn [pow]; field). exact I1.
  - rewrite (HB r ltac:(lia)). destruct Q as [b1 [b2 [Eb [P1 [P2 [Hx [Hy Hxy]]]]]]]. exists b1, b2. pose proof (m4_range j Hj).
    split; [exact Eb|]. split; [exact P1|]. split; [exact P2|]. split; [lra|]. split; [lra|exact Hxy].
Qed.
