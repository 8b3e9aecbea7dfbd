(** Adaptations that disorder the ladder, leave the interval of its ends, or make a beta negative. *)
From Coq Require Import ZArith Reals Lra Lia List Bool Psatz.
From Verif Require Import Base Arith Mh Ladder ListAux LadderReal LadderOrder.
Import ListNotations.
Open Scope R_scope.
Local Notation N := NArith.
Local Notation num := (option R).

Definition fn (l : list R) : nat -> R := fun k => nth k l 0.
Definition of_reals (l : list R) : list num := map Some l.
Definition of_ints (l : list Z) : list num := map (fun z => Some (IZR z)) l.

Lemma vals_reals : forall l, vals (of_reals l) (fn l).
Proof.
  intros l k Hk. unfold of_reals in *. rewrite map_length in Hk. rewrite (map_nth2 Some l k 0) by auto. reflexivity.
Qed.
Lemma vals_ints : forall l, vals (of_ints l) (fun k => IZR (nth k l 0%Z)).
Proof.
  intros l k Hk. unfold of_ints in *. rewrite map_length in Hk. rewrite (map_nth2 (fun z => Some (IZR z)) l k 0%Z) by auto. reflexivity.
Qed.
Lemma counts_ints : forall m s p, length s = m -> length p = m ->
  (forall k, (k < m)%nat -> (0 <= nth k s 0 <= nth k p 0)%Z) -> counts m (of_ints s) (of_ints p).
Proof.
  intros m s p L1 L2 H. split; [unfold of_ints; rewrite map_length; auto|]. split; [unfold of_ints; rewrite map_length; auto|].
  intros k Hk. exists (nth k s 0%Z), (nth k p 0%Z). split; [apply vals_ints; unfold of_ints; rewrite map_length; lia|].
  split; [apply vals_ints; unfold of_ints; rewrite map_length; lia|auto].
Qed.

(** evaluation of an adaptation from its temperatures *)
Lemma tune_by : forall sc zs m (b : list R) (s p : list Z) a (T : nat -> R) (out : list R), (2 <= m)%nat -> length b = m ->
  (forall k, (k < m)%nat -> 0 < fn b k) -> length s = m -> length p = m ->
  (forall k, (k < m - 1)%nat -> rates_of (fun k => IZR (nth k s 0%Z)) (fun k => IZR (nth k p 0%Z)) k = a k) ->
  (forall k, (1 <= k <= m - 2)%nat -> temps sc zs m (fn b) a (m - 2) k = T k /\ T k <> 0) ->
  length out = m -> (forall k, (k < m)%nat -> fn out k = if (1 <=? k)%nat && (k <=? m - 2)%nat then 1 / T k else fn b k) ->
  tune_ladder (A := N) (Some sc) (Some zs) (Z.of_nat m) (of_ints s) (of_ints p) (of_reals b) = OK (of_reals out).
Proof.
  intros sc zs m b s p a T out Hm Lb Hb Ls Lp Ha HT Lo Ho.
  destruct (tune_ladder_val sc zs m (of_reals b) (fn b) (of_ints s) (of_ints p) _ _ a Hm
    ltac:(unfold of_reals; rewrite map_length; auto) (vals_reals b) Hb ltac:(unfold of_ints; rewrite map_length; auto) (vals_ints s)
    ltac:(unfold of_ints; rewrite map_length; auto) (vals_ints p) Ha) as [beta' [E [L V]]].
  { intros k Hk. destruct (HT k Hk) as [-> H]. exact H. }
  etransitivity; [exact E|]. f_equal. apply (nth_ext _ _ None None).
  - rewrite L. unfold of_reals. rewrite map_length. auto.
  - intros k Hk. rewrite (V k Hk). rewrite L in Hk. rewrite (vals_reals out) by (unfold of_reals; rewrite map_length; lia).
    f_equal. rewrite Ho by auto. unfold tuned. destruct ((1 <=? k)%nat && (k <=? m - 2)%nat) eqn:Ek; auto.
    apply andb_true_iff in Ek. destruct Ek as [E1 E2]. apply Nat.leb_le in E1. apply Nat.leb_le in E2.
    rewrite (proj1 (HT k ltac:(lia))). reflexivity.
Qed.

Lemma no_edge : forall sc zs m b a t i, low (a 0%nat) = false -> low (a (m - 2)%nat) = false ->
  bodyT sc zs m b a i t = upd t i (newT sc zs b a t i).
Proof. intros. unfold bodyT, edge1, edge0. rewrite H, H0. reflexivity. Qed.

Definition rat (l : list num) : nat -> num := fun k => nth k l None.
Lemma rate_val : forall s p k q, IZR (nth k p 0%Z) <> 0 -> IZR (nth k s 0%Z) / IZR (nth k p 0%Z) = q ->
  rates_of (fun k => IZR (nth k s 0%Z)) (fun k => IZR (nth k p 0%Z)) k = Some q.
Proof. intros s p k q H <-. unfold rates_of. rewrite Reqb_false by auto. reflexivity. Qed.
Lemma rate_nan : forall s p k, IZR (nth k p 0%Z) = 0 ->
  rates_of (fun k => IZR (nth k s 0%Z)) (fun k => IZR (nth k p 0%Z)) k = None.
Proof. intros s p k H. unfold rates_of. rewrite H, Reqb_refl. reflexivity. Qed.

(** ** three ranks whose ends are close *)
Lemma close_ends : tune_ladder (A := N) (Some (1 / 5)) (Some (1 / 10)) 3 (of_ints [1; 1; 0]%Z) (of_ints [2; 1; 0]%Z)
  (of_reals [200 / 201; 500 / 501; 1]) = OK (of_reals [200 / 201; 20000 / 19899; 1]).
Proof.
  apply (tune_by (1 / 5) (1 / 10) 3 _ _ _ (rat [Some (1 / 2); Some 1]) (fun _ => 19899 / 20000)); try reflexivity; try lia.
  - intros [|[|[|k]]] Hk; try lia; cbn; lra.
  - intros [|[|k]] Hk; try lia; apply rate_val; cbn; lra.
  - intros k Hk. assert (k = 1)%nat by lia. subst k. cbn [Nat.sub temps]. rewrite no_edge.
    + rewrite upd_eq. rewrite (newT_inc _ _ _ _ _ _ (1 / 2) 1) with (d := 1 / 3); try reflexivity; try lra.
      unfold incT. rewrite Reqb_false by lra. cbn [Nat.sub fn nth]. split; [|lra].
      replace (1 / (200 / 201)) with (201 / 200) by lra. replace (1 / (500 / 501)) with (501 / 500) by lra.
      rewrite Rmin_right by lra. lra.
    + cbn. apply Rltb_false. lra.
    + cbn. apply Rltb_false. lra.
  - intros [|[|[|k]]] Hk; try lia; cbn; lra.
Qed.

(** ** four ranks *)
Lemma four_plain : forall sc zs b a v1 v2, low (a 0%nat) = false -> low (a 2%nat) = false ->
  newT sc zs b a (fun k => 1 / b k) 1 = v1 -> newT sc zs b a (upd (fun k => 1 / b k) 1 v1) 2 = v2 ->
  temps sc zs 4 b a 2 1 = v1 /\ temps sc zs 4 b a 2 2 = v2.
Proof.
  intros sc zs b a v1 v2 H0 H2 E1 E2. cbn [temps]. rewrite (no_edge sc zs 4 b a _ 1) by auto. rewrite E1.
  rewrite (no_edge sc zs 4 b a _ 2) by auto. rewrite E2. split; unfold upd; reflexivity.
Qed.

Definition T4 (v1 v2 : R) : nat -> R := fun k => match k with 1%nat => v1 | _ => v2 end.

Ltac rate_case := first [apply rate_val; cbn; lra | apply rate_nan; cbn; reflexivity].

Lemma tune_four : forall sc zs b0 b1 b2 b3 s p r0 r1 r2 v1 v2 c1 c2, 0 < b0 -> 0 < b1 -> 0 < b2 -> 0 < b3 ->
  length s = 4%nat -> length p = 4%nat ->
  (forall k, (k < 3)%nat -> rates_of (fun k => IZR (nth k s 0%Z)) (fun k => IZR (nth k p 0%Z)) k = rat [r0; r1; r2] k) ->
  v1 <> 0 -> v2 <> 0 ->
  temps sc zs 4 (fn [b0; b1; b2; b3]) (rat [r0; r1; r2]) 2 1 = v1 /\
  temps sc zs 4 (fn [b0; b1; b2; b3]) (rat [r0; r1; r2]) 2 2 = v2 ->
  c1 = 1 / v1 -> c2 = 1 / v2 ->
  tune_ladder (A := N) (Some sc) (Some zs) 4 (of_ints s) (of_ints p) (of_reals [b0; b1; b2; b3]) = OK (of_reals [b0; c1; c2; b3]).
Proof.
  intros sc zs b0 b1 b2 b3 s p r0 r1 r2 v1 v2 c1 c2 H0 H1 H2 H3 Ls Lp Hr N1 N2 [E1 E2] -> ->.
  apply (tune_by sc zs 4 _ _ _ (rat [r0; r1; r2]) (T4 v1 v2)); auto; try reflexivity.
  - intros [|[|[|[|k]]]] Hk; try lia; cbn; lra.
  - intros [|[|[|k]]] Hk; try lia; cbn [T4]; auto.
  - intros [|[|[|[|k]]]] Hk; try lia; reflexivity.
Qed.
Ltac rates3 := let k := fresh "k" in let Hk := fresh "Hk" in intros [|[|[|k]]] Hk; try lia; rate_case.
Ltac lowf := cbn; try reflexivity; apply Rltb_false; lra.

(** betas 1/8, 1/4, 1/2, 1 and swap rates 1, 0, 1 *)
Lemma disorder4 : tune_ladder (A := N) (Some (1 / 5)) (Some (1 / 10)) 4 (of_ints [1; 0; 1; 0]%Z) (of_ints [1; 1; 1; 0]%Z)
  (of_reals [1 / 8; 1 / 4; 1 / 2; 1]) = OK (of_reals [1 / 8; 5 / 11; 5 / 19; 1]).
Proof.
  apply (tune_four _ _ _ _ _ _ _ _ (Some 1) (Some 0) (Some 1) (11 / 5) (19 / 5)); try reflexivity; try lra; [rates3|].
  apply four_plain; [lowf|lowf| |].
  - rewrite (newT_dec _ _ _ _ _ _ 1 0) with (d := -1); try reflexivity; try lra. unfold decT. rewrite Reqb_refl.
    cbn [Nat.add fn nth]. rewrite Rmax_left by lra. lra.
  - rewrite (newT_inc _ _ _ _ _ _ 0 1) with (d := 1); try reflexivity; try lra. unfold incT. rewrite Reqb_refl.
    cbn [Nat.sub fn nth upd Nat.eqb]. rewrite Rmin_left by lra. lra.
Qed.

(** ** five ranks: temperatures 100, 17.6, 1.2, 1.1, 1 and swap rates 1, 0, 0, 1 *)
Lemma above_one : tune_ladder (A := N) (Some (1 / 5)) (Some (1 / 10)) 5 (of_ints [1; 0; 0; 1; 0]%Z) (of_ints [1; 1; 1; 1; 0]%Z)
  (of_reals [1 / 100; 5 / 88; 5 / 6; 10 / 11; 1]) = OK (of_reals [1 / 100; 25 / 71; 100 / 71; 250 / 297; 1]).
Proof.
  set (bl := [1 / 100; 5 / 88; 5 / 6; 10 / 11; 1]). set (al := rat [Some 1; Some 0; Some 0; Some 1]).
  set (T := fun k => match k with 1%nat => 71 / 25 | 2%nat => 71 / 100 | _ => 297 / 250 end).
  apply (tune_by (1 / 5) (1 / 10) 5 _ _ _ al T); try reflexivity; try lia.
  - intros [|[|[|[|[|k]]]]] Hk; try lia; cbn; lra.
  - intros [|[|[|[|k]]]] Hk; try lia; rate_case.
  - set (t0 := fun k => 1 / fn bl k).
    assert (E1 : newT (1 / 5) (1 / 10) (fn bl) al t0 1 = 71 / 25).
    { rewrite (newT_dec _ _ _ _ _ _ 1 0) with (d := -1); try reflexivity; try lra. unfold decT. rewrite Reqb_refl.
      unfold t0. cbn [Nat.add fn bl nth]. rewrite Rmax_left by lra. lra. }
    assert (E2 : newT (1 / 5) (1 / 10) (fn bl) al (upd t0 1 (71 / 25)) 2 = 71 / 100).
    { rewrite (newT_zero _ _ _ _ _ _ 0 0); try reflexivity; try lra. unfold geomT. cbn [Nat.sub Nat.add].
      rewrite upd_eq. rewrite (half_sq _ 4) by (cbn [fn bl nth]; lra). lra. }
    assert (E3 : newT (1 / 5) (1 / 10) (fn bl) al (upd (upd t0 1 (71 / 25)) 2 (71 / 100)) 3 = 297 / 250).
    { rewrite (newT_inc _ _ _ _ _ _ 0 1) with (d := 1); try reflexivity; try lra. unfold incT. rewrite Reqb_refl.
      rewrite !upd_ne by lia. unfold t0. cbn [Nat.sub fn bl nth]. rewrite Rmin_right by lra. lra. }
    assert (L0 : low (al 0%nat) = false) by lowf. assert (L3 : low (al (5 - 2)%nat) = false) by lowf.
    intros k Hk. cbn [Nat.sub] in *. cbn [temps]. fold t0. rewrite (no_edge _ _ 5 _ _ _ 1 L0 L3), E1, (no_edge _ _ 5 _ _ _ 2 L0 L3), E2,
      (no_edge _ _ 5 _ _ _ 3 L0 L3), E3.
    destruct k as [|[|[|[|k]]]]; try lia; unfold upd; cbn [Nat.eqb T]; (split; [reflexivity|lra]).
  - intros [|[|[|[|[|k]]]]] Hk; try lia; cbn; lra.
Qed.

(** ** four ranks: from an ordered ladder to a negative beta in four adaptations *)
Definition tiny : R := / 10000000.

(** temperatures 25000, 22500, 25/24, 1; swap rates 1, 10^-7, none proposed *)
Lemma neg_step1 : tune_ladder (A := N) (Some 1) (Some (1 / 10)) 4 (of_ints [1; 1; 0; 0]%Z) (of_ints [1; 10000000; 0; 0]%Z)
  (of_reals [1 / 25000; 1 / 22500; 24 / 25; 1]) = OK (of_reals [1 / 25000; 96 / 101; 14400 / 101; 1]).
Proof.
  apply (tune_four _ _ _ _ _ _ _ _ (Some 1) (Some tiny) None (101 / 96) (101 / 14400)); try reflexivity; try lra.
  { intros [|[|[|k]]] Hk; try lia; [apply rate_val; cbn; unfold tiny; lra|apply rate_val; cbn; unfold tiny; lra|apply rate_nan; reflexivity]. }
  apply four_plain; [lowf|reflexivity| |].
  - rewrite (newT_dec _ _ _ _ _ _ 1 tiny) with (d := -9999999 / 10000001); try reflexivity; try (unfold tiny; lra).
    unfold decT. rewrite Reqb_false by lra. cbn [Nat.add fn nth]. rewrite Rmax_right by lra. lra.
  - rewrite newT_nan by (left; reflexivity). unfold geomT. cbn [Nat.sub Nat.add]. rewrite upd_eq.
    rewrite (half_sq _ 150) by (cbn [fn nth]; lra). lra.
Qed.

(** temperatures 25000, 101/96, 101/14400, 1; swap rates 1, 10^-7, 1 *)
Lemma neg_step2 : tune_ladder (A := N) (Some 1) (Some (1 / 10)) 4 (of_ints [1; 1; 1; 0]%Z) (of_ints [1; 10000000; 1; 0]%Z)
  (of_reals [1 / 25000; 96 / 101; 14400 / 101; 1]) = OK (of_reals [1 / 25000; 1440000 / 10201; 3200 / 3333; 1]).
Proof.
  apply (tune_four _ _ _ _ _ _ _ _ (Some 1) (Some tiny) (Some 1) (10201 / 1440000) (3333 / 3200)); try reflexivity; try lra.
  { intros [|[|[|k]]] Hk; try lia; apply rate_val; cbn; unfold tiny; lra. }
  apply four_plain; [lowf|lowf| |].
  - rewrite (newT_dec _ _ _ _ _ _ 1 tiny) with (d := -9999999 / 10000001); try reflexivity; try (unfold tiny; lra).
    unfold decT. rewrite Reqb_false by lra. cbn [Nat.add fn nth]. rewrite Rmax_right by lra. lra.
  - rewrite (newT_inc _ _ _ _ _ _ tiny 1) with (d := 9999999 / 10000001); try reflexivity; try (unfold tiny; lra).
    unfold incT. rewrite Reqb_false by lra. rewrite upd_ne by lia. cbn [Nat.sub fn nth]. rewrite Rmin_right by lra. lra.
Qed.

(** temperatures 25000, (101/1200)^2, 3333/3200, 1; swap rates 1/100, 1, none proposed *)
Lemma neg_step3 : tune_ladder (A := N) (Some 1) (Some (1 / 10)) 4 (of_ints [1; 1; 0; 0]%Z) (of_ints [100; 1; 0; 0]%Z)
  (of_reals [1 / 25000; 1440000 / 10201; 3200 / 3333; 1]) =
  OK (of_reals [1 / 25000; 72720000 / 1782000010201; 6120600 / 1782000010201; 1]).
Proof.
  apply (tune_four _ _ _ _ _ _ _ _ (Some (1 / 100)) (Some 1) None (1782000010201 / 72720000) (1782000010201 / 6120600)); try reflexivity; try lra; [rates3|].
  apply four_plain; [lowf|reflexivity| |].
  - rewrite (newT_inc _ _ _ _ _ _ (1 / 100) 1) with (d := 99 / 101); try reflexivity; try lra.
    unfold incT. rewrite Reqb_false by lra. cbn [Nat.sub fn nth]. rewrite Rmin_left by lra. lra.
  - rewrite newT_nan by (left; reflexivity). unfold geomT. cbn [Nat.sub Nat.add]. rewrite upd_eq.
    rewrite (half_sq _ (101 / 1200)) by (cbn [fn nth]; lra). lra.
Qed.

Lemma four_edges : forall sc zs b a v1 v2 w1 w2, low (a 0%nat) = true -> low (a 2%nat) = true ->
  let t := fun k => 1 / b k in
  v1 = t 0%nat - (t 0%nat - t 2%nat) * zs -> v2 = v1 - (v1 - t 3%nat) * (1 - zs) ->
  (forall g, g 1%nat = v1 -> g 2%nat = v2 -> newT sc zs b a g 2 = w2) -> w1 = t 0%nat - (t 0%nat - w2) * zs ->
  temps sc zs 4 b a 2 1 = w1 /\ temps sc zs 4 b a 2 2 = w1 - (w1 - t 3%nat) * (1 - zs).
Proof.
  intros sc zs b a v1 v2 w1 w2 H0 H2 t E1 E2 EN Ew. cbn [temps]. fold t.
  set (g := bodyT sc zs 4 b a 1 t).
  assert (G : g 0%nat = t 0%nat /\ g 1%nat = v1 /\ g 2%nat = v2 /\ g 3%nat = t 3%nat).
  { unfold g, bodyT, edge1, edge0. cbn [Nat.sub]. rewrite H0, H2. unfold upd. cbn [Nat.eqb]. rewrite <- E1, E2. auto. }
  destruct G as [G0 [G1 [G2 G3]]]. unfold bodyT. rewrite (EN g G1 G2). unfold edge1, edge0. cbn [Nat.sub].
  rewrite H0, H2. unfold upd. cbn [Nat.eqb]. rewrite G0, G3, <- Ew. auto.
Qed.

(** swap rates 0, 0, 1/200 *)
Lemma neg_step4 : tune_ladder (A := N) (Some 1) (Some (1 / 10)) 4 (of_ints [0; 0; 1; 0]%Z) (of_ints [1; 1; 200; 0]%Z)
  (of_reals [1 / 25000; 72720000 / 1782000010201; 6120600 / 1782000010201; 1]) =
  OK (of_reals [1 / 25000; - (244824000000 / 240326599064657); - (2448240000000 / 238123183064657); 1]).
Proof.
  set (t1 := 1782000010201 / 72720000). set (t2 := 1782000010201 / 6120600).
  set (v1 := 25000 - (25000 - t2) * (1 / 10)). set (v2 := v1 - (v1 - 1) * (9 / 10)).
  set (w2 := v2 + (t1 - t2) * (9 / 10)). 
  apply (tune_four _ _ _ _ _ _ _ _ (Some 0) (Some 0) (Some (1 / 200)) (- (240326599064657 / 244824000000)) (- (238123183064657 / 2448240000000)));
    try reflexivity; try lra; [rates3| |field|field].
  destruct (four_edges 1 (1 / 10) (fn [1 / 25000; 72720000 / 1782000010201; 6120600 / 1782000010201; 1])
    (rat [Some 0; Some 0; Some (1 / 200)]) v1 v2 (25000 - (25000 - w2) * (1 / 10)) w2) as [K1 K2].
  - cbn. apply Rltb_true. lra.
  - cbn. apply Rltb_true. lra.
  - cbn [fn nth]. unfold v1, t2. lra.
  - cbn [fn nth]. unfold v2. lra.
  - intros g G1 G2. rewrite (newT_inc _ _ _ _ _ _ 0 (1 / 200)) with (d := 1); try reflexivity; try lra.
    unfold incT. rewrite Reqb_refl. cbn [Nat.sub fn nth]. rewrite G2. unfold w2, v2, v1, t1, t2. rewrite Rmin_left by lra. lra.
  - cbn [fn nth]. lra.
  - rewrite K1, K2. cbn [fn nth]. unfold w2, v2, v1, t1, t2. split; lra.
Qed.
