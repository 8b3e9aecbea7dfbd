(** C70: which width the tuning changes. *)
From Coq Require Import ZArith List Bool Reals Lia Lra.
From Verif Require Import Base Arith Rand Mh Ladder Tune Mpi Prog Seq ListAux TuneOpt SwapReal RandRange PropTune.
Import ListNotations.
Open Scope R_scope.

Fixpoint sum (l : list R) : R := match l with [] => 0 | v :: t => v + sum t end.
Definition mean (l : list R) : R := sum l / INR (length l).
(** the standard deviation, by the mean of the squares *)
Definition spread (l : list R) : R := sqrt (mean (map (fun v => v * v) l) - mean l * mean l).

Lemma fold_zget : forall (T U : Type) (f : U -> T -> U) (l pre : list T) (s : U),
  for_from (length l) (Z.of_nat (length pre)) (fun j s => let* v := zget (pre ++ l) j in OK (f s v)) s = OK (fold_left f l s).
Proof.
  intros T U f. induction l as [|v l IH]; intros pre s; [reflexivity|]. cbn [length for_from].
  rewrite (zget_nth (pre ++ v :: l) (length pre) v) by (rewrite nth_error_app2, Nat.sub_diag by lia; auto). cbn [rbind fold_left].
  specialize (IH (pre ++ [v]) (f s v)). rewrite app_length in IH. cbn [length] in IH. rewrite <- app_assoc in IH. cbn [app] in IH.
  replace (Z.of_nat (length pre) + 1)%Z with (Z.of_nat (length pre + 1)) by lia. exact IH.
Qed.
Lemma fold_sum : forall (h : R -> R) (l : list R) s, fold_left (fun s v => s + h v) l s = s + sum (map h l).
Proof. induction l as [|v l IH]; intros s; cbn [fold_left map sum]; [ring|]. rewrite IH. ring. Qed.
Lemma sum_dev : forall (m : R) (l : list R), sum (map (fun v => (v - m) * (v - m)) l) = sum (map (fun v => v * v) l) - 2 * m * sum l + INR (length l) * (m * m).
Proof. induction l as [|v l IH]; [cbn; ring|]. cbn [map sum length]. rewrite IH, S_INR. ring. Qed.

Definition sdrow (n : Z) (r : list R) : R :=
  sqrt (fold_left (fun s v => s + Rcpow (v - fold_left (fun s v => s + v) r 0 / IZR n) 2) r 0 / IZR n).
Lemma sdrow_spread : forall n r, Z.of_nat (length r) = n -> (1 <= n)%Z -> sdrow n r = spread r.
Proof.
  intros n r H Hn. unfold sdrow, spread. f_equal. assert (EN : IZR n = INR (length r)) by (rewrite <- H; symmetry; apply INR_IZR_INZ).
  assert (E1 : fold_left (fun s v => s + v) r 0 = sum r) by (rewrite (fold_sum (fun v => v)), map_id; ring). rewrite E1.
  rewrite (fold_sum (fun v => Rcpow (v - sum r / IZR n) 2)).
  assert (E2 : map (fun v => Rcpow (v - sum r / IZR n) 2) r = map (fun v => (v - sum r / IZR n) * (v - sum r / IZR n)) r) by (apply map_ext; intros; apply Rcpow_2).
  rewrite E2, sum_dev. unfold mean. rewrite map_length, EN. assert (P : INR (length r) <> 0) by (apply not_0_INR; lia). field. exact P.
Qed.

Definition sdA {A : Arith} (n : Z) (r : list (num A)) : num A :=
  nsqrt (ndiv (fold_left (fun s v => nadd s (npow (nsub v (ndiv (fold_left nadd r (nof 0)) (nof n))) (nof 2))) r (nof 0)) (nof n)).
Lemma calc_SD_A : forall A (C : Cfg A) n ar, (1 <= n)%Z -> Z.of_nat (length ar) = N_parm C -> (forall r, In r ar -> Z.of_nat (length r) = n) ->
  calc_SD_allParm C n ar = OK (map (sdA n) ar).
Proof.
  intros A C n ar Hn La Lr. unfold calc_SD_allParm. replace (Z.to_nat (N_parm C)) with (length ar) by lia.
  assert (G : forall l pre out, ar = pre ++ l -> 
    for_from (length l) (Z.of_nat (length pre)) (fun i out =>
       let* r := zget ar i in
       let* sum := for_from (Z.to_nat n) 0 (fun j s => let* v := zget r j in OK (nadd s v)) (nof 0) in
       let mean := ndiv sum (nof n) in
       let* var := for_from (Z.to_nat n) 0 (fun j s => let* v := zget r j in OK (nadd s (npow (nsub v mean) (nof 2)))) (nof 0) in
       OK (out ++ [nsqrt (ndiv var (nof n))])) out = OK (out ++ map (sdA n) l)).
  { induction l as [|r l IH]; intros pre out E; [cbn; rewrite app_nil_r; reflexivity|]. cbn [length for_from].
    rewrite (zget_nth ar (length pre) r) by (rewrite E, nth_error_app2, Nat.sub_diag by lia; auto). cbn [rbind].
    assert (L : Z.of_nat (length r) = n) by (apply Lr; rewrite E; apply in_or_app; right; left; auto).
    replace (Z.to_nat n) with (length r) in * by lia.
    pose proof (fold_zget _ _ (fun s v : num A => nadd s v) r [] (nof 0)) as K1. cbn [app length Z.of_nat] in K1. rewrite K1. cbn [rbind]. cbv zeta.
    pose proof (fold_zget _ _ (fun s v : num A => nadd s (npow (nsub v (ndiv (fold_left (fun s v : num A => nadd s v) r (nof 0)) (nof n))) (nof 2))) r [] (nof 0)) as K2. cbn [app length Z.of_nat] in K2.
    rewrite K2. cbn [rbind].
    specialize (IH (pre ++ [r]) (out ++ [sdA n r])). rewrite app_length in IH. cbn [length] in IH. rewrite <- !app_assoc in IH. specialize (IH E). cbn [app] in IH.
    replace (Z.of_nat (length pre) + 1)%Z with (Z.of_nat (length pre + 1)) by lia. cbn [map]. exact IH. }
  exact (G ar [] [] eq_refl).
Qed.
Lemma calc_SD_eq : forall (C : Cfg RArith) n ar, (1 <= n)%Z -> Z.of_nat (length ar) = N_parm C -> (forall r, In r ar -> Z.of_nat (length r) = n) ->
  calc_SD_allParm C n ar = OK (map spread ar).
Proof.
  intros C n ar Hn La Lr. rewrite calc_SD_A by auto. f_equal. apply map_ext_in. intros r Hr. exact (sdrow_spread n r (Lr r Hr) Hn).
Qed.

(** ** The theorems *)
(** Exact reals.  The number that stands for a parameter is the standard deviation of its trial rates; it is zero exactly if they agree. *)
Theorem C70_spread : forall (C : Cfg RArith) n (ar : list (list R)), (1 <= n)%Z -> Z.of_nat (length ar) = N_parm C ->
  (forall r, In r ar -> Z.of_nat (length r) = n) ->
  calc_SD_allParm C n ar = OK (map (fun r => sqrt (mean (map (fun v => v * v) r) - mean r * mean r)) ar) /\
  forall r, In r ar -> 0 <= mean (map (fun v => v * v) r) - mean r * mean r /\
    (sqrt (mean (map (fun v => v * v) r) - mean r * mean r) = 0 <-> forall v, In v r -> v = mean r).
Proof.
  intros C n ar Hn La Lr. split; [exact (calc_SD_eq C n ar Hn La Lr)|]. intros r Hr. pose proof (Lr r Hr) as L.
  assert (P : 0 < INR (length r)) by (apply lt_0_INR; lia).
  assert (E : mean (map (fun v => v * v) r) - mean r * mean r = sum (map (fun v => (v - mean r) * (v - mean r)) r) / INR (length r)).
  { rewrite sum_dev. unfold mean. rewrite map_length. field. lra. }
  assert (NN : forall l m, 0 <= sum (map (fun v => (v - m) * (v - m)) l)).
  { induction l as [|v l IH]; intros m; cbn [map sum]; [lra|]. pose proof (IH m). pose proof (Rle_0_sqr (v - m)). unfold Rsqr in *. lra. }
  assert (ZZ : forall l m, sum (map (fun v => (v - m) * (v - m)) l) = 0 <-> forall v, In v l -> v = m).
  { induction l as [|v l IH]; intros m; cbn [map sum].
    - split; [intros _ v []|auto].
    - pose proof (NN l m). pose proof (Rle_0_sqr (v - m)) as Q. unfold Rsqr in Q. split.
      + intros S0. assert (V : (v - m) * (v - m) = 0) by lra. assert (S1 : sum (map (fun v => (v - m) * (v - m)) l) = 0) by lra.
        intros w [<-|Hw]; [apply Rmult_integral in V; lra|apply (proj1 (IH m) S1); auto].
      + intros K. rewrite (K v (or_introl eq_refl)) at 1 2. rewrite (proj2 (IH m)); [ring|]. intros w Hw. apply K. right; auto. }
  rewrite E. split; [apply Rmult_le_pos; [apply NN|left; apply Rinv_0_lt_compat; auto]|]. split.
  - intros S0. apply sqrt_eq_0 in S0; [|apply Rmult_le_pos; [apply NN|left; apply Rinv_0_lt_compat; auto]].
    apply ZZ. apply Rmult_integral in S0. destruct S0 as [S0|S0]; auto. pose proof (Rinv_0_lt_compat _ P). lra.
  - intros K. apply ZZ in K. rewrite K. unfold Rdiv. rewrite Rmult_0_l. apply sqrt_0.
Qed.
Print Assumptions C70_spread.

(** The decision.  p1 is the (first) parameter with the largest spread, j1 its candidate closest to ar_best; (p2, j2) is the pair closest
    to ar_best of all.  If p1 has a candidate within ar_accept_diff, a coin decides between the two; else the closest pair is taken if it is
    within ar_accept_diff; else a coin decides between racing all parameters and the initial widths.  A coin is drawn exactly in the first
    and in the last case. *)
Theorem C70_choice : forall (C : Cfg RArith) n (ar : list (list R)) g, (1 <= n)%Z -> (1 <= N_parm C)%Z -> Z.of_nat (length ar) = N_parm C ->
  (forall r, In r ar -> Z.of_nat (length r) = n) ->
  let e i j := Rabs (nth (Z.to_nat j) (nth (Z.to_nat i) ar []) 0 - ar_best C) in
  let s i := spread (nth (Z.to_nat i) ar []) in
  exists p1 j1 p2 j2,
    ((0 <= p1 < N_parm C)%Z /\ (forall k, (0 <= k < N_parm C)%Z -> s k <= s p1) /\ (forall k, (0 <= k < p1)%Z -> s k < s p1)) /\
    ((0 <= j1 < n)%Z /\ (forall k, (0 <= k < n)%Z -> e p1 j1 <= e p1 k) /\ (forall k, (0 <= k < j1)%Z -> e p1 j1 < e p1 k)) /\
    ((0 <= p2 < N_parm C)%Z /\ (0 <= j2 < n)%Z /\ (forall a b, (0 <= a < N_parm C)%Z -> (0 <= b < n)%Z -> e p2 j2 <= e a b) /\
     (forall a b, (0 <= a < N_parm C)%Z -> (0 <= b < n)%Z -> (a < p2 \/ (a = p2 /\ b < j2))%Z -> e p2 j2 < e a b)) /\
    decide_sigma_to_change C n ar g = OK
      (if Rlt_dec (e p1 j1) (ar_accept_diff C) then if Rlt_dec (1 / 2) (unif g) then (p1, j1, lcg g) else (p2, j2, lcg g)
       else if Rlt_dec (e p2 j2) (ar_accept_diff C) then (p2, j2, g)
       else if Rlt_dec (1 / 2) (unif g) then (-1, 0, lcg g)%Z else (-1, -1, lcg g)%Z).
Proof.
  intros C n ar g Hn Hp La Lr e s. destruct C34_numbers as [_ [CR _]].
  assert (NE : map spread ar <> []) by (destruct ar; [cbn in La; lia|discriminate]).
  destruct (C36_argmax RArith (fun _ => True) CR (map spread ar) 0 NE) as [p1 [A1 [A2 [A3 A4]]]]; [apply List.Forall_forall; auto|].
  rewrite map_length, La in A1, A2, A3.
  destruct (C36_closest RArith (fun _ => True) CR C n ar Hn Hp La Lr (fun _ _ _ _ => I)) as [B1 [p2 [j2 [D1 [D2 [D3 [D4 D5]]]]]]].
  destruct (B1 p1 A2) as [j1 [E1 [E2 [E3 E4]]]]. clear B1.
  assert (NL : forall a b : R, nltb (a := RArith) a b = false -> b <= a).
  { intros a b K. change (Rltb a b = false) in K. unfold Rltb in K. destruct (Rlt_dec a b); [discriminate|lra]. }
  assert (NT : forall a b : R, nltb (a := RArith) a b = true -> a < b).
  { intros a b K. change (Rltb a b = true) in K. unfold Rltb in K. destruct (Rlt_dec a b); [auto|discriminate]. }
  assert (SP : forall k, (0 <= k < N_parm C)%Z -> nth (Z.to_nat k) (map spread ar) 0 = s k).
  { intros k Hk. unfold s. rewrite (nth_indep _ 0 (spread [])) by (rewrite map_length; lia). apply map_nth. }
  exists p1, j1, p2, j2. split; [|split; [|split]].
  - split; [auto|]. split.
    + intros k Hk. rewrite <- !SP by auto. apply NL. apply A3; auto.
    + intros k Hk. rewrite <- !SP by lia. apply NT. apply A4; auto.
  - split; [auto|]. split; [intros k Hk; apply NL; apply E3; auto|intros k Hk; apply NT; apply E4; auto].
  - split; [auto|]. split; [auto|]. split; [intros a b Ha Hb; apply NL; apply D4; auto|intros a b Ha Hb Hab; apply NT; apply D5; auto].
  - unfold decide_sigma_to_change. rewrite (calc_SD_eq C n ar Hn La Lr). cbn [rbind].
    match goal with |- context [@argmax ?B ?x ?y] => replace (@argmax B x y) with (@OK Z p1) by (symmetry; exact A1) end. cbn [rbind].
    rewrite E1. cbn [rbind]. rewrite D1. cbn [rbind].
    assert (LE : e p2 j2 <= e p1 j1) by (apply NL; apply D4; auto).
    assert (ED : drand48 (A := RArith) g = (unif g, lcg g)) by (rewrite (surjective_pairing (drand48 (A := RArith) g)), drand48_R; reflexivity).
    rewrite ED. clear ED.
    match goal with |- context [@nltb ?B (nabs ?x) ?y] => change (@nltb B (nabs x) y) with (Rltb (e p1 j1) (ar_accept_diff C)) end.
    repeat match goal with |- context [@nltb ?B (nabs ?x) ?y] => change (@nltb B (nabs x) y) with (Rltb (e p2 j2) (ar_accept_diff C)) end.
    repeat match goal with |- context [@nltb ?B ?x ?y] => change (@nltb B x y) with (Rltb (5 / 10) (unif g)) end.
    unfold Rltb. destruct (Rlt_dec (e p1 j1) (ar_accept_diff C)); destruct (Rlt_dec (e p2 j2) (ar_accept_diff C)); try lra;
      destruct (Rlt_dec (5 / 10) (unif g)); destruct (Rlt_dec (1 / 2) (unif g)); try lra; reflexivity.
Qed.
Print Assumptions C70_choice.

(** a case: two parameters, two ranks; the second has the larger spread, the first the closer candidate *)
Example C70_case : exists C : Cfg RArith, N_parm C = 2%Z /\ ar_best C = 23 / 100 /\ (forall r, In r [[24 / 100; 30 / 100]; [1 / 10; 1 / 2]] -> Z.of_nat (length r) = 2%Z) /\
  spread [24 / 100; 30 / 100] < spread [1 / 10; 1 / 2].
Proof.
  exists (mkCfgP RArith 2 400000 5000 20 5 1 0 0 400000 1000 1 300000 100000 20 2 1 (23 / 100) (1 / 10) 20 300 (1 / 5) (1 / 10) [nlit 1 3; nlit 1 2]).
  split; [reflexivity|]. split; [reflexivity|]. split; [intros r [<-|[<-|[]]]; reflexivity|].
  unfold spread. apply sqrt_lt_1_alt. unfold mean. cbn. lra.
Qed.
