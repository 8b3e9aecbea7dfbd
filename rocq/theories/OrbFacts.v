(** The orbit likelihood over the reals. *)
From Coq Require Import ZArith Reals List Bool Lia Lra Psatz.
From Verif Require Import Base Arith UserModels UserOld Kepler.
Import ListNotations.
Open Scope R_scope.

(** ** Kepler's third law *)
Lemma Rcpow_pos : forall x y, 0 < x -> Rcpow x y = Rpower x y.
Proof. intros x y H. unfold Rcpow, Rltb. destruct (Rlt_dec 0 x); [auto|lra]. Qed.
Lemma PI11_pos : 0 < @PI11 RArith.
Proof. unfold PI11, nlit. cbn [ndiv nof RArith]. apply Rdiv_lt_0_compat; apply IZR_lt; reflexivity. Qed.
Lemma GG_pos : 0 < @GG RArith.
Proof. unfold GG, nlit. cbn [ndiv nof RArith]. apply Rdiv_lt_0_compat; apply IZR_lt; reflexivity. Qed.
Lemma MSUN_pos : 0 < @MSUN RArith.
Proof. unfold MSUN. cbn [nof RArith]. apply IZR_lt; reflexivity. Qed.
Lemma AU_pos : 0 < @AU2CM RArith.
Proof. unfold AU2CM. cbn [nof RArith]. apply IZR_lt; reflexivity. Qed.
Lemma third_law : forall P ms, 0 < P -> 0 < ms ->
  let a := @period_to_au RArith P ms * @AU2CM RArith in let T := P * 86400 in
  0 < a /\ a * a * a * ((2 * @PI11 RArith) * (2 * @PI11 RArith)) = @GG RArith * (@MSUN RArith * ms) * (T * T).
Proof.
  intros P ms HP Hms a T. pose proof PI11_pos as Hpi. pose proof GG_pos as HG. pose proof MSUN_pos as HM. pose proof AU_pos as HA.
  set (q := T / 2 / @PI11 RArith). set (b := @GG RArith * @MSUN RArith * ms).
  assert (Hb : 0 < b) by (unfold b; apply Rmult_lt_0_compat; [apply Rmult_lt_0_compat|]; auto).
  assert (Hq : 0 < q) by (unfold q, T; apply Rdiv_lt_0_compat; [lra|auto]).
  assert (Ha : a = Rpower (q * q * b) (1 / 3)).
  { unfold a, period_to_au. cbn [nmul ndiv nof npow RArith].
    replace (P * 24 * 3600 / 2 / @PI11 RArith) with q by (unfold q, T; field; lra).
    replace (Rcpow q 2) with (q * q) by (symmetry; apply Rcpow_2). fold b.
    rewrite (Rcpow_pos (q * q * b)) by (apply Rmult_lt_0_compat; [nra|auto]).
    change (Rpower (q * q * b) (1 / 3) / @AU2CM RArith * @AU2CM RArith = Rpower (q * q * b) (1 / 3)). field. lra. }
  assert (P0 : 0 < q * q * b) by (apply Rmult_lt_0_compat; [nra|auto]).
  split; [rewrite Ha; apply exp_pos|].
  assert (C : a * a * a = q * q * b).
  { rewrite Ha, <- !Rpower_plus. replace (1 / 3 + 1 / 3 + 1 / 3) with 1 by field. apply Rpower_1. auto. }
  rewrite C. unfold q, b. change (T / 2 / @PI11 RArith * (T / 2 / @PI11 RArith) * (@GG RArith * @MSUN RArith * ms) * (2 * @PI11 RArith * (2 * @PI11 RArith)) = @GG RArith * (@MSUN RArith * ms) * (T * T)). field. lra.
Qed.

(** ** the sky position *)
(** the point of the orbit at eccentric anomaly E, turned by the argument of periapsis w, inclined, turned by the node Om *)
Definition sky (osi e cosi Om w E : R) : R * R :=
  let X := cos E - e in
  let Y := sqrt (1 - e * e) * sin E in
  let P := cos w * X - sin w * Y in
  let Q := sin w * X + cos w * Y in
  (osi * (sin Om * P + cos Om * cosi * Q), osi * (cos Om * P - sin Om * cosi * Q)).
Definition DEG : R := 174532925 / 10000000000.
Lemma radec_sky : forall fuel ecc osi cosi OmegaO M0 omega per t p,
  @radec RArith fuel ecc osi cosi OmegaO M0 omega per t = OK p ->
  exists E, @newton_solver RArith fuel ((2 * @PI11 RArith) / per * t - M0 * DEG) ecc = Some E /\ p = sky osi ecc cosi (OmegaO * DEG) (omega * DEG) E.
Proof.
  intros fuel ecc osi cosi OmegaO M0 omega per t p H. unfold radec in H. cbn [nof nadd nsub nmul ndiv nsin ncos nsqrt npow nopp RArith] in H.
  change (@DEG2RAD RArith) with DEG in H.
  destruct (@newton_solver RArith fuel (2 * @PI11 RArith / per * t - M0 * DEG) ecc) as [E|]; [|discriminate H].
  injection H as <-. exists E. split; [auto|]. unfold sky. replace (Rcpow ecc 2) with (ecc * ecc) by (symmetry; apply Rcpow_2).
  f_equal; match goal with |- ?a = ?b => change (@eq R a b) end; ring.
Qed.
(** distance from the star: at most the apoastron distance, and it is the orbit radius when seen face on *)
Lemma sky_radius : forall osi e cosi Om w E, 0 <= e < 1 -> -1 <= cosi <= 1 ->
  let (ra, dec) := sky osi e cosi Om w E in ra * ra + dec * dec <= osi * osi * ((1 - e * cos E) * (1 - e * cos E)).
Proof.
  intros osi e cosi Om w E He Hc. unfold sky. cbv zeta.
  set (X := cos E - e). set (Y := sqrt (1 - e * e) * sin E). set (P := cos w * X - sin w * Y). set (Q := sin w * X + cos w * Y).
  assert (S1 : sin Om * sin Om + cos Om * cos Om = 1) by (pose proof (sin2_cos2 Om); unfold Rsqr in *; lra).
  assert (S2 : sin w * sin w + cos w * cos w = 1) by (pose proof (sin2_cos2 w); unfold Rsqr in *; lra).
  assert (S3 : sin E * sin E + cos E * cos E = 1) by (pose proof (sin2_cos2 E); unfold Rsqr in *; lra).
  assert (D1 : osi * (sin Om * P + cos Om * cosi * Q) * (osi * (sin Om * P + cos Om * cosi * Q)) +
               osi * (cos Om * P - sin Om * cosi * Q) * (osi * (cos Om * P - sin Om * cosi * Q)) = osi * osi * (P * P + cosi * cosi * (Q * Q))).
  { transitivity (osi * osi * ((P * P + cosi * cosi * (Q * Q)) * (sin Om * sin Om + cos Om * cos Om))); [ring|rewrite S1; ring]. }
  assert (D2 : P * P + Q * Q = X * X + Y * Y).
  { unfold P, Q. transitivity ((X * X + Y * Y) * (sin w * sin w + cos w * cos w)); [ring|rewrite S2; ring]. }
  assert (D3 : X * X + Y * Y = (1 - e * cos E) * (1 - e * cos E)).
  { unfold X, Y. transitivity ((cos E - e) * (cos E - e) + (sqrt (1 - e * e) * sqrt (1 - e * e)) * (sin E * sin E)); [ring|].
    rewrite sqrt_sqrt by nra. replace (sin E * sin E) with (1 - cos E * cos E) by lra. ring. }
  rewrite D1, <- D3, <- D2. apply Rmult_le_compat_l; [nra|]. assert (cosi * cosi <= 1) by nra. assert (0 <= Q * Q) by nra. nra.
Qed.
(** ** the Gaussian likelihood *)
(** density of a normal law of mean mu and standard deviation |s|, with k in the place of 2 pi *)
Definition gauss (k s mu v : R) : R := 1 / sqrt (k * (s * s)) * exp (- ((v - mu) * (v - mu)) / (2 * (s * s))).
Fixpoint prod_list {X} (f : X -> R) (l : list X) : R := match l with [] => 1 | x :: t => f x * prod_list f t end.
Lemma fold_sum_exp : forall {X} (h : X -> R) (l : list X) s, exp (fold_left (fun s x => s + h x) l s) = exp s * prod_list (fun x => exp (h x)) l.
Proof. intros X h l. induction l as [|x l IH]; intros s; cbn [fold_left prod_list]; [ring|]. rewrite IH, exp_plus. ring. Qed.
Lemma prod_list_ext : forall {X} (f g : X -> R) l, (forall x, In x l -> f x = g x) -> prod_list f l = prod_list g l.
Proof. intros X f g l H. induction l as [|x l IH]; cbn [prod_list]; [auto|]. rewrite H, IH; [auto| |left; auto]. intros y Hy. apply H. right. auto. Qed.
Lemma prod_list_map : forall {X Y} (f : Y -> R) (g : X -> Y) l, prod_list f (map g l) = prod_list (fun x => f (g x)) l.
Proof. intros. induction l as [|x l IH]; cbn [map prod_list]; [auto|]. rewrite IH. auto. Qed.
Lemma pow_mhalf : forall x, 0 < x -> exp (ln (Rpower x (- (5 / 10)))) = 1 / sqrt x.
Proof.
  intros x H. rewrite exp_ln by apply exp_pos. rewrite Rpower_Ropp. replace (5 / 10) with (/ 2) by field. rewrite Rpower_sqrt by auto. field.
  apply Rgt_not_eq. apply sqrt_lt_R0. auto.
Qed.
Definition P2 : R := 628318530716 / 100000000000.
Lemma orb_ll_gauss : forall model data (v : R), v <> 0 ->
  exp (@orb_log_likelihood RArith model data v) =
  prod_list (fun p : (R * R) * (R * R) => gauss P2 v (fst (fst p)) (fst (snd p)) * gauss P2 v (snd (fst p)) (snd (snd p))) (combine model data).
Proof.
  intros model data v Hv. unfold orb_log_likelihood. cbn [nof nadd nsub nmul ndiv nopp nlog npow RArith].
  change (@PI2_11 RArith) with P2. change (@nlit RArith 5 1) with (5 / 10).
  assert (Hs : 0 < v * v) by (apply Rsqr_pos_lt; auto). assert (HP : 0 < P2) by (unfold P2; lra).
  set (AC := 2 * ln (Rcpow P2 (- (5 / 10))) + 2 * ln (Rcpow (v * v) (- (5 / 10)))).
  assert (EAC : exp AC = 1 / sqrt (P2 * (v * v)) * (1 / sqrt (P2 * (v * v)))).
  { unfold AC. rewrite !Rcpow_pos by auto. 
    replace (2 * ln (Rpower P2 (- (5 / 10))) + 2 * ln (Rpower (v * v) (- (5 / 10)))) with
      ((ln (Rpower P2 (- (5 / 10))) + ln (Rpower (v * v) (- (5 / 10)))) + (ln (Rpower P2 (- (5 / 10))) + ln (Rpower (v * v) (- (5 / 10))))) by ring.
    rewrite !exp_plus, !pow_mhalf by auto. rewrite (sqrt_mult P2 (v * v)) by (left; auto). field. split; apply Rgt_not_eq; apply sqrt_lt_R0; auto. }
  transitivity (exp (fold_left (fun s (p : (R * R) * (R * R)) => s + (- ((fst (snd p) - fst (fst p)) * (fst (snd p) - fst (fst p))) / 2 / (v * v)
      + - ((snd (snd p) - snd (fst p)) * (snd (snd p) - snd (fst p))) / 2 / (v * v) + AC)) (combine model data) 0)).
  { f_equal. match goal with |- fold_left ?f ?l ?a = fold_left ?g ?l ?b => assert (E : forall s p, f s p = g s p) end.
    { intros s [[m1 m2] [d1 d2]]. cbn [fst snd]. change (Rcpow (d1 - m1) (IZR 2)) with (Rcpow (d1 - m1) 2). rewrite !Rcpow_2. match goal with |- ?a = ?b => change (@eq R a b) end. ring. }
    generalize (combine model data) as l. intros l. generalize 0 as s. induction l as [|p l IH]; intros s; cbn [fold_left]; [auto|]. rewrite <- IH. f_equal. rewrite <- E. reflexivity. }
  rewrite fold_sum_exp, exp_0, Rmult_1_l. apply prod_list_ext. intros [[m1 m2] [d1 d2]] _. cbn [fst snd]. unfold gauss.
  rewrite !exp_plus, EAC.
  replace (- ((d1 - m1) * (d1 - m1)) / 2 / (v * v)) with (- ((d1 - m1) * (d1 - m1)) / (2 * (v * v))) by (field; auto).
  replace (- ((d2 - m2) * (d2 - m2)) / 2 / (v * v)) with (- ((d2 - m2) * (d2 - m2)) / (2 * (v * v))) by (field; auto). ring.
Qed.

(** ** the whole likelihood *)
Lemma map_res_ok : forall {X Y} (f : X -> res Y) l, (forall x, In x l -> exists y, f x = OK y) ->
  exists r, map_res f l = OK r /\ Forall2 (fun x y => f x = OK y) l r.
Proof.
  intros X Y f l H. induction l as [|x l IH]; [exists []; split; [auto|constructor]|].
  destruct (H x (or_introl eq_refl)) as [y E]. destruct IH as [r [E2 F]]; [intros z Hz; apply H; right; auto|].
  exists (y :: r). cbn [map_res]. rewrite E. cbn [rbind]. rewrite E2. cbn [rbind]. split; [auto|constructor; auto].
Qed.
Lemma row_get_ok : forall {A} nline (data : list (num A)) d i j, length data = Z.to_nat (2 * nline) -> (0 <= i < nline)%Z -> (0 <= j < 2)%Z ->
  row_get nline data i j = OK (nth (Z.to_nat (i * 2 + j)) data d).
Proof.
  intros A nline data d i j L Hi Hj. unfold row_get.
  destruct (Z.leb_spec 0 i) as [_|K]; [|lia]. destruct (Z.ltb_spec i nline) as [_|K]; [|lia]. cbn [andb]. unfold zget.
  destruct (Z.ltb_spec (i * 2 + j) 0) as [K|_]; [lia|].
  rewrite (nth_error_nth' data d); [auto|]. rewrite L. lia.
Qed.
Lemma orb_obs_ok : forall {A} nline (data : list (num A)) d i, length data = Z.to_nat (2 * nline) -> (Z.of_nat i < Z.quot nline 2)%Z ->
  orb_obs nline data i = OK (nth (4 * i) data d, (nth (4 * i + 1) data d, nth (4 * i + 3) data d)).
Proof.
  intros A nline data d i L H. unfold orb_obs.
  assert (2 * Z.of_nat i + 1 < nline)%Z.
  { assert (0 <= nline)%Z. { destruct (Z.le_gt_cases 0 nline) as [K|K]; [auto|]. assert (Z.quot nline 2 <= 0)%Z; [|lia].
      rewrite <- (Z.opp_involutive nline), Z.quot_opp_l by lia. rewrite Z.quot_div_nonneg by lia. pose proof (Z.div_pos (- nline) 2 ltac:(lia) ltac:(lia)). lia. }
    rewrite Z.quot_div_nonneg in H by lia. pose proof (Z.mul_div_le nline 2 ltac:(lia)). lia. }
  rewrite !(row_get_ok nline data d) by (auto; lia). cbn [rbind]. repeat f_equal; lia.
Qed.
Lemma orb_times : forall {A} nline (data : list (num A)) d, length data = Z.to_nat (2 * nline) ->
  map_res (orb_obs nline data) (seq 0 (Z.to_nat (Z.quot nline 2))) =
  OK (map (fun i => (nth (4 * i) data d, (nth (4 * i + 1) data d, nth (4 * i + 3) data d))) (seq 0 (Z.to_nat (Z.quot nline 2)))).
Proof.
  intros A nline data d L.
  assert (H : forall i, In i (seq 0 (Z.to_nat (Z.quot nline 2))) -> (Z.of_nat i < Z.quot nline 2)%Z) by (intros i Hi; apply in_seq in Hi; lia).
  revert H. generalize (seq 0 (Z.to_nat (Z.quot nline 2))) as l. induction l as [|i l IH]; intros H; [auto|]. cbn [map_res map].
  rewrite (orb_obs_ok nline data d i L) by (apply H; left; auto). cbn [rbind]. rewrite IH by (intros k Hk; apply H; right; auto). reflexivity.
Qed.
Lemma solver_73 : forall e M, 0 <= e <= 73 / 100 -> exists r, solver 12 M e = Some r.
Proof.
  intros e M H. destruct (Req_dec e 0) as [->|N].
  - apply (solver_ends_0 M 10).
  - pose proof (rate_le e (73 / 100) (987 / 1000) H ltac:(lra) ltac:(lra)) as R1.
    apply (solver_ends 11 e M); [lra|lra|]. pose proof (odds_73 _ R1) as B. pose proof (odds_nonneg 11 _ (proj1 R1)).
    apply Rle_trans with (1 * (2911557 / 1250000000000000000)); [apply Rmult_le_compat; lra|lra].
Qed.
Lemma solver_half : forall e M, 0 <= e <= 1 / 2 -> exists r, solver 5 M e = Some r.
Proof.
  intros e M H. destruct (Req_dec e 0) as [->|N].
  - apply (solver_ends_0 M 3).
  - pose proof (rate_le e (1 / 2) (1 / 4) H ltac:(lra) ltac:(lra)) as R1.
    apply (solver_ends 4 e M); [lra|lra|]. pose proof (odds_half _ R1) as B. pose proof (odds_nonneg 4 _ (proj1 R1)).
    apply Rle_trans with (1 * (18626453 / 20000000000000000)); [apply Rmult_le_compat; lra|lra].
Qed.
Lemma solver_kepler : forall fuel M e E, 0 <= e < 1 -> solver fuel M e = Some E -> Rabs (E - e * sin E - M) <= e / 2 * (1 / 10 ^ 16).
Proof.
  intros fuel M e E H S. unfold newton_solver in S. rewrite tol_R in S. pose proof (loop_result fuel (1 / 100000000) M e M E H S ltac:(lra)) as K.
  unfold kep in K. eapply Rle_trans; [apply K|]. right. field.
Qed.
Lemma radec_ok : forall ecc osi cosi OmegaO M0 omega per t, 0 <= ecc <= 73 / 100 ->
  exists p, @radec RArith 12 ecc osi cosi OmegaO M0 omega per t = OK p.
Proof.
  intros ecc osi cosi OmegaO M0 omega per t H. unfold radec.
  match goal with |- context [newton_solver 12 ?m ecc] => destruct (solver_73 ecc m H) as [E HE]; rewrite HE end. eexists; reflexivity.
Qed.
Definition mean_anom (per M0 t : R) : R := 2 * @PI11 RArith / per * t - M0 * DEG.
Lemma func_as_ok : forall ts ecc osi cosi OmegaO M0 omega per, 0 <= ecc <= 73 / 100 ->
  exists E : list R, length E = length ts /\ 
    @func_as RArith 12 ts ecc osi cosi OmegaO M0 omega per = OK (map (sky osi ecc cosi (OmegaO * DEG) (omega * DEG)) E) /\
    Forall2 (fun t e => Rabs (e - ecc * sin e - mean_anom per M0 t) <= ecc / 2 * (1 / 10 ^ 16)) ts E.
Proof.
  intros ts ecc osi cosi OmegaO M0 omega per H. induction ts as [|t ts IH].
  - exists []. split; [auto|]. split; [reflexivity|constructor].
  - destruct IH as [E [L [R F]]]. destruct (radec_ok ecc osi cosi OmegaO M0 omega per t H) as [p Hp].
    destruct (radec_sky _ _ _ _ _ _ _ _ _ _ Hp) as [e [He ->]]. exists (e :: E). split; [cbn [length]; lia|]. split.
    + unfold func_as in *. cbn [map_res map]. rewrite Hp. cbn [rbind]. rewrite R. reflexivity.
    + constructor; [|auto]. apply (solver_kepler 12); [lra|]. exact He.
Qed.
Lemma combine_map_seq : forall {X Y} (f : nat -> X) (g : nat -> Y) l, combine (map f l) (map g l) = map (fun i => (f i, g i)) l.
Proof. intros. induction l as [|i l IH]; cbn [map combine]; [auto|]. rewrite IH. auto. Qed.
Lemma list_as_map : forall {X} (l : list X) d n, length l = n -> l = map (fun i => nth i l d) (seq 0 n).
Proof.
  intros X l d n <-. induction l as [|x l IH]; [auto|]. cbn [length seq map nth]. f_equal. rewrite IH at 1.
  rewrite <- seq_shift, map_map. reflexivity.
Qed.
Lemma calc_osi_R : forall m a, @calc_osi RArith m 1 a 3 = m * a.
Proof.
  intros m a. unfold calc_osi. cbn [nof nmul npow RArith]. rewrite !Rcpow_pos by lra. 
  replace (Rpower 1 (-1)) with 1 by (unfold Rpower; rewrite ln_1, Rmult_0_r, exp_0; auto).
  replace (Rpower 3 (-1)) with (/ 3) by (rewrite <- (Rpower_1 3) at 1 by lra; rewrite <- Rpower_Ropp; reflexivity).
  match goal with |- ?a = ?b => change (@eq R a b) end. field.
Qed.
Definition kepler_ok (e M E : R) : Prop := Rabs (E - e * sin E - M) <= e / 2 * (1 / 10 ^ 16).
Lemma orb_value_spec : forall (x : list R) nline (data : list R), length data = Z.to_nat (2 * nline) ->
  0 <= nth 1 x 0 <= 73 / 100 -> 0 <= nth 9 x 0 <= 73 / 100 -> nth 6 x 0 <> 0 ->
  exists (E1 E2 : nat -> R) v, @orb_value RArith 12 x nline data = OK v /\
   let n := Z.to_nat (Z.quot nline 2) in
   let t i := nth (4 * i) data 0 in
   (forall i, (i < n)%nat -> kepler_ok (nth 1 x 0) (mean_anom (nth 7 x 0) (nth 4 x 0) (t i)) (E1 i)) /\
   (forall i, (i < n)%nat -> kepler_ok (nth 9 x 0) (mean_anom (nth 14 x 0) (nth 12 x 0) (t i)) (E2 i)) /\
   let s1 i := sky (nth 5 x 0 * @period_to_au RArith (nth 7 x 0) 1) (nth 1 x 0) (nth 0 x 0) (nth 2 x 0 * DEG) (nth 3 x 0 * DEG) (E1 i) in
   let s2 i := sky (nth 13 x 0 * @period_to_au RArith (nth 14 x 0) 1) (nth 9 x 0) (nth 8 x 0) (nth 10 x 0 * DEG) (nth 11 x 0 * DEG) (E2 i) in
   exp v = prod_list (fun i => gauss P2 (nth 6 x 0) (fst (s1 i) + fst (s2 i)) (nth (4 * i + 1) data 0) *
                               gauss P2 (nth 6 x 0) (snd (s1 i) + snd (s2 i)) (nth (4 * i + 3) data 0)) (seq 0 n).
Proof.
  intros x nline data L He1 He2 Hv. unfold orb_value. rewrite (orb_times (A := RArith) nline data (0 : num RArith) L). cbn [rbind].
  set (n := Z.to_nat (Z.quot nline 2)). set (t := fun i => nth (4 * i) data 0).
  rewrite !map_map. match goal with |- context [func_as 12 ?ts] => change ts with (map t (seq 0 n)) end. unfold xi. cbn [num nof RArith]. rewrite !calc_osi_R. cbn [num RArith].
  destruct (func_as_ok (map t (seq 0 n)) (nth 1 x 0) (nth 5 x 0 * @period_to_au RArith (nth 7 x 0) 1) (nth 0 x 0) (nth 2 x 0) (nth 4 x 0) (nth 3 x 0) (nth 7 x 0) He1) as [E1 [L1 [R1 F1]]].
  destruct (func_as_ok (map t (seq 0 n)) (nth 9 x 0) (nth 13 x 0 * @period_to_au RArith (nth 14 x 0) 1) (nth 8 x 0) (nth 10 x 0) (nth 12 x 0) (nth 11 x 0) (nth 14 x 0) He2) as [E2 [L2 [R2 F2]]].
  cbn [num RArith] in R1, R2. rewrite R1. cbn [rbind]. rewrite R2. cbn [rbind].
  rewrite map_length, seq_length in L1, L2.
  assert (KF : forall ecc per M0 E, length E = n -> Forall2 (fun t0 e => Rabs (e - ecc * sin e - mean_anom per M0 t0) <= ecc / 2 * (1 / 10 ^ 16)) (map t (seq 0 n)) E ->
     forall i, (i < n)%nat -> kepler_ok ecc (mean_anom per M0 (t i)) (nth i E 0)).
  { intros ecc per M0 E LE F i Hi. unfold kepler_ok.
    assert (G : forall j (la : list R) lb, Forall2 (fun t0 e => Rabs (e - ecc * sin e - mean_anom per M0 t0) <= ecc / 2 * (1 / 10 ^ 16)) la lb -> (j < length la)%nat ->
       Rabs (nth j lb 0 - ecc * sin (nth j lb 0) - mean_anom per M0 (nth j la 0)) <= ecc / 2 * (1 / 10 ^ 16)).
    { intros j la lb FF. revert j. induction FF as [|a b la lb Hab FF IH]; intros j Hj; [cbn in Hj; lia|]. destruct j as [|j]; cbn [nth]; [auto|]. apply IH. cbn in Hj. lia. }
    specialize (G i _ _ F). rewrite map_length, seq_length in G. specialize (G Hi).
    rewrite (nth_indep (map t (seq 0 n)) 0 (t 0%nat)) in G by (rewrite map_length, seq_length; auto). rewrite map_nth, seq_nth in G by auto. exact G. }
  exists (fun i => nth i E1 0), (fun i => nth i E2 0). eexists. split; [reflexivity|]. cbv zeta.
  split; [apply KF; auto|]. split; [apply KF; auto|].
  rewrite orb_ll_gauss by auto.
  assert (AM : forall (h : R -> R * R) E, length E = n -> map h E = map (fun i => h (nth i E 0)) (seq 0 n)).
  { intros h E LE. rewrite (list_as_map E 0 n LE) at 1. rewrite map_map. reflexivity. }
  rewrite (AM _ E1 L1), (AM _ E2 L2), combine_map_seq, map_map, combine_map_seq, prod_list_map. cbn [fst snd].
  apply prod_list_ext. intros i Hi. reflexivity.
Qed.
