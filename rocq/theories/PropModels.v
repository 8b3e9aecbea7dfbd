(** Properties C51-C53 and C56-C63: the shipped models. *)
From Coq Require Import ZArith List Bool Lia Reals Lra Psatz.
From Coquelicot Require Import Coquelicot.
From Flocq Require Import Core IEEE754.BinarySingleNaN.
From Verif Require Import Base Arith B64 B64Facts Rand RandRange Mh UserModels UserOld PriorInt Kepler OrbFacts HierFacts.
Import ListNotations.
Open Scope R_scope.

(** ** C51: tempering *)

Lemma bmult_one : forall x : b64, Bmult mode_NE x (bof 1) = x.
Proof.
  intros x. destruct (bof_ok 1) as [V F]; [lia|].
  destruct x as [s|s| |s m e He]; try (destruct s; reflexivity); [reflexivity|].
  set (x := B754_finite s m e He). assert (Fx : is_finite x = true) by reflexivity.
  pose proof (Bmult_correct prec emax _ _ mode_NE x (bof 1)) as C. rewrite V, Rmult_1_r in C.
  change (round radix2 (SpecFloat.fexp prec emax) (round_mode mode_NE) (B2R x)) with (rnd (B2R x)) in C. rewrite (rnd_id (B2R x)) in C by apply fmt_B2R.
  rewrite Rlt_bool_true in C by apply abs_B2R_lt_emax. destruct C as [C1 [C2 C3]].
  apply B2R_Bsign_inj; [rewrite C2, Fx, F; reflexivity|auto|auto|].
  rewrite C3; [|destruct (Bmult mode_NE x (bof 1)); try discriminate; auto; rewrite C2, Fx, F in *; discriminate].
  rewrite (bof_sign 1) by lia. apply xorb_false_r.
Qed.
(** the shipped models of the present interface, for any ranges and scales *)
Inductive shipped_user {A : Arith} : User A -> Prop :=
| ship_reg : forall nd ra rb rd gp s1 s2, shipped_user (reg_user nd ra rb rd gp s1 s2)
| ship_ras : forall ra rb rc rd rf gp s1 s2, shipped_user (ras_user ra rb rc rd rf gp s1 s2)
| ship_egg : forall ra rb gp s1 s2, shipped_user (egg_user ra rb gp s1 s2)
| ship_curved : forall ra rb gp s1 s2, shipped_user (curved_user ra rb gp s1 s2)
| ship_multi : forall ra rb gp s1 s2, shipped_user (multi_user ra rb gp s1 s2).

Theorem C51_linear : forall L (U : User (B64 L)) x nline data beta, shipped_user U ->
  u_logll U x nline data beta = Bmult mode_NE (u_logll U x nline data (bof 1)) beta.
Proof.
  intros L U x nline data beta H. destruct H; cbn [u_logll reg_user ras_user egg_user curved_user multi_user val_user]; unfold reg_logll, ras_logll, val_logll;
    cbn [nmul B64]; rewrite bmult_one; reflexivity.
Qed.
Theorem C51_linear_real : forall (U : User RArith) x nline data beta, shipped_user U ->
  u_logll U x nline data beta = u_logll U x nline data 1 * beta.
Proof.
  intros U x nline data beta H. destruct H; cbn [u_logll reg_user ras_user egg_user curved_user multi_user val_user]; unfold reg_logll, ras_logll, val_logll;
    cbn [nmul RArith]; rewrite Rmult_1_r; reflexivity.
Qed.
(** the two models of the old interface *)
Theorem C51_old : forall L x nline data beta fuel,
  @orb_logll (B64 L) fuel x nline data beta = rbind (@orb_logll (B64 L) fuel x nline data (bof 1)) (fun v => OK (Bmult mode_NE v beta)) /\
  @hier_logll (B64 L) x nline data beta = rbind (@hier_logll (B64 L) x nline data (bof 1)) (fun v => OK (Bmult mode_NE v beta)).
Proof.
  intros L x nline data beta fuel. unfold orb_logll, hier_logll. split.
  - destruct (orb_value fuel x nline data); cbn [rbind nmul B64]; [rewrite bmult_one|]; reflexivity.
  - destruct (hier_value x nline data); cbn [rbind nmul B64]; [rewrite bmult_one|]; reflexivity.
Qed.
(** with beta = 0 a finite log-likelihood disappears, any other makes the tempered value NaN *)
Theorem C51_zero : forall L (U : User (B64 L)) x nline data, shipped_user U ->
  let v := u_logll U x nline data (bof 1) in let t := u_logll U x nline data (bof 0) in
  (is_finite v = true -> is_finite t = true /\ B2R t = 0) /\ (is_finite v = false -> is_nan t = true).
Proof.
  intros L U x nline data H v t. assert (E : t = Bmult mode_NE v (bof 0)) by (apply (C51_linear L U x nline data (bof 0) H)).
  destruct v as [s|s| |s m e B]; rewrite E; split; intros K; try discriminate K; try split; try reflexivity; destruct s; reflexivity.
Qed.
Print Assumptions C51_linear.
Print Assumptions C51_zero.
Example C51_case : forall L, exists (U : User (B64 L)) x data, shipped_user U /\ length x = 3%nat /\ length data = 4%nat /\
  u_logll U x 2 data (bof 0) = Bmult mode_NE (u_logll U x 2 data (bof 1)) (bof 0).
Proof.
  intros L. exists (@reg_user (B64 L) 2 (bof (-20), bof 20) (bof (-50), bof 50) (bof 1, bof 30) (bof 1) (bof 1) (bof 1)), [bof 1; bof 2; bof 3], [bof 1; bof 2; bof 3; bof 4].
  split; [constructor|]. split; [reflexivity|]. split; [reflexivity|]. apply C51_linear. constructor.
Qed.

(** ** C52: the priors *)

Theorem C52_regression : forall nd (ra rb rd : R * R) gp s1 s2, fst ra < snd ra -> fst rb < snd rb -> 0 < fst rd < snd rd ->
  box_int [ra; rb; rd] (fun x => exp (u_logprior (@reg_user RArith nd ra rb rd gp s1 s2) x)) 1.
Proof. intros. apply reg_prior_one; auto. Qed.
Theorem C52_rastrigin : forall (ra rb rc rd rf : R * R) gp s1 s2, ordered [ra; rb; rc; rd; rf] ->
  box_int [ra; rb; rc; rd; rf] (fun x => exp (u_logprior (@ras_user RArith ra rb rc rd rf gp s1 s2) x)) 1.
Proof. intros. apply ras_prior_one; auto. Qed.
Theorem C52_orbit : forall box : list (R * R), length box = 15%nat -> ordered box ->
  (forall i, In i [5; 6; 7; 13; 14]%nat -> 0 < fst (nth i box (0, 0))) ->
  box_int box (fun x => exp (@orb_log_prior RArith box x)) 1.
Proof. exact orb_prior_one. Qed.
(** the densities themselves: uniform, and 1 / (v ln (max / min)) for the scale parameters *)
Definition even (p : R * R) (v : R) : R := 1 / (snd p - fst p).
Definition jeffreys (p : R * R) (v : R) : R := 1 / (v * ln (snd p / fst p)).
Theorem C52_densities : forall x : list R,
  (forall nd (ra rb rd : R * R) gp s1 s2, ordered [ra; rb; rd] -> 0 < fst rd -> in_box [ra; rb; rd] x ->
     exp (u_logprior (@reg_user RArith nd ra rb rd gp s1 s2) x) = even ra (nth 0 x 0) * even rb (nth 1 x 0) * jeffreys rd (nth 2 x 0)) /\
  (forall (ra rb rc rd rf : R * R) gp s1 s2, ordered [ra; rb; rc; rd; rf] -> in_box [ra; rb; rc; rd; rf] x ->
     exp (u_logprior (@ras_user RArith ra rb rc rd rf gp s1 s2) x) = even ra 0 * even rb 0 * even rc 0 * even rd 0 * even rf 0) /\
  (forall box, length box = 15%nat -> ordered box -> (forall i, In i [5; 6; 7; 13; 14]%nat -> 0 < fst (nth i box (0, 0))) -> in_box box x ->
     exp (@orb_log_prior RArith box x) =
     fold_left (fun s i => s * jeffreys (nth i box (0, 0)) (nth i x 0)) [5; 6; 7; 13; 14]%nat
       (fold_left (fun s i => s * even (nth i box (0, 0)) (nth i x 0)) [0; 1; 2; 3; 4; 8; 9; 10; 11; 12]%nat 1)).
Proof.
  intros x. split; [|split].
  - intros nd ra rb rd gp s1 s2 O P B. unfold ordered in O.
    assert (K : forall p, In p [ra; rb; rd] -> fst p < snd p) by (apply List.Forall_forall; auto).
    unfold in_box in B. inversion B as [|? a ? ? Xa X1]; subst. inversion X1 as [|? b ? ? Xb X2]; subst.
    inversion X2 as [|? d ? ? Xd X3]; subst. inversion X3; subst. cbn [u_logprior reg_user nth].
    unfold reg_log_prior. cbn [nlog nadd RArith xi nth]. rewrite !exp_plus, !exp_ln_unif by (apply K; cbn [In]; tauto).
    rewrite exp_ln_jeff by (try split; try lra; apply K; cbn [In]; tauto). reflexivity.
  - intros ra rb rc rd rf gp s1 s2 O B. unfold ordered in O.
    assert (K : forall p, In p [ra; rb; rc; rd; rf] -> fst p < snd p) by (apply List.Forall_forall; auto).
    cbn [u_logprior ras_user]. unfold ras_log_prior. cbn [nlog nadd RArith]. rewrite !exp_plus, !exp_ln_unif by (apply K; cbn [In]; tauto). reflexivity.
  - intros box L O P B. unfold orb_log_prior. cbn [nadd RArith].
    change (exp (fold_left (fun s i => s + @orb_prior1 RArith box x i) (seq 1 14) (@orb_prior1 RArith box x 0)) =
      fold_left (fun s i => s * jeffreys (nth i box (0, 0)) (nth i x 0)) [5; 6; 7; 13; 14]%nat
       (fold_left (fun s i => s * even (nth i box (0, 0)) (nth i x 0)) [0; 1; 2; 3; 4; 8; 9; 10; 11; 12]%nat 1)).
    rewrite exp_fold_plus.
    assert (E : forall i, (i < 15)%nat -> exp (@orb_prior1 RArith box x i) = orb_factor box i (nth i x 0)).
    { intros i Hi. apply orb_prior1_exp; auto; [lia|]. intros J. apply P. do 15 (destruct i as [|i]; [cbn in J; try discriminate J; cbn [In]; tauto|]). lia. }
    cbn [seq fold_left]. rewrite !E by lia. unfold orb_factor. cbn [orb_jeff].
    unfold jeff, unif, jeffreys, even. ring.
Qed.
Print Assumptions C52_densities.
(** the three two-parameter models: constant, not normalised *)
Theorem C52_constant : forall (ra rb : R * R) gp s1 s2, let area := (snd ra - fst ra) * (snd rb - fst rb) in
  box_int [ra; rb] (fun x => exp (u_logprior (@egg_user RArith ra rb gp s1 s2) x)) (exp 1 * area) /\
  box_int [ra; rb] (fun x => exp (u_logprior (@curved_user RArith ra rb gp s1 s2) x)) area /\
  box_int [ra; rb] (fun x => exp (u_logprior (@multi_user RArith ra rb gp s1 s2) x)) area.
Proof.
  intros ra rb gp s1 s2 area. split; [apply (const_prior_mass ra rb 1)|].
  pose proof (const_prior_mass ra rb 0) as K. rewrite exp_0, Rmult_1_l in K. 
  split; (apply (box_int_ext _ (fun _ => exp 0)); [reflexivity|]); rewrite exp_0; apply (box_int_ext _ (fun _ => 1)); auto;
    apply (box_int_ext _ (fun _ => exp 0)); auto; intros; apply exp_0.
Qed.
(** with the shipped ranges (eggbox/input.ini:70-73, curved_likelihood 70-73, multi_gaussian 71-74, hier_R 68-88) the integral is not one *)
Theorem C52_refuted : forall gp s1 s2,
  (forall I, box_int [(0, 50); (0, 50)] (fun x => exp (u_logprior (@egg_user RArith (0, 50) (0, 50) gp s1 s2) x)) I -> I <> 1) /\
  (forall I, box_int [(-10, 10); (-10, 10)] (fun x => exp (u_logprior (@curved_user RArith (-10, 10) (-10, 10) gp s1 s2) x)) I -> I <> 1) /\
  (forall I, box_int [(-30, 30); (-30, 30)] (fun x => exp (u_logprior (@multi_user RArith (-30, 30) (-30, 30) gp s1 s2) x)) I -> I <> 1) /\
  (forall I, box_int hier_box (fun x => exp (@hier_log_prior RArith 3 3 hier_box x)) I -> I < 1).
Proof.
  intros gp s1 s2.
  assert (O : forall a b : R, a < b -> ordered [(a, b); (a, b)]) by (intros a b H; repeat constructor; auto).
  split; [|split; [|split]]; intros I H.
  - rewrite (box_int_unique _ _ _ _ (O 0 50 ltac:(lra)) H (proj1 (C52_constant (0, 50) (0, 50) gp s1 s2))). cbn [fst snd]. pose proof exp1_ge. lra.
  - rewrite (box_int_unique _ _ _ _ (O (-10) 10 ltac:(lra)) H (proj1 (proj2 (C52_constant (-10, 10) (-10, 10) gp s1 s2)))). cbn [fst snd]. lra.
  - rewrite (box_int_unique _ _ _ _ (O (-30) 30 ltac:(lra)) H (proj2 (proj2 (C52_constant (-30, 30) (-30, 30) gp s1 s2)))). cbn [fst snd]. lra.
  - assert (OH : ordered hier_box) by (unfold hier_box; repeat constructor; cbn [fst snd]; lra).
    rewrite (box_int_unique _ _ _ _ OH H (hier_prior_mass 3 3 _ _ _ _ _ _ ltac:(lra) OH)). apply hier_mass_small.
Qed.
Print Assumptions C52_orbit.
Print Assumptions C52_refuted.
(** the shipped ranges of regression (input.ini:71-76) *)
Example C52_case : forall gp s1 s2,
  box_int [(-20, 20); (-50, 50); (1 / 100, 30)] (fun x => exp (u_logprior (@reg_user RArith 2 (-20, 20) (-50, 50) (1 / 100, 30) gp s1 s2) x)) 1.
Proof. intros. apply C52_regression; cbn [fst snd]; lra. Qed.

(** ** C53: Kepler's equation *)

(** the whole prior range of the shipped file: at most five turns of the loop; whatever the bound on the turns, the same answer *)
Theorem C53_half : forall M e fuel, 0 <= e <= 1 / 2 -> (5 <= fuel)%nat ->
  exists E, @newton_solver RArith fuel M e = Some E /\ @newton_solver RArith 5 M e = Some E /\ Rabs (E - e * sin E - M) <= 1 / 4 * (1 / 10 ^ 16).
Proof.
  intros M e fuel H F. destruct (solver_half e M H) as [E HE]. exists E. split; [apply (loop_more 5 fuel _ M e M E HE F)|]. split; [auto|].
  pose proof (solver_kepler 5 M e E ltac:(lra) HE). lra.
Qed.
Theorem C53_wide : forall M e fuel, 0 <= e <= 73 / 100 -> (12 <= fuel)%nat ->
  exists E, @newton_solver RArith fuel M e = Some E /\ Rabs (E - e * sin E - M) <= e / 2 * (1 / 10 ^ 16).
Proof.
  intros M e fuel H F. destruct (solver_73 e M H) as [E HE]. exists E. split; [apply (loop_more 12 fuel _ M e M E HE F)|].
  apply (solver_kepler 12 M e E); [lra|auto].
Qed.
(** convergence for every eccentricity below sqrt 3 - 1 *)
Theorem C53_limit : forall e, 0 <= e -> e * e + 2 * e < 2 -> exists fuel, forall M, exists E, @newton_solver RArith fuel M e = Some E.
Proof.
  intros e H0 H1. destruct (Req_dec e 0) as [->|N]; [exists 2%nat; intros M; apply (solver_ends_0 M 0)|].
  assert (L : e < 1) by nra. set (q := e / (2 * (1 - e)) * e).
  assert (Q : 0 <= q < 1).
  { split.
    - unfold q. apply Rmult_le_pos; [|lra]. apply Rmult_le_pos; [lra|]. left. apply Rinv_0_lt_compat. lra.
    - unfold q. apply (Rmult_lt_reg_r (2 * (1 - e))); [lra|]. replace (e / (2 * (1 - e)) * e * (2 * (1 - e))) with (e * e) by (field; lra). lra. }
  destruct (pow_lt_1_zero q) with (y := 1 / 200000000) as [n Hn]; [rewrite Rabs_right; lra|lra|]. specialize (Hn n (Nat.le_refl n)).
  exists (S n). intros M. apply (solver_ends n e M); [lra|unfold q in Q; lra|]. fold q.
  pose proof (odds_pow n q ltac:(lra)) as OP. pose proof (odds_nonneg n q ltac:(lra)).
  rewrite Rabs_right in Hn by (apply Rle_ge, pow_le; lra). nra.
Qed.
(** the answer is close to the one solution of Kepler's equation *)
Theorem C53_solution : forall M e, 0 <= e < 1 -> exists X, X - e * sin X = M /\ (forall Y, Y - e * sin Y = M -> Y = X) /\
  forall fuel E, @newton_solver RArith fuel M e = Some E -> Rabs (E - X) <= e / (2 * (1 - e)) * (1 / 10 ^ 16).
Proof.
  intros M e H. destruct (kep_root e M H) as [X [HX _]]. exists X. split; [unfold kep in HX; lra|]. split.
  - intros Y HY. pose proof (kep_near e M Y X H HX) as K. replace (kep e M Y) with 0 in K by (unfold kep; lra). rewrite Rabs_R0 in K.
    pose proof (Rabs_pos (Y - X)). assert (Rabs (Y - X) = 0) by nra. destruct (Req_dec (Y - X) 0) as [Z|Z]; [lra|]. apply Rabs_no_R0 in Z. lra.
  - intros fuel E HE. pose proof (kep_near e M E X H HX) as K. pose proof (solver_kepler fuel M e E H HE) as R0. fold (kep e M E) in R0.
    apply (Rmult_le_reg_r (1 - e)); [lra|]. eapply Rle_trans; [apply K|]. eapply Rle_trans; [apply R0|]. right. field. lra.
Qed.
Print Assumptions C53_half.
Print Assumptions C53_limit.
Example C53_case : exists E, @newton_solver RArith 5 1 (1 / 2) = Some E /\ E <> 1 /\ Rabs (E - 1 / 2 * sin E - 1) <= 1 / 4 * (1 / 10 ^ 16).
Proof.
  destruct (C53_half 1 (1 / 2) 5 ltac:(lra) ltac:(lia)) as [E [H1 [_ H2]]]. exists E. split; [auto|]. split; [|auto].
  intros ->. assert (S1 : 0 <= sin 1) by (apply sin_ge_0; pose proof PI2_3_2; lra).
  assert (S2 : 1 / 4 <= sin 1).
  { assert (C : sin 1 * sin 1 + cos 1 * cos 1 = 1) by (pose proof (sin2_cos2 1); unfold Rsqr in *; lra).
    assert (D : sin 1 = 2 * sin (1 / 2) * cos (1 / 2)) by (rewrite <- sin_2a; f_equal; field).
    pose proof (SIN (1/2) ltac:(lra) ltac:(pose proof PI2_3_2; lra)) as [S _]. unfold sin_lb, sin_approx, sin_term in S. cbn in S.
    assert (sin (1 / 2) > 4 / 10) by lra.
    pose proof (sin2_cos2 (1/2)) as SC. unfold Rsqr in SC. pose proof (cos_ge_0 (1/2) ltac:(pose proof PI2_3_2; lra) ltac:(pose proof PI2_3_2; lra)) as CP.
    pose proof (sin_lt_x (1/2) ltac:(lra)). assert (cos (1 / 2) * cos (1 / 2) >= 3 / 4) by nra. assert (cos (1 / 2) >= 1 / 2) by nra. nra. }
  assert (Rabs (1 - 1 / 2 * sin 1 - 1) = 1 / 2 * sin 1) by (replace (1 - 1 / 2 * sin 1 - 1) with (- (1 / 2 * sin 1)) by ring; rewrite Rabs_Ropp; apply Rabs_right; lra).
  lra.
Qed.

Ltac to_R := match goal with |- ?a = ?b => change (@eq R a b) end.

(** ** C56: the likelihood of fit_orbit *)

(** Two Kepler orbits around a common centre, seen on the sky, with Gaussian errors of standard deviation x6 in both coordinates.  The
    eccentric anomalies solve Kepler's equation up to the error of C53; observation i is rows 2i and 2i+1 of the file. *)
Theorem C56_likelihood : forall (x : list R) nline (data : list R), length data = Z.to_nat (2 * nline) ->
  0 <= nth 1 x 0 <= 73 / 100 -> 0 <= nth 9 x 0 <= 73 / 100 -> nth 6 x 0 <> 0 ->
  exists (E1 E2 : nat -> R) v, (forall beta, @orb_logll RArith 12 x nline data beta = OK (v * beta)) /\
   let n := Z.to_nat (Z.quot nline 2) in
   let t i := nth (4 * i) data 0 in
   (forall i, (i < n)%nat -> kepler_ok (nth 1 x 0) (mean_anom (nth 7 x 0) (nth 4 x 0) (t i)) (E1 i)) /\
   (forall i, (i < n)%nat -> kepler_ok (nth 9 x 0) (mean_anom (nth 14 x 0) (nth 12 x 0) (t i)) (E2 i)) /\
   let s1 i := sky (nth 5 x 0 * @period_to_au RArith (nth 7 x 0) 1) (nth 1 x 0) (nth 0 x 0) (nth 2 x 0 * DEG) (nth 3 x 0 * DEG) (E1 i) in
   let s2 i := sky (nth 13 x 0 * @period_to_au RArith (nth 14 x 0) 1) (nth 9 x 0) (nth 8 x 0) (nth 10 x 0 * DEG) (nth 11 x 0 * DEG) (E2 i) in
   exp v = prod_list (fun i => gauss P2 (nth 6 x 0) (fst (s1 i) + fst (s2 i)) (nth (4 * i + 1) data 0) *
                               gauss P2 (nth 6 x 0) (snd (s1 i) + snd (s2 i)) (nth (4 * i + 3) data 0)) (seq 0 n).
Proof.
  intros x nline data L H1 H2 H3. destruct (orb_value_spec x nline data L H1 H2 H3) as (E1 & E2 & v & Hv & K). exists E1, E2, v.
  split; [|exact K]. intros beta. unfold orb_logll. rewrite Hv. reflexivity.
Qed.
(** an odd number of lines: the last line is not used *)
Theorem C56_odd_line : forall {A : Arith} fuel x nline (data : list (num A)) beta k last, (nline = 2 * k)%Z -> (0 <= k)%Z -> length data = Z.to_nat (2 * nline) -> length last = 2%nat ->
  orb_logll fuel x (nline + 1) (data ++ last) beta = orb_logll fuel x nline data beta.
Proof.
  intros A fuel x nline data beta k last -> Hk L Ll. unfold orb_logll, orb_value.
  replace (Z.quot (2 * k + 1) 2) with k by (rewrite Z.quot_div_nonneg by lia; apply (Z.div_unique _ 2 k 1); lia).
  replace (Z.quot (2 * k) 2) with k by (rewrite Z.quot_div_nonneg by lia; apply (Z.div_unique _ 2 k 0); lia).
  assert (E : map_res (orb_obs (2 * k + 1) (data ++ last)) (seq 0 (Z.to_nat k)) = map_res (orb_obs (2 * k) data) (seq 0 (Z.to_nat k))); [|rewrite E; reflexivity].
  assert (G : forall l, (forall i, In i l -> (Z.of_nat i < k)%Z) -> map_res (orb_obs (2 * k + 1) (data ++ last)) l = map_res (orb_obs (2 * k) data) l).
  { induction l as [|i l IH]; intros Hl; [reflexivity|]. cbn [map_res]. rewrite IH by (intros; apply Hl; right; auto).
    assert (Hi := Hl i (or_introl eq_refl)).
    assert (R : forall a j, (0 <= a < 2 * k)%Z -> (0 <= j < 2)%Z -> row_get (2 * k + 1) (data ++ last) a j = row_get (2 * k) data a j).
    { intros a j Ha Hj. unfold row_get. destruct (Z.leb_spec 0 a); [|lia]. destruct (Z.ltb_spec a (2 * k + 1)); [|lia]. destruct (Z.ltb_spec a (2 * k)); [|lia]. cbn [andb].
      unfold zget. destruct (Z.ltb_spec (a * 2 + j) 0); [lia|]. rewrite nth_error_app1 by lia. reflexivity. }
    unfold orb_obs. rewrite !R by lia. reflexivity. }
  apply G. intros i Hi. apply in_seq in Hi. lia.
Qed.
Print Assumptions C56_likelihood.
Print Assumptions C56_odd_line.
(** six hours of data at the edge of the shipped range of the eccentricity *)
Example C56_case : let x := [1 / 2; 1 / 2; 30; 60; 90; 5; 1; 300; 1 / 3; 1 / 10; 10; 20; 30; 20; 700] in let data := [0; 3; 0; 4; 1 / 4; 2; 1 / 4; 5] in
  exists v, @orb_logll RArith 12 x 4 data 1 = OK v /\ 0 < exp v.
Proof.
  intros x data. destruct (C56_likelihood x 4 data) as (E1 & E2 & v & Hv & _); [reflexivity|cbn; lra|cbn; lra|cbn; lra|].
  exists (v * 1). split; [apply Hv|apply exp_pos].
Qed.

(** ** C57: geometry of the orbits *)

(** period_to_au inverts Kepler's third law, in cm, g and s *)
Theorem C57_third_law : forall P ms, 0 < P -> 0 < ms ->
  let a := @period_to_au RArith P ms * 14959787000000 in let T := P * 86400 in let pi := 314159265358 / 10 ^ 11 in
  0 < a /\ a ^ 3 * (2 * pi) ^ 2 = 667259 / 10 ^ 13 * (19891 * 10 ^ 29 * ms) * T ^ 2.
Proof.
  intros P ms HP Hm a T pi. destruct (third_law P ms HP Hm) as [H0 H1].
  assert (A1 : @AU2CM RArith = 14959787000000) by reflexivity. assert (A2 : @PI11 RArith = pi) by (unfold PI11, nlit, pi; cbn [ndiv nof RArith]; change (10 ^ 11)%Z with 100000000000%Z; to_R; field).
  assert (A3 : @GG RArith = 667259 / 10 ^ 13) by (unfold GG, nlit; cbn [ndiv nof RArith]; change (10 ^ 13)%Z with 10000000000000%Z; to_R; field).
  assert (A4 : @MSUN RArith = 19891 * 10 ^ 29) by (unfold MSUN; cbn [nof RArith]; to_R; rewrite mult_IZR; f_equal; change (10 ^ 29)%Z with 100000000000000000000000000000%Z; to_R; ring).
  cbn [num RArith] in *. rewrite A1, A2, A3, A4 in H1. rewrite A1 in H0. split; [exact H0|]. fold a T in H1.
  transitivity (a * a * a * (2 * pi * (2 * pi))); [to_R; ring|]. to_R. rewrite H1. ring.
Qed.
(** the planet is never further from the star on the sky than the distance a (1 - e cos E) in space, so never further than a (1 + e) *)
Theorem C57_radius : forall fuel ecc osi cosi OmegaO M0 omega per t ra dec, 0 <= ecc < 1 -> -1 <= cosi <= 1 ->
  @radec RArith fuel ecc osi cosi OmegaO M0 omega per t = OK (ra, dec) ->
  exists E, Rabs (E - ecc * sin E - mean_anom per M0 t) <= ecc / 2 * (1 / 10 ^ 16) /\
    ra * ra + dec * dec <= osi * osi * ((1 - ecc * cos E) * (1 - ecc * cos E)) /\ ra * ra + dec * dec <= (osi * (1 + ecc)) * (osi * (1 + ecc)) /\
    (cosi = 1 -> ra * ra + dec * dec = osi * osi * ((1 - ecc * cos E) * (1 - ecc * cos E))).
Proof.
  intros fuel ecc osi cosi OmegaO M0 omega per t ra dec He Hc H. destruct (radec_sky _ _ _ _ _ _ _ _ _ _ H) as [E [HE Hp]]. exists E.
  split; [apply (solver_kepler fuel); auto|]. pose proof (sky_radius osi ecc cosi (OmegaO * DEG) (omega * DEG) E He Hc) as K. rewrite <- Hp in K.
  split; [exact K|]. split.
  - eapply Rle_trans; [apply K|]. pose proof (COS_bound E). replace (osi * (1 + ecc) * (osi * (1 + ecc))) with (osi * osi * ((1 + ecc) * (1 + ecc))) by ring.
    apply Rmult_le_compat_l; [nra|]. assert (0 <= 1 - ecc * cos E <= 1 + ecc) by nra. nra.
  - intros ->. unfold sky in Hp. injection Hp as -> ->.
    assert (S1 : forall u, sin u * sin u = 1 - cos u * cos u) by (intros u; pose proof (sin2_cos2 u); unfold Rsqr in *; lra).
    assert (Q : sqrt (1 - ecc * ecc) * sqrt (1 - ecc * ecc) = 1 - ecc * ecc) by (apply sqrt_sqrt; nra).
    set (X := cos E - ecc). set (Y := sqrt (1 - ecc * ecc) * sin E). 
    transitivity (osi * osi * ((X * X + Y * Y) * (sin (omega * DEG) * sin (omega * DEG) + cos (omega * DEG) * cos (omega * DEG))) * (sin (OmegaO * DEG) * sin (OmegaO * DEG) + cos (OmegaO * DEG) * cos (OmegaO * DEG))); [ring|].
    rewrite !S1. replace (Y * Y) with ((1 - ecc * ecc) * (1 - cos E * cos E)) by (unfold Y; transitivity (sqrt (1 - ecc * ecc) * sqrt (1 - ecc * ecc) * (sin E * sin E)); [rewrite Q, S1; ring|ring]). unfold X. ring.
Qed.
Print Assumptions C57_third_law.
Print Assumptions C57_radius.
Example C57_case : exists ra dec, @radec RArith 12 (1 / 2) 3 (1 / 2) 30 60 90 300 17 = OK (ra, dec) /\ ra * ra + dec * dec <= (3 * (1 + 1 / 2)) * (3 * (1 + 1 / 2)).
Proof.
  destruct (radec_ok (1 / 2) 3 (1 / 2) 30 60 90 300 17 ltac:(lra)) as [[ra dec] H]. exists ra, dec. split; [exact H|].
  destruct (C57_radius 12 (1 / 2) 3 (1 / 2) 30 60 90 300 17 ra dec ltac:(lra) ltac:(lra) H) as [E (_ & _ & K & _)]. exact K.
Qed.

(** ** C58: the planet table of hier_R *)

(** The file has one header line (first line, number of lines) for each planet, then the measurements; the loop has no count of the
    planets and stops at the first line that does not look like a header.  (a, b): the first measurement, cut to int. *)
Section C58.
Variable L : Libm.
Variable ps : list (list (num (B64 L) * num (B64 L))).
Variable last : list (num (B64 L) * num (B64 L)).
Variable q : num (B64 L) * num (B64 L).
Variables a b : Z.
Let nline := Z.of_nat (length (@table (B64 L) ps)).
Definition C58_file : Prop := (forall p, In p ps -> p <> []) /\ (nline <= INT_MAX)%Z /\ (exists front, ps = front ++ [last]) /\ nth_error (concat ps) 0 = Some q.
Definition C58_first : Prop := @ntrunc (B64 L) (fst q) = Some a /\ @ntrunc (B64 L) (snd q) = Some b /\ (INT_MIN <= a <= INT_MAX)%Z /\ (INT_MIN <= b <= INT_MAX)%Z /\ (INT_MIN <= a + b <= INT_MAX)%Z.
Lemma c58_looks : C58_file -> C58_first -> @looks_like_header (B64 L) ps q = OK ((a + b <=? nline) && (nline - Z.of_nat (length last) <? a))%Z.
Proof.
  intros (HF & HN & [front HP] & HQ) (TA & TB & IA & IB & IC). unfold looks_like_header, n2i. rewrite TA, TB.
  assert (K : forall z : Z, (INT_MIN <= z <= INT_MAX)%Z -> ((INT_MIN <=? z) && (z <=? INT_MAX))%Z = true).
  { intros z Hz. apply andb_true_intro. split; apply Z.leb_le; lia. }
  rewrite (K a IA). cbn [rbind]. rewrite (K b IB). cbn [rbind]. unfold i32. rewrite (K (a + b)%Z IC). cbn [rbind]. fold nline. do 3 f_equal.
  unfold line_of, nline. rewrite rows_length, HP, app_length. cbn [length]. replace (length front + 1 - 1)%nat with (length front + 0)%nat by lia.
  rewrite firstn_app_2. cbn [firstn]. rewrite app_nil_r, concat_app, app_length. cbn [concat]. rewrite app_nil_r. lia.
Qed.
(** exact, for all the parameters *)
Theorem C58_exact : C58_file -> C58_first -> (nline < a + b \/ a <= nline - Z.of_nat (length last))%Z -> forall x,
  @hier_value (B64 L) x nline (flat (@table (B64 L) ps)) =
    OK (fold_left (fun s p => nadd s (@planet_ll (B64 L) x p)) ps (bof 0), Z.of_nat (length ps)).
Proof.
  intros HF HH HC x. pose proof (c58_looks HF HH) as K. destruct HF as (HF & HN & [front HP] & HQ).
  apply (hier_exact (A := B64 L) (int_ok_B64 L) ps HF HN x q); [rewrite HP; destruct front; discriminate|exact HQ|].
  rewrite K. f_equal. destruct (Z.leb_spec (a + b) nline); [|reflexivity]. destruct (Z.ltb_spec (nline - Z.of_nat (length last)) a); [lia|reflexivity].
Qed.
(** otherwise measurements are read as headers: no answer for exactly the planets of the file *)
Theorem C58_wrong : C58_file -> C58_first -> (a + b <= nline)%Z -> (nline - Z.of_nat (length last) < a)%Z -> forall x v k,
  @hier_value (B64 L) x nline (flat (@table (B64 L) ps)) = OK (v, k) -> (Z.of_nat (length ps) < k)%Z.
Proof.
  intros HF HH H1 H2 x v k. pose proof (c58_looks HF HH) as K. destruct HF as (HF & HN & [front HP] & HQ).
  apply (hier_wrong (A := B64 L) (int_ok_B64 L) ps HF HN x q); [rewrite HP; destruct front; discriminate|exact HQ|].
  rewrite K. destruct (Z.leb_spec (a + b) nline); [|lia]. destruct (Z.ltb_spec (nline - Z.of_nat (length last)) a); [discriminate|lia].
Qed.
End C58.
(** the loop ends, whatever the file *)
Theorem C58_ends : forall {A : Arith} x nline (data : list (num A)), hier_value x nline data <> Stop OutOfFuel.
Proof. intros. apply hier_value_fuel. Qed.
(** one planet with measurements (2,2), (1,1), (1,1): a second planet is counted; one planet with the measurement (2, 0): the loop leaves the table *)
Theorem C58_refuted : forall x : list R,
  (exists v k, @hier_value RArith x 4 (flat (@table RArith [[(2, 2); (1, 1); (1, 1)]])) = OK (v, k) /\ k = 2%Z) /\
  @hier_value RArith x 2 (flat (@table RArith [[(2, 0)]])) = Stop OutOfBounds.
Proof.
  intros x. assert (N : forall z, (0 <= z <= INT_MAX)%Z -> @n2i RArith (IZR z) = OK z) by (intros z Hz; apply (n2i_nof (A := RArith) int_ok_R); auto).
  split.
  - set (D := flat _). assert (R : forall i a b, nth_error [(1, 3); (2, 2); (1, 1); (1, 1)] i = Some (a, b) -> @row_get RArith 4 D (Z.of_nat i) 0 = OK a /\ @row_get RArith 4 D (Z.of_nat i) 1 = OK b).
    { intros [|[|[|[|[|]]]]] a b E; try discriminate E; injection E as <- <-; split; reflexivity. }
    destruct (R 0%nat 1 3 eq_refl) as [R00 R01]. destruct (R 1%nat 2 2 eq_refl) as [R10 R11]. destruct (R 2%nat 1 1 eq_refl) as [R20 R21].
    cbn [Z.of_nat Pos.of_succ_nat Pos.succ] in *.
    assert (P : forall i line n s, @row_get RArith 4 D i 0 = OK (IZR line) -> @row_get RArith 4 D i 1 = OK (IZR n) -> (1 <= line)%Z -> (1 < n)%Z -> (line + n = 4)%Z -> exists s', @planet RArith x 4 D i s = OK s').
    { intros i line n s E0 E1 H1 H2 H3. unfold planet. rewrite E1. cbn [rbind]. rewrite (N n) by (unfold INT_MAX; lia). cbn [rbind]. rewrite E0. cbn [rbind].
      rewrite (N line) by (unfold INT_MAX; lia). cbn [rbind]. destruct (Z.leb_spec 0 line); [|lia]. destruct (Z.ltb_spec line 4); [|lia]. cbn [andb].
      assert (C : (line = 1 /\ n = 3 \/ line = 2 /\ n = 2)%Z) by lia. destruct C as [[-> ->]|[-> ->]]; unfold calc_mean, ll_one_planet;
        cbv [Z.to_nat Pos.to_nat Pos.iter_op for_from Nat.add zget Z.ltb Z.compare nth_error D flat table headers concat app flat_map fst snd rbind Z.mul Z.add Pos.mul Pos.add Pos.succ Z.eqb Pos.eqb]; eexists; reflexivity. }
    assert (G : forall i a b c, @row_get RArith 4 D i 0 = OK (IZR a) -> @row_get RArith 4 D i 1 = OK (IZR b) -> @row_get RArith 4 D (i - 1) 0 = OK (IZR c) -> (0 <= a <= 4)%Z -> (0 <= b <= 4)%Z -> (a + b <= 4)%Z -> (0 <= c <= 4)%Z ->
      @table_goes_on RArith 4 D i = OK (c <? a)%Z).
    { intros i a b c E0 E1 E2 Ha Hb Hab Hc. unfold table_goes_on. rewrite E0. cbn [rbind]. rewrite N by (unfold INT_MAX; lia). cbn [rbind]. rewrite E1. cbn [rbind].
      rewrite N by (unfold INT_MAX; lia). cbn [rbind]. unfold i32. destruct (Z.leb_spec INT_MIN (a + b)); [|unfold INT_MIN in *; lia]. destruct (Z.leb_spec (a + b) INT_MAX); [|unfold INT_MAX in *; lia].
      cbn [andb rbind]. destruct (Z.leb_spec (a + b) 4); [|lia]. rewrite E2. cbn [rbind]. rewrite N by (unfold INT_MAX; lia). reflexivity. }
    unfold hier_value. destruct (P 0%Z 1%Z 3%Z (@nof RArith 0) R00 R01 ltac:(lia) ltac:(lia) ltac:(lia)) as [s1 E1]. rewrite E1. cbn [rbind].
    change (S (Z.to_nat 4)) with 5%nat. cbn [planet_loop]. rewrite (G 1%Z 2%Z 2%Z 1%Z) by (auto; lia). cbn [rbind Z.ltb Z.compare Pos.compare Pos.compare_cont].
    destruct (P 1%Z 2%Z 2%Z s1 R10 R11 ltac:(lia) ltac:(lia) ltac:(lia)) as [s2 E2]. rewrite E2. cbn [rbind]. change (1 + 1)%Z with 2%Z.
    rewrite (G 2%Z 1%Z 1%Z 2%Z) by (auto; lia). cbn [rbind Z.ltb Z.compare Pos.compare Pos.compare_cont]. eexists; eexists; split; reflexivity.
  - set (D := flat _). assert (R00 : @row_get RArith 2 D 0 0 = OK 1) by reflexivity. assert (R01 : @row_get RArith 2 D 0 1 = OK 1) by reflexivity.
    assert (R10 : @row_get RArith 2 D 1 0 = OK 2) by reflexivity. assert (R11 : @row_get RArith 2 D 1 1 = OK 0) by reflexivity.
    assert (P0 : exists s, @planet RArith x 2 D 0 (@nof RArith 0) = OK s).
    { unfold planet. rewrite R01. cbn [rbind]. rewrite (N 1%Z) by (unfold INT_MAX; lia). cbn [rbind]. rewrite R00. cbn [rbind]. rewrite (N 1%Z) by (unfold INT_MAX; lia). cbn [rbind].
      cbn [Z.leb Z.ltb Z.compare Pos.compare Pos.compare_cont andb]. eexists; reflexivity. }
    destruct P0 as [s E]. unfold hier_value. rewrite E. cbn [rbind]. change (S (Z.to_nat 2)) with 3%nat. cbn [planet_loop].
    unfold table_goes_on. rewrite R10. cbn [rbind]. rewrite (N 2%Z) by (unfold INT_MAX; lia). cbn [rbind]. rewrite R11. cbn [rbind]. rewrite (N 0%Z) by (unfold INT_MAX; lia). cbn [rbind].
    change (i32 (2 + 0)) with (@OK Z 2%Z). cbn [rbind]. cbn [Z.leb Z.compare Pos.compare Pos.compare_cont]. change (1 - 1)%Z with 0%Z. rewrite R00. cbn [rbind].
    rewrite (N 1%Z) by (unfold INT_MAX; lia). cbn [rbind]. cbn [Z.ltb Z.compare Pos.compare Pos.compare_cont].
    unfold planet. rewrite R11. cbn [rbind]. rewrite (N 0%Z) by (unfold INT_MAX; lia). cbn [rbind]. rewrite R10. cbn [rbind]. rewrite (N 2%Z) by (unfold INT_MAX; lia). reflexivity.
Qed.
Print Assumptions C58_exact.
Print Assumptions C58_refuted.
(** two planets; the first measurement is (28, 1) and the file has five lines *)
Example C58_case : forall L, let ps := [[(bof 28, bof 1)]; [(bof 10, bof 1); (bof 12, bof 2)]] in
  C58_file L ps [(bof 10, bof 1); (bof 12, bof 2)] (bof 28, bof 1) /\ C58_first L (bof 28, bof 1) 28 1 /\ (Z.of_nat (length (@table (B64 L) ps)) < 28 + 1)%Z.
Proof.
  intros L ps. split; [|split].
  - split; [intros p [<-|[<-|[]]]; discriminate|]. split; [cbn; unfold INT_MAX; lia|]. split; [exists [[(bof 28, bof 1)]]; reflexivity|reflexivity].
  - split; [apply (int_ok_B64 L 28); unfold INT_MAX; lia|]. split; [apply (int_ok_B64 L 1); unfold INT_MAX; lia|]. unfold INT_MIN, INT_MAX. lia.
  - cbn. lia.
Qed.

(** ** C59: the initial parameters of hier_R *)

(** drand48 is in [0, 1) *)
Lemma drand_R : forall g, 0 <= fst (@drand48 RArith g) < 1.
Proof.
  intros g. unfold drand48. cbn [fst ndiv nof RArith]. pose proof (Z.mod_pos_bound (LCG_A * g + LCG_C) RMOD ltac:(unfold RMOD; lia)) as B.
  change ((LCG_A * g + LCG_C) mod RMOD)%Z with (lcg g) in B. destruct B as [B1 B2]. apply IZR_le in B1. apply IZR_lt in B2.
  assert (0 < IZR RMOD) by (apply IZR_lt; unfold RMOD; lia). split.
  - apply Rmult_le_pos; [auto|]. left. apply Rinv_0_lt_compat. auto.
  - apply (Rmult_lt_reg_r (IZR RMOD)); [auto|]. unfold Rdiv. rewrite Rmult_assoc, Rinv_l by lra. lra.
Qed.
Lemma unif_init_R : forall box g i, ordered box -> (i < length box)%nat ->
  fst (nth i box (0, 0)) <= nth i (fst (@init_draws RArith (repeat DUnif (length box)) box g)) 0 < snd (nth i box (0, 0)).
Proof.
  induction box as [|[lo hi] box IH]; intros g i O Hi; [cbn in Hi; lia|]. inversion O as [|p l H1 H2]; subst. cbn [fst snd] in H1.
  cbn [length repeat init_draws]. pose proof (drand_R g) as D. unfold r8_unif_ab. destruct (@drand48 RArith g) as [u g'].
  specialize (IH g'). destruct (@init_draws RArith (repeat DUnif (length box)) box g') as [t g2]. cbn [fst snd] in *. destruct i as [|i].
  - cbn [nth fst snd nadd nmul nsub RArith]. nra.
  - cbn [nth]. apply IH; [exact H2|cbn in Hi; lia].
Qed.
Lemma hier_init_cons : forall gm gs lo hi (box : list (R * R)) seed, let r := @r8_normal_ab RArith gm gs (srand48 seed) in
  fst (@hier_init RArith gm gs ((lo, hi) :: box) seed) = fst r :: fst (@init_draws RArith (repeat DUnif 5) box (snd r)).
Proof.
  intros gm gs lo hi box seed r. unfold hier_init, init_parm_set. change [DUnif; DUnif; DUnif; DUnif; DUnif] with (repeat (@DUnif RArith) 5).
  generalize (repeat (@DUnif RArith) 5). intros ds. cbn [init_draws]. subst r. destruct (@r8_normal_ab RArith gm gs (srand48 seed)) as [v g1].
  cbn [fst snd]. destruct (@init_draws RArith ds box g1). reflexivity.
Qed.
(** five of the six start inside their ranges, for every seed *)
Theorem C59_uniform : forall gm gs (box : list (R * R)) seed, length box = 6%nat -> ordered box ->
  forall i, (1 <= i < 6)%nat -> fst (nth i box (0, 0)) <= nth i (fst (@hier_init RArith gm gs box seed)) 0 < snd (nth i box (0, 0)).
Proof.
  intros gm gs box seed Hl O i Hi. destruct box as [|[lo hi] box]; [discriminate Hl|]. injection Hl as Hl. inversion O as [|p l H1 H2]; subst.
  destruct i as [|i]; [lia|]. rewrite hier_init_cons. cbn [nth].
  pose proof (unif_init_R box (snd (@r8_normal_ab RArith gm gs (srand48 seed))) i H2 ltac:(lia)) as K. rewrite Hl in K. exact K.
Qed.
(** The first, gamma_power, is a normal draw that is never compared with its range: with the shipped input.ini (mean 3, standard
    deviation 3, range -4 to 7) and seed 7091 it starts above 7. *)
Theorem C59_refuted : exists seed, (0 <= seed < 2 ^ 31)%Z /\ snd (nth 0 hier_box (0, 0)) < nth 0 (fst (@hier_init RArith 3 3 hier_box seed)) 0.
Proof.
  exists 7091%Z. split; [lia|]. unfold hier_box. rewrite hier_init_cons. cbn [nth fst snd]. unfold r8_normal_ab, r8_normal_01, drand48.
  set (g1 := lcg (srand48 7091)). set (g2 := lcg g1).
  cbn [fst].
  assert (G1 : g1 = 8443906969857%Z) by (vm_compute; reflexivity). assert (G2 : g2 = 248804828024%Z) by (vm_compute; reflexivity). rewrite G1, G2.
  unfold r8_pi, nlit, RMOD. cbn [nadd nmul nsqrt nlog ndiv nof nopp ncos RArith].
  change (2 ^ 48)%Z with 281474976710656%Z. change (10 ^ 15)%Z with 1000000000000000%Z.
  set (r1 := 8443906969857 / 281474976710656). set (w := 2 * (3141592653589793 / 1000000000000000) * (248804828024 / 281474976710656)).
  assert (H1 : ln r1 <= -2).
  { assert (0 < r1) by (unfold r1; lra). pose proof (ln_Rinv r1 ltac:(lra)) as LI. enough (2 <= ln (/ r1)) by lra.
    rewrite <- (ln_exp 2). apply Rcomplements.ln_le; [apply exp_pos|]. replace 2 with (1 + 1) by ring. rewrite exp_plus. pose proof exp_le_3 as E3. pose proof (exp_pos 1).
    assert (9 <= / r1) by (unfold r1; lra). nra. }
  assert (H2 : 2 <= sqrt (- (2) * ln r1)).
  { rewrite <- (sqrt_square 2) at 1 by lra. apply sqrt_le_1_alt. lra. }
  assert (H3 : 9 / 10 <= cos w).
  { assert (W : 0 <= w <= 1 / 100) by (unfold w; lra). pose proof (sin_lt_x w) as SW. pose proof (sin2_cos2 w) as SC. unfold Rsqr in SC.
    assert (P1 : - (PI / 2) <= w) by (pose proof PI2_3_2; lra). assert (P2' : w <= PI / 2) by (pose proof PI2_3_2; lra).
    pose proof (cos_ge_0 w ltac:(lra) ltac:(lra)) as C0.
    assert (S0 : 0 <= sin w) by (apply sin_ge_0; pose proof PI2_3_2; lra).
    assert (S1 : sin w <= 1 / 100). { destruct (Req_dec w 0) as [->|Nz]; [rewrite sin_0; lra|]. specialize (SW ltac:(lra)). lra. }
    nra. }
  change (7 < 3 + 3 * (sqrt (- (2) * ln r1) * cos w)). nra.
Qed.
Print Assumptions C59_uniform.
Print Assumptions C59_refuted.
Example C59_case : forall seed i, (1 <= i < 6)%nat -> fst (nth i hier_box (0, 0)) <= nth i (fst (@hier_init RArith 3 3 hier_box seed)) 0 < snd (nth i hier_box (0, 0)).
Proof. intros seed. apply C59_uniform; [reflexivity|]. unfold hier_box; repeat constructor; cbn [fst snd]; lra. Qed.

(** ** C60: the likelihood of regression *)

(** y_i = a x_i + b with independent Gaussian errors of standard deviation d; 3.141592653589793 stands for pi *)
Theorem C60_likelihood : forall ra rb rd gp s1 s2 (x : list R) nline (data : list R), nth 2 x 0 <> 0 -> 
  let U := @reg_user RArith 2 ra rb rd gp s1 s2 in let k := 2 * (3141592653589793 / 10 ^ 15) in
  exp (u_logll U x nline data 1) =
  prod_list (fun i => gauss k (nth 2 x 0) (nth 0 x 0 * nth (2 * i) data 0 + nth 1 x 0) (nth (2 * i + 1) data 0)) (seq 0 (Z.to_nat nline)).
Proof.
  intros ra rb rd gp s1 s2 x nline data Hd U k. cbn [u_logll U reg_user]. unfold reg_logll, reg_sum.
  cbn [nmul nadd nof RArith]. rewrite Rmult_1_r. 
  rewrite (fold_sum_exp (fun i => @reg_term RArith x 2 data (Z.of_nat i))), exp_0, Rmult_1_l.
  apply prod_list_ext. intros i _. unfold reg_term, sq, two, half, PI15, nlit, xi. cbn [nof nadd nsub nmul ndiv nopp nlog npow RArith].
  replace (Z.to_nat (Z.of_nat i * 2 + 0)) with (2 * i)%nat by lia. replace (Z.to_nat (Z.of_nat i * 2 + 1)) with (2 * i + 1)%nat by lia.
  cbn [num RArith]. rewrite !(Rcpow_2 (_ : R)). change (10 ^ 15)%Z with 1000000000000000%Z. change (10 ^ 1)%Z with 10%Z.
  set (d := nth 2 x 0) in *. set (X := nth (2 * i) data 0). set (Y := nth (2 * i + 1) data 0). set (a := nth 0 x 0). set (b := nth 1 x 0).
  assert (D0 : 0 < d * d) by (apply Rsqr_pos_lt; auto). assert (K0 : 0 < k) by (unfold k; lra).
  assert (KE : 2 * (3141592653589793 / 1000000000000000) = k) by (unfold k; field).
  change (exp (- (5 / 10) * ln (2 * (3141592653589793 / 1000000000000000)) - 5 / 10 * ln (d * d) - (X * a + b - Y) * (X * a + b - Y) / 2 / (d * d)) = gauss k d (a * X + b) Y).
  rewrite KE. unfold gauss, Rminus at 1. rewrite exp_plus. f_equal.
  - replace (- (5 / 10) * ln k - 5 / 10 * ln (d * d)) with (- (/ 2 * ln (k * (d * d)))) by (rewrite ln_mult by lra; field).
    rewrite exp_Ropp. unfold Rdiv. rewrite Rmult_1_l. f_equal. rewrite <- Rpower_sqrt by (apply Rmult_lt_0_compat; lra). reflexivity.
  - f_equal. field. lra.
Qed.
Print Assumptions C60_likelihood.
Example C60_case : let U := @reg_user RArith 2 (-20, 20) (-50, 50) (1 / 100, 30) 1 1 1 in
  exp (u_logll U [2; 1; 3] 2 [0; 1; 1; 4] 1) = gauss (2 * (3141592653589793 / 10 ^ 15)) 3 1 1 * gauss (2 * (3141592653589793 / 10 ^ 15)) 3 3 4.
Proof.
  intros U. unfold U. rewrite C60_likelihood by (cbn; lra). change (seq 0 (Z.to_nat 2)) with [0; 1]%nat. cbn [prod_list nth Nat.mul Nat.add].
  rewrite Rmult_1_r. replace (2 * 0 + 1) with 1 by ring. replace (2 * 1 + 1) with 3 by ring. reflexivity.
Qed.

(** ** C61: the log-likelihoods of the two-parameter models *)

(** curved_likelihood takes the logarithm of its mixture *)
Theorem C61_curved : forall ra rb gp s1 s2 a b nline data,
  exp (u_logll (@curved_user RArith ra rb gp s1 s2) [a; b] nline data 1) =
  exp (- a ^ 2 - (9 + 4 * a ^ 2 + 9 * b) ^ 2) + 1 / 2 * exp (- 8 * a ^ 2 - 8 * (b - 2) ^ 2).
Proof.
  intros. cbn [u_logll curved_user val_user]. unfold val_logll, curved_value, sq, two, half, nlit, xi.
  cbn [nth nof nadd nsub nmul ndiv nopp nlog nexp npow RArith]. rewrite Rmult_1_r.
  cbn [num RArith]. rewrite !(Rcpow_2 (_ : R)). change (10 ^ 1)%Z with 10%Z.
  rewrite exp_ln by (match goal with |- 0 < exp ?u + 5 / 10 * exp ?v => pose proof (exp_pos u); pose proof (exp_pos v); lra end).
  f_equal; [f_equal; ring|]. rewrite <- (Rmult_comm (exp _)), <- (Rmult_comm (exp _)). f_equal; [f_equal; ring|field].
Qed.
(** multi_gaussian does not: the density itself is used as log-likelihood.  No positive constant makes exp of it the mixture. *)
Definition two_gauss (a b : R) : R := exp (- ((a - 10) ^ 2 / 2 + (b - 10) ^ 2 / 2)) + exp (- ((a + 10) ^ 2 / 2 + (b + 10) ^ 2 / 2)).
Theorem C61_multi : forall ra rb gp s1 s2 a b nline data beta,
  u_logll (@multi_user RArith ra rb gp s1 s2) [a; b] nline data beta = two_gauss a b * beta.
Proof.
  intros. cbn [u_logll multi_user val_user]. unfold val_logll, multi_value, sq, two, xi, two_gauss.
  cbn [nth nof nadd nsub nmul ndiv nopp nexp npow RArith]. cbn [num RArith]. rewrite !(Rcpow_2 (_ : R)).
  change ((exp (- ((a - 10) * (a - 10) / 2 / (1 * 1) + (b - 10) * (b - 10) / 2 / (1 * 1))) + exp (- ((a - - (10)) * (a - - (10)) / 2 / (1 * 1) + (b - - (10)) * (b - - (10)) / 2 / (1 * 1)))) * beta =
    (exp (- ((a - 10) ^ 2 / 2 + (b - 10) ^ 2 / 2)) + exp (- ((a + 10) ^ 2 / 2 + (b + 10) ^ 2 / 2))) * beta).
  f_equal. f_equal; f_equal; field.
Qed.
Theorem C61_multi_refuted : forall ra rb gp s1 s2 nline data, ~ exists c, 0 < c /\
  forall a b, exp (u_logll (@multi_user RArith ra rb gp s1 s2) [a; b] nline data 1) = c * two_gauss a b.
Proof.
  intros ra rb gp s1 s2 nline data [c [Hc H]].
  assert (E8 : exp (-100) < 1 / 20).
  { replace (-100) with (- (50 + 50)) by ring. rewrite exp_Ropp, exp_plus. pose proof (exp_ineq1 50 ltac:(lra)). 
    apply (Rmult_lt_reg_r (exp 50 * exp 50)); [nra|]. rewrite Rinv_l by nra. nra. }
  pose proof (H 10 10) as H1. pose proof (H 0 0) as H0. rewrite C61_multi, Rmult_1_r in H1, H0.
  assert (T0 : two_gauss 0 0 = 2 * exp (-100)) by (unfold two_gauss; replace (- ((0 - 10) ^ 2 / 2 + (0 - 10) ^ 2 / 2)) with (-100) by field; replace (- ((0 + 10) ^ 2 / 2 + (0 + 10) ^ 2 / 2)) with (-100) by field; ring).
  assert (T1 : 1 <= two_gauss 10 10 <= 2).
  { unfold two_gauss. replace (- ((10 - 10) ^ 2 / 2 + (10 - 10) ^ 2 / 2)) with 0 by field. replace (- ((10 + 10) ^ 2 / 2 + (10 + 10) ^ 2 / 2)) with (-100 + -300) by field.
    rewrite exp_0, exp_plus. pose proof (exp_pos (-100)). pose proof (exp_pos (-300)). assert (exp (-300) < 1) by (rewrite <- exp_0; apply exp_increasing; lra). nra. }
  (* the ratio of the likelihoods is at most e^2 < 9; the ratio of the mixtures is more than 10 *)
  assert (L0 : 1 <= exp (two_gauss 0 0)) by (rewrite T0; pose proof (exp_pos (-100)); pose proof (exp_ineq1_le (2 * exp (-100))); lra).
  assert (L1 : exp (two_gauss 10 10) <= 9).
  { apply Rle_trans with (exp (1 + 1)); [destruct (Rle_lt_or_eq_dec _ _ (proj2 T1)) as [T|T]; [left; apply exp_increasing; lra|right; f_equal; lra]|].
    rewrite exp_plus. pose proof exp_le_3. pose proof (exp_pos 1). nra. }
  rewrite H0 in L0. rewrite H1 in L1. rewrite T0 in L0. assert (1 <= c * (1 / 10)) by nra. nra.
Qed.
Print Assumptions C61_curved.
Print Assumptions C61_multi_refuted.
Example C61_case : forall ra rb gp s1 s2, exp (u_logll (@curved_user RArith ra rb gp s1 s2) [0; -1] 0 [] 1) = 1 + 1 / 2 * exp (-72).
Proof. intros. rewrite C61_curved. replace (- 0 ^ 2 - (9 + 4 * 0 ^ 2 + 9 * -1) ^ 2) with 0 by ring. rewrite exp_0. do 3 f_equal. ring. Qed.

(** ** C62: the likelihood of one planet of hier_R *)

Definition K_hier : R := exp (2 * (9189385332046727 / 10 ^ 16)).
Lemma ll_V_gauss : forall o v l, l <> 0 -> exp (@ll_V RArith o v l) = gauss K_hier l v o.
Proof.
  intros o v l Hl. assert (D0 : 0 < l * l) by (apply Rsqr_pos_lt; auto). unfold ll_V, half_log_2pi, nlit. cbn [nof nadd nsub nmul ndiv nopp nlog RArith].
  change (10 ^ 16)%Z with 10000000000000000%Z. change (10 ^ 1)%Z with 10%Z. unfold gauss, K_hier. set (h := 9189385332046727 / 10 ^ 16).
  replace (9189385332046727 / 10000000000000000) with h by (unfold h; field).
  change (exp (- h - 5 / 10 * ln (l * l) - (o - v) * (o - v) / 2 / (l * l)) = 1 / sqrt (exp (2 * h) * (l * l)) * exp (- ((o - v) * (o - v)) / (2 * (l * l)))).
  unfold Rminus at 1. rewrite exp_plus. f_equal; [|f_equal; field; lra].
  pose proof (exp_pos (2 * h)) as EP. replace (- h - 5 / 10 * ln (l * l)) with (- (/ 2 * ln (exp (2 * h) * (l * l)))) by (rewrite ln_mult, ln_exp by lra; field).
  rewrite exp_Ropp. unfold Rdiv. rewrite Rmult_1_l. f_equal. rewrite <- Rpower_sqrt by (apply Rmult_lt_0_compat; lra). reflexivity.
Qed.
(** For a planet with measurements p, mean values Xm and Ym, and Xm positive: each measurement of Y is normal about Ym, Ym is normal
    about exp(logC) Xm^gamma with a width proportional to a power of it, each measurement of X is normal about Xm. *)
Theorem C62_planet : forall (x : list R) (p : list (R * R)), p <> [] ->
  let mn l := fold_left Rplus l 0 / IZR (Z.of_nat (length l)) in
  let Xm := mn (map fst p) in let Ym := mn (map snd p) in 0 < Xm ->
  let mu := exp (nth 1 x 0) * Rpower Xm (nth 0 x 0) in
  exp (@planet_ll RArith x p) =
  prod_list (fun q : R * R => gauss K_hier (exp (nth 3 x 0)) Ym (snd q) * gauss K_hier (exp (nth 2 x 0) * Rpower mu (nth 5 x 0)) mu Ym * gauss K_hier (exp (nth 4 x 0)) Xm (fst q)) p.
Proof.
  intros x p Hp mn Xm Ym HX mu.
  assert (M0 : 0 < mu) by (apply Rmult_lt_0_compat; apply exp_pos).
  assert (ONE : forall Xo Yo, exp (@ll_oneMeasure RArith (nth 0 x 0) (nth 1 x 0) Yo Ym Xo Xm (exp (nth 3 x 0)) (exp (nth 2 x 0)) (exp (nth 4 x 0)) (nth 5 x 0)) =
     gauss K_hier (exp (nth 3 x 0)) Ym Yo * gauss K_hier (exp (nth 2 x 0) * Rpower mu (nth 5 x 0)) mu Ym * gauss K_hier (exp (nth 4 x 0)) Xm Xo).
  { intros Xo Yo. unfold ll_oneMeasure, ll_V_plusgamma. cbn [nadd nmul nexp npow RArith]. rewrite (Rcpow_pos Xm _ HX). fold mu. rewrite (Rcpow_pos mu _ M0).
    rewrite !exp_plus. rewrite !ll_V_gauss; [reflexivity| | |]; try (apply Rgt_not_eq, exp_pos). apply Rgt_not_eq, Rmult_lt_0_compat; apply exp_pos. }
  set (one := fun Xo Yo => @ll_oneMeasure RArith (nth 0 x 0) (nth 1 x 0) Yo Ym Xo Xm (exp (nth 3 x 0)) (exp (nth 2 x 0)) (exp (nth 4 x 0)) (nth 5 x 0)).
  destruct p as [|q [|q2 p]]; [congruence| |].
  - change (@planet_ll RArith x [q]) with (one Xm (snd q)). cbn [prod_list]. rewrite Rmult_1_r.
    assert (XQ : Xm = fst q). { unfold Xm, mn. cbn [map fold_left length Z.of_nat Pos.of_succ_nat]. field. }
    rewrite <- XQ. cbv beta delta [one]. rewrite ONE. reflexivity.
  - change (@planet_ll RArith x (q :: q2 :: p)) with (fold_left (fun s (q0 : R * R) => s + one (fst q0) (snd q0)) (q :: q2 :: p) 0).
    rewrite (fold_sum_exp (fun q0 : R * R => one (fst q0) (snd q0))), exp_0, Rmult_1_l. apply prod_list_ext. intros q0 _. cbv beta delta [one]. rewrite ONE. reflexivity.
Qed.
Print Assumptions C62_planet.
Example C62_case : 0 < exp (@planet_ll RArith [1; 0; 0; 0; 0; 0] [(28, 2); (30, 3)]) /\ fold_left Rplus (map fst [(28, 2); (30, 3)]) 0 / 2 = 29.
Proof. split; [apply exp_pos|cbn; field]. Qed.

(** ** C63: rastrigin *)

(** The Rastrigin function, at least the squared distance from its minimum at the origin. *)
Definition ras_f (x : list R) : R := fold_right (fun v s => (v ^ 2 - 10 * cos (2 * (3141592653589793 / 10 ^ 15) * v) + 10) + s) 0 x.
Lemma ras_f_ge : forall x, fold_right (fun v s => v ^ 2 + s) 0 x <= ras_f x.
Proof. induction x as [|v x IH]; cbn [ras_f fold_right]; [lra|]. fold (ras_f x). pose proof (COS_bound (2 * (3141592653589793 / 10 ^ 15) * v)). lra. Qed.
(** The log-likelihood is the logarithm of that function, not minus the function: the likelihood is largest where the function is
    largest, and it vanishes at the minimum, the origin *)
Theorem C63_value : forall ra rb rc rd rf gp s1 s2 (x : list R) nline data beta, length x = 5%nat ->
  u_logll (@ras_user RArith ra rb rc rd rf gp s1 s2) x nline data beta = ln (ras_f x) * beta /\ fold_right (fun v s => v ^ 2 + s) 0 x <= ras_f x.
Proof.
  intros ra rb rc rd rf gp s1 s2 x nline data beta Hl. split; [|apply ras_f_ge].
  destruct x as [|a [|b [|c [|d [|e [|]]]]]]; try discriminate Hl. cbn [u_logll ras_user]. unfold ras_logll, ras_value, sq, two, PI15, nlit, xi, ras_f.
  cbn [nth nof nadd nsub nmul ndiv nopp nlog ncos npow RArith fold_right]. cbn [num RArith]. rewrite !(Rcpow_2 (_ : R)). change (10 ^ 15)%Z with 1000000000000000%Z.
  change (IZR 1000000000000000) with 1000000000000000. replace (10 ^ 15) with 1000000000000000 by ring.
  match goal with |- ln ?u * beta = ln ?v * beta => change (ln (u : R) * beta = ln v * beta) end. f_equal. f_equal.
  match goal with |- ?u = ?v => change (@eq R u v) end. ring.
Qed.
Theorem C63_refuted : exists x y : list R, length x = 5%nat /\ length y = 5%nat /\ ras_f x < ras_f y /\
  forall ra rb rc rd rf gp s1 s2 nline data,
    u_logll (@ras_user RArith ra rb rc rd rf gp s1 s2) x nline data 1 < u_logll (@ras_user RArith ra rb rc rd rf gp s1 s2) y nline data 1.
Proof.
  pose proof (ras_f_ge [1; 0; 0; 0; 0]) as A. pose proof (ras_f_ge [12; 0; 0; 0; 0]) as B. 
  assert (C : ras_f [1; 0; 0; 0; 0] <= 21).
  { unfold ras_f. cbn [fold_right]. rewrite !Rmult_0_r, cos_0. pose proof (COS_bound (2 * (3141592653589793 / 10 ^ 15) * 1)). lra. }
  cbn [fold_right] in A, B.
  exists [1; 0; 0; 0; 0], [12; 0; 0; 0; 0]. split; [reflexivity|]. split; [reflexivity|]. split; [lra|]. intros.
  rewrite (proj1 (C63_value ra rb rc rd rf gp s1 s2 [1; 0; 0; 0; 0] nline data 1 eq_refl)), (proj1 (C63_value ra rb rc rd rf gp s1 s2 [12; 0; 0; 0; 0] nline data 1 eq_refl)), !Rmult_1_r.
  apply ln_increasing; lra.
Qed.
Print Assumptions C63_value.
Print Assumptions C63_refuted.
Example C63_case : 4 <= ras_f [2; 0; 0; 0; 0].
Proof. pose proof (ras_f_ge [2; 0; 0; 0; 0]) as H. cbn [fold_right] in H. lra. Qed.
