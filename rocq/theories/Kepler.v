(** newton_solver of the orbit model (fit_orbit/user_logll.c:210-225) over the reals. *)
From Coq Require Import ZArith Reals List Bool Lia Lra Psatz.
From Verif Require Import Base Arith UserModels.
Import ListNotations.
Open Scope R_scope.

(** ** sine: the second order remainder *)
Lemma cos_lip : forall x t, Rabs (cos (x - t) - cos x) <= Rabs t.
Proof.
  intros x t.
  assert (E : cos (x - t) - cos x = -2 * sin ((x - t - x) / 2) * sin ((x - t + x) / 2)) by (apply form2).
  replace ((x - t - x) / 2) with (- (t / 2)) in E by field. rewrite sin_neg in E. rewrite E.
  replace (-2 * - sin (t / 2) * sin ((x - t + x) / 2)) with (2 * sin (t / 2) * sin ((x - t + x) / 2)) by ring.
  assert (S1 : Rabs (sin (t / 2)) <= Rabs (t / 2)).
  { destruct (Rle_dec 0 (t / 2)) as [P|P].
    - rewrite (Rabs_right (t / 2)) by lra. apply Rabs_le. split.
      + destruct (Req_dec (t / 2) 0) as [Z|Z]; [rewrite Z, sin_0; lra|].
        assert (K : - sin (t / 2) <= t / 2); [|lra]. destruct (Rle_dec (t / 2) 1) as [Q|Q].
        * assert (0 <= sin (t / 2)) by (apply sin_ge_0; pose proof PI2_1; unfold PI2 in *; lra || (pose proof PI_4; pose proof PI2_3_2; lra)). lra.
        * pose proof (SIN_bound (t / 2)). lra.
      + destruct (Req_dec (t / 2) 0) as [Z|Z]; [rewrite Z, sin_0; lra|]. left. apply sin_lt_x. lra.
    - rewrite (Rabs_left (t / 2)) by lra. rewrite <- Rabs_Ropp, <- sin_neg. set (u := - (t / 2)). assert (0 < u) by (unfold u; lra).
      apply Rabs_le. split.
      + assert (K : - sin u <= u); [|lra]. destruct (Rle_dec u 1) as [Q|Q].
        * assert (0 <= sin u) by (apply sin_ge_0; pose proof PI2_3_2; lra). lra.
        * pose proof (SIN_bound u). lra.
      + left. apply sin_lt_x. auto. }
  rewrite !Rabs_mult. rewrite (Rabs_right 2) by lra.
  assert (S2 : Rabs (sin ((x - t + x) / 2)) <= 1) by (apply Rabs_le; pose proof (SIN_bound ((x - t + x) / 2)); lra).
  pose proof (Rabs_pos (sin (t / 2))). pose proof (Rabs_pos (sin ((x - t + x) / 2))).
  assert (Rabs (t / 2) = Rabs t / 2) by (unfold Rdiv; rewrite Rabs_mult, (Rabs_right (/ 2)) by lra; auto). nra.
Qed.
(** sin x - sin (x-t) - t cos x *)
Definition rem (x t : R) : R := sin x - sin (x - t) - t * cos x.
Lemma rem_deriv : forall x t, derivable_pt_lim (rem x) t (cos (x - t) - cos x).
Proof.
  intros x t. unfold rem.
  replace (cos (x - t) - cos x) with ((0 - cos (x - t) * (0 - 1)) - (1 * cos x + t * 0)) by ring.
  apply derivable_pt_lim_minus.
  - apply derivable_pt_lim_minus; [apply derivable_pt_lim_const|].
    apply (derivable_pt_lim_comp (fun t => x - t) sin).
    + apply derivable_pt_lim_minus; [apply derivable_pt_lim_const|apply derivable_pt_lim_id].
    + apply derivable_pt_lim_sin.
  - apply (derivable_pt_lim_mult (fun t => t) (fun _ => cos x)); [apply derivable_pt_lim_id|apply derivable_pt_lim_const].
Qed.
Lemma half_sq_deriv : forall t, derivable_pt_lim (fun t => t * t / 2) t t.
Proof.
  intros t. replace t with ((1 * t + t * 1) * / 2 + t * t * 0) at 2 by field.
  apply (derivable_pt_lim_mult (fun t => t * t) (fun _ => / 2)); [|apply derivable_pt_lim_const].
  apply (derivable_pt_lim_mult (fun t => t) (fun t => t)); apply derivable_pt_lim_id.
Qed.
(** a function that vanishes at 0 with nonnegative slope on the right and nonpositive on the left is nonnegative *)
Lemma nonneg_from : forall f f', f 0 = 0 -> (forall t, derivable_pt_lim f t (f' t)) -> (forall t, 0 <= t * f' t) -> forall t, 0 <= f t.
Proof.
  intros f f' F0 D S t. destruct (Rtotal_order t 0) as [H|[->|H]].
  - destruct (MVT_cor2 f f' t 0 H) as [c [E [C1 C2]]]; [intros; apply D|]. rewrite F0 in E. specialize (S c). assert (f' c <= 0) by nra. nra.
  - lra.
  - destruct (MVT_cor2 f f' 0 t H) as [c [E [C1 C2]]]; [intros; apply D|]. rewrite F0 in E. specialize (S c). assert (0 <= f' c) by nra. nra.
Qed.
Lemma rem_bound : forall x t, Rabs (rem x t) <= t * t / 2.
Proof.
  intros x t.
  assert (Z : rem x 0 = 0) by (unfold rem; rewrite Rminus_0_r; ring).
  assert (L : forall s, Rabs (s * (cos (x - s) - cos x)) <= s * s).
  { intros s. rewrite Rabs_mult. pose proof (cos_lip x s). pose proof (Rabs_pos s). replace (s * s) with (Rabs s * Rabs s).
    - nra.
    - rewrite <- Rabs_mult. apply Rabs_right. nra. }
  assert (A : 0 <= t * t / 2 - rem x t).
  { apply (nonneg_from (fun t => t * t / 2 - rem x t) (fun t => t - (cos (x - t) - cos x))).
    - rewrite Z. field.
    - intros s. apply derivable_pt_lim_minus; [apply half_sq_deriv|apply rem_deriv].
    - intros s. specialize (L s). pose proof (Rle_abs (s * (cos (x - s) - cos x))); pose proof (Rle_abs (- (s * (cos (x - s) - cos x)))) as N; rewrite Rabs_Ropp in N; nra. }
  assert (B : 0 <= t * t / 2 + rem x t).
  { apply (nonneg_from (fun t => t * t / 2 + rem x t) (fun t => t + (cos (x - t) - cos x))).
    - rewrite Z. field.
    - intros s. apply derivable_pt_lim_plus; [apply half_sq_deriv|apply rem_deriv].
    - intros s. specialize (L s). pose proof (Rle_abs (s * (cos (x - s) - cos x))); pose proof (Rle_abs (- (s * (cos (x - s) - cos x)))) as N; rewrite Rabs_Ropp in N; nra. }
  apply Rabs_le. lra.
Qed.

(** ** one step *)
Definition kep (e M E : R) : R := E - e * sin E - M.
Notation step := (@newton_step RArith).
Lemma slope_pos : forall e E, 0 <= e < 1 -> 1 - e <= 1 - e * cos E.
Proof. intros e E H. pose proof (COS_bound E). nra. Qed.
(** the residual after a step is of second order in the step *)
Lemma step_residual : forall e M E, 0 <= e < 1 ->
  Rabs (kep e M (step M e E)) <= e / 2 * (step M e E - E) * (step M e E - E).
Proof.
  intros e M E H. pose proof (slope_pos e E H) as S.
  set (t := E - step M e E).
  assert (Ht : t * (1 - e * cos E) = kep e M E).
  { unfold t, newton_step, kep. cbn [nof nadd nsub nmul ndiv nsin ncos RArith]. field. lra. }
  replace (step M e E) with (E - t) by (unfold t; ring).
  assert (K : kep e M (E - t) = e * rem E t).
  { unfold kep in *. unfold rem. transitivity ((E - e * sin E - M) - t + e * sin E - e * sin (E - t)); [ring|]. rewrite <- Ht. ring. }
  rewrite K, Rabs_mult, (Rabs_right e) by lra. pose proof (rem_bound E t). 
  replace (e / 2 * (E - t - E) * (E - t - E)) with (e * (t * t / 2)) by field.
  apply Rmult_le_compat_l; lra.
Qed.
(** the distance to a solution after a step is of second order in the distance before *)
Lemma step_error : forall e M E X, 0 <= e < 1 -> kep e M X = 0 ->
  Rabs (step M e E - X) <= e / (2 * (1 - e)) * (E - X) * (E - X).
Proof.
  intros e M E X H HX. pose proof (slope_pos e E H) as S.
  assert (K : (step M e E - X) * (1 - e * cos E) = e * rem E (E - X)).
  { unfold newton_step. cbn [nof nadd nsub nmul ndiv nsin ncos RArith]. unfold rem. replace (E - (E - X)) with X by ring.
    transitivity ((E - X) * (1 - e * cos E) - (E - e * sin E - M) + (X - e * sin X - M)).
    - unfold kep in HX. rewrite HX. field. lra.
    - ring. }
  assert (A : Rabs (step M e E - X) * (1 - e * cos E) = e * Rabs (rem E (E - X))).
  { rewrite <- (Rabs_right (1 - e * cos E)) by lra. rewrite <- Rabs_mult, K, Rabs_mult, (Rabs_right e) by lra. auto. }
  pose proof (rem_bound E (E - X)) as B. pose proof (Rabs_pos (step M e E - X)) as P.
  assert (C : Rabs (step M e E - X) * (1 - e) <= e * ((E - X) * (E - X) / 2)).
  { apply Rle_trans with (Rabs (step M e E - X) * (1 - e * cos E)); [nra|]. rewrite A. apply Rmult_le_compat_l; lra. }
  apply (Rmult_le_reg_r (1 - e)); [lra|]. eapply Rle_trans; [apply C|]. right. field. lra.
Qed.
(** there is a solution, within e of the start *)
Lemma kep_root : forall e M, 0 <= e < 1 -> exists X, kep e M X = 0 /\ Rabs (M - X) <= e.
Proof.
  intros e M H.
  assert (C : continuity (kep e M)).
  { unfold kep. repeat first [apply continuity_minus | apply continuity_mult | apply continuity_sin | apply continuity_const; intros ? ?; reflexivity | apply derivable_continuous; apply derivable_id]. }
  destruct (IVT_cor (kep e M) (M - 1) (M + 1) C) as [X [B Z]]; [lra| |].
  - unfold kep. pose proof (SIN_bound (M - 1)). pose proof (SIN_bound (M + 1)).
    assert (M - 1 - e * sin (M - 1) - M <= 0) by nra. assert (0 <= M + 1 - e * sin (M + 1) - M) by nra. nra.
  - exists X. split; [auto|]. unfold kep in Z. replace (M - X) with (- (e * sin X)) by lra.
    rewrite Rabs_Ropp, Rabs_mult, (Rabs_right e) by lra. pose proof (SIN_bound X).
    assert (Rabs (sin X) <= 1) by (apply Rabs_le; lra). nra.
Qed.
(** the solution is unique and near any point with a small residual *)
Lemma kep_near : forall e M E X, 0 <= e < 1 -> kep e M X = 0 -> Rabs (E - X) * (1 - e) <= Rabs (kep e M E).
Proof.
  intros e M E X H HX.
  assert (L : Rabs (sin E - sin X) <= Rabs (E - X)).
  { rewrite form4. rewrite !Rabs_mult, (Rabs_right 2) by lra.
    assert (Rabs (cos ((E + X) / 2)) <= 1) by (apply Rabs_le; pose proof (COS_bound ((E + X) / 2)); lra).
    assert (Q : Rabs (sin ((E - X) / 2)) <= Rabs ((E - X) / 2)).
    { pose proof (cos_lip (PI / 2) ((E - X) / 2)) as Q. rewrite cos_shift, cos_PI2, Rminus_0_r in Q. auto. }
    assert (Rabs ((E - X) / 2) = Rabs (E - X) / 2) by (unfold Rdiv; rewrite Rabs_mult, (Rabs_right (/ 2)) by lra; auto).
    pose proof (Rabs_pos (cos ((E + X) / 2))). pose proof (Rabs_pos (sin ((E - X) / 2))). nra. }
  assert (K : kep e M E = (E - X) - e * (sin E - sin X)) by (unfold kep in *; lra).
  assert (T : Rabs (E - X) <= Rabs (kep e M E) + Rabs (e * (sin E - sin X))).
  { replace (E - X) with (kep e M E + e * (sin E - sin X)) at 1 by (rewrite K; ring). apply Rabs_triang. }
  rewrite Rabs_mult, (Rabs_right e) in T by lra. nra.
Qed.

(** ** the loop *)
Lemma abs_sq : forall x : R, x * x = Rabs x * Rabs x.
Proof. intros x. rewrite <- Rabs_mult. symmetry. apply Rabs_right. nra. Qed.
Notation loop := (@newton_loop RArith).
Lemma loop_S : forall f tol M e E, loop (S f) tol M e E =
  if Rltb tol (Rabs (step M e E - E)) then loop f tol M e (step M e E) else Some (step M e E).
Proof. reflexivity. Qed.
(** what a normal end of the loop says, whatever the number of turns *)
Lemma loop_result : forall f tol M e E r, 0 <= e < 1 -> loop f tol M e E = Some r -> 0 <= tol ->
  Rabs (kep e M r) <= e / 2 * tol * tol.
Proof.
  induction f as [|f IH]; intros tol M e E r H L T; [discriminate L|]. rewrite loop_S in L.
  unfold Rltb in L. destruct (Rlt_dec tol (Rabs (step M e E - E))) as [G|G].
  - apply (IH tol M e _ r H L T).
  - injection L as <-. eapply Rle_trans; [apply step_residual; auto|].
    assert (A : (step M e E - E) * (step M e E - E) = Rabs (step M e E - E) * Rabs (step M e E - E)) by apply abs_sq.
    rewrite !Rmult_assoc, A. apply Rmult_le_compat_l; [lra|]. pose proof (Rabs_pos (step M e E - E)). apply Rmult_le_compat; lra.
Qed.
Lemma loop_more : forall f g tol M e E r, loop f tol M e E = Some r -> (f <= g)%nat -> loop g tol M e E = Some r.
Proof.
  induction f as [|f IH]; intros g tol M e E r L G; [discriminate L|]. destruct g as [|g]; [lia|]. rewrite loop_S in *.
  destruct (Rltb tol (Rabs (step M e E - E))); [apply IH; auto; lia|auto].
Qed.
(** q(k+1) = q(k)^2 bounds k(e)*error; the loop stops once two consecutive errors are below tol/2 *)
Fixpoint sqs (n : nat) (q : R) : R := match n with O => q | S m => sqs m (q * q) end.
Lemma sqs_le : forall n p q, 0 <= p <= q -> sqs n p <= sqs n q.
Proof. induction n as [|n IH]; intros p q H; cbn [sqs]; [lra|]. apply IH. nra. Qed.
Lemma sqs_nonneg : forall n q, 0 <= q -> 0 <= sqs n q.
Proof. induction n as [|n IH]; intros q H; cbn [sqs]; [lra|]. apply IH. nra. Qed.
Lemma loop_ends : forall n tol M e E X q, 0 < e < 1 -> kep e M X = 0 -> 0 <= q <= 1 -> 
  e / (2 * (1 - e)) * Rabs (E - X) <= q -> sqs n q <= e / (2 * (1 - e)) * (tol / 2) ->
  exists r, loop (S n) tol M e E = Some r.
Proof.
  intros n tol M e E X q H HX. set (c := e / (2 * (1 - e))).
  assert (Hc : 0 < c) by (unfold c; apply Rdiv_lt_0_compat; lra).
  assert (Q : forall E q, 0 <= q -> c * Rabs (E - X) <= q -> c * Rabs (step M e E - X) <= q * q).
  { intros E' q' Hq B. pose proof (step_error e M E' X ltac:(lra) HX) as SE. fold c in SE.
    assert (A : (E' - X) * (E' - X) = Rabs (E' - X) * Rabs (E' - X)) by apply abs_sq.
    rewrite Rmult_assoc, A in SE. pose proof (Rabs_pos (E' - X)).
    apply Rle_trans with (c * (c * (Rabs (E' - X) * Rabs (E' - X)))); [nra|].
    replace (c * (c * (Rabs (E' - X) * Rabs (E' - X)))) with ((c * Rabs (E' - X)) * (c * Rabs (E' - X))) by ring.
    apply Rmult_le_compat; nra. }
  revert E q. induction n as [|n IH]; intros E q Hq B S; rewrite loop_S; unfold Rltb; destruct (Rlt_dec tol (Rabs (step M e E - E))) as [G|G].
  - exfalso. cbn [sqs] in S. pose proof (Q E q ltac:(lra) B) as B2.
    assert (Rabs (step M e E - E) <= Rabs (step M e E - X) + Rabs (E - X)).
    { replace (step M e E - E) with ((step M e E - X) + - (E - X)) by ring. eapply Rle_trans; [apply Rabs_triang|]. rewrite Rabs_Ropp. lra. }
    assert (Rabs (E - X) <= tol / 2) by (apply (Rmult_le_reg_l c); lra).
    assert (Rabs (step M e E - X) <= tol / 2) by (apply (Rmult_le_reg_l c); [lra|]; nra). lra.
  - eexists; reflexivity.
  - apply (IH _ (q * q)); [nra| |exact S]. apply Q; lra.
  - eexists; reflexivity.
Qed.
Lemma loop_ends_0 : forall n tol M E, 0 <= tol -> exists r, loop (S (S n)) tol M 0 E = Some r.
Proof.
  intros n tol M E T. 
  assert (ST : forall E, step M 0 E = M).
  { intros E'. change (E' - (E' - 0 * sin E' - M) / (1 - 0 * cos E') = M)%R. field. }
  rewrite loop_S. unfold Rltb. rewrite ST. destruct (Rlt_dec tol (Rabs (M - E))); [|eexists; reflexivity].
  rewrite loop_S, ST. unfold Rltb. replace (M - M) with 0 by ring. rewrite Rabs_R0. destruct (Rlt_dec tol 0); [lra|]. eexists; reflexivity.
Qed.

(** q^(2^n - 1) *)
Fixpoint odds (n : nat) (q : R) : R := match n with O => 1 | S m => q * odds m (q * q) end.
Lemma sqs_odds : forall n q, sqs n q = q * odds n q.
Proof. induction n as [|n IH]; intros q; cbn [sqs odds]; [ring|]. rewrite IH. ring. Qed.
Lemma odds_nonneg : forall n q, 0 <= q -> 0 <= odds n q.
Proof. induction n as [|n IH]; intros q H; cbn [odds]; [lra|]. apply Rmult_le_pos; [auto|]. apply IH. nra. Qed.
Lemma odds_le : forall n p q, 0 <= p <= q -> odds n p <= odds n q.
Proof.
  induction n as [|n IH]; intros p q H; cbn [odds]; [lra|]. apply Rmult_le_compat; [lra| |lra|].
  - apply odds_nonneg. nra.
  - apply IH. nra.
Qed.
Lemma odds_step : forall n p p' b B, 0 <= p -> p * p <= p' -> odds n p' <= b -> p * b <= B -> odds (S n) p <= B.
Proof.
  intros n p p' b B H P O L. cbn [odds]. eapply Rle_trans; [|apply L]. apply Rmult_le_compat_l; [auto|].
  eapply Rle_trans; [|apply O]. apply odds_le. nra.
Qed.
Lemma odds_pow : forall n q, 0 <= q <= 1 -> odds n q <= q ^ n.
Proof.
  induction n as [|n IH]; intros q H; cbn [odds pow]; [lra|]. apply Rmult_le_compat_l; [lra|].
  eapply Rle_trans; [apply IH; nra|]. apply pow_incr. nra.
Qed.
Lemma odds_half : forall q, 0 <= q <= (1 / 4) -> odds 4 q <= (18626453 / 20000000000000000).
Proof.
  intros q H.
  apply Rle_trans with (odds 4 (1 / 4)); [apply odds_le; lra|].
  apply (odds_step _ _ (1 / 16) (18626453 / 5000000000000000)); [lra|lra| |lra].
  apply (odds_step _ _ (1 / 256) (59604649 / 1000000000000000)); [lra|lra| |lra].
  apply (odds_step _ _ (1525879 / 100000000000) (1525879 / 100000000000)); [lra|lra| |lra].
  cbn [odds]. lra.
Qed.

Lemma odds_73 : forall q, 0 <= q <= (987 / 1000) -> odds 11 q <= (2911557 / 1250000000000000000).
Proof.
  intros q H.
  apply Rle_trans with (odds 11 (987 / 1000)); [apply odds_le; lra|].
  apply (odds_step _ _ (974169 / 1000000) (11799623 / 5000000000000000000)); [lra|lra| |lra].
  apply (odds_step _ _ (3796021 / 4000000) (12112501 / 5000000000000000000)); [lra|lra| |lra].
  apply (odds_step _ _ (90061097 / 100000000) (25526731 / 10000000000000000000)); [lra|lra| |lra].
  apply (odds_step _ _ (20277503 / 25000000) (1771487 / 625000000000000000)); [lra|lra| |lra].
  apply (odds_step _ _ (65788341 / 100000000) (17472437 / 5000000000000000000)); [lra|lra| |lra].
  apply (odds_step _ _ (43281059 / 100000000) (26558561 / 5000000000000000000)); [lra|lra| |lra].
  apply (odds_step _ _ (18732501 / 100000000) (6136301 / 500000000000000000)); [lra|lra| |lra].
  apply (odds_step _ _ (1754533 / 50000000) (65515021 / 1000000000000000000)); [lra|lra| |lra].
  apply (odds_step _ _ (2462709 / 2000000000) (2333777 / 1250000000000000)); [lra|lra| |lra].
  apply (odds_step _ _ (758117 / 500000000000) (758117 / 500000000000)); [lra|lra| |lra].
  cbn [odds]. lra.
Qed.


Notation solver := (@newton_solver RArith).
Lemma tol_R : @nlit RArith 1 8 = 1 / 100000000.
Proof. reflexivity. Qed.
Lemma solver_ends : forall n e M, 0 < e < 1 -> e / (2 * (1 - e)) * e <= 1 ->
  e * odds n (e / (2 * (1 - e)) * e) <= 1 / 200000000 ->
  exists r, solver (S n) M e = Some r.
Proof.
  intros n e M H Q B. destruct (kep_root e M ltac:(lra)) as [X [HX D]].
  assert (Hc : 0 < e / (2 * (1 - e))) by (apply Rdiv_lt_0_compat; lra).
  unfold newton_solver. rewrite tol_R. apply (loop_ends n _ M e M X (e / (2 * (1 - e)) * e)); auto.
  - split; [nra|lra].
  - apply Rmult_le_compat_l; lra.
  - rewrite sqs_odds, Rmult_assoc. apply Rmult_le_compat_l; lra.
Qed.
Lemma solver_ends_0 : forall M n, exists r, solver (S (S n)) M 0 = Some r.
Proof. intros M n. unfold newton_solver. rewrite tol_R. apply loop_ends_0. lra. Qed.
(** k(e)*e grows with e *)
Lemma rate_le : forall e b q, 0 <= e <= b -> b < 1 -> b * b <= q * (2 * (1 - b)) -> 0 <= e / (2 * (1 - e)) * e <= q.
Proof.
  intros e b q H L B. split.
  - apply Rmult_le_pos; [|lra]. apply Rmult_le_pos; [lra|]. left. apply Rinv_0_lt_compat. lra.
  - apply (Rmult_le_reg_r (2 * (1 - e))); [lra|]. replace (e / (2 * (1 - e)) * e * (2 * (1 - e))) with (e * e) by (field; lra).
    assert (0 <= q).
    { destruct (Rle_dec 0 q); [auto|]. exfalso. assert (q * (2 * (1 - b)) < 0) by nra. nra. }
    assert (q * (2 * (1 - b)) <= q * (2 * (1 - e))) by (apply Rmult_le_compat_l; lra). nra.
Qed.
