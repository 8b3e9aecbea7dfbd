(** Property C68: the normal draws. *)
From Coq Require Import ZArith Reals Lra Lia.
From Coquelicot Require Import Coquelicot.
From Flocq Require Import Core IEEE754.BinarySingleNaN.
From Verif Require Import Base Arith B64 Rand RandRange Digits NormalLaw.
Open Scope R_scope.

(** two uniform numbers u, v, and what rand_func.c:32-44 makes of them *)
Definition pi64 : R := 3141592653589793 / 1000000000000000.
Definition box_muller (u v : R) : R := sqrt (-2 * ln u) * cos (2 * pi64 * v).
Definition u48 (g : Z) : R := IZR (lcg g) / IZR (2 ^ 48).
Lemma r8_pi_R : @r8_pi RArith = pi64.
Proof. unfold r8_pi, nlit, pi64. cbn [ndiv nof RArith]. f_equal. Qed.
Lemma draw_R : forall g, fst (@r8_normal_01 RArith g) = box_muller (u48 g) (u48 (lcg g)).
Proof. intros g. unfold r8_normal_01, drand48. cbn [fst]. rewrite r8_pi_R. reflexivity. Qed.

(** A draw is the Box-Muller transform of two consecutive uniform numbers.  [Phi] is the normal distribution function
    1/2 + (2 pi)^(-1/2) * the integral of exp (-s^2/2) from 0 to t.  The numbers u for which the transform exceeds t > 0 (is below
    -t) at v are those below [up t v] ([down t v]); the area of these parts of the unit square is the normal probability, up to
    10^-15, which the literal 3.141592653589793 costs. *)
Theorem C68_law :
  (forall g, fst (@r8_normal_01 RArith g) = box_muller (u48 g) (u48 (lcg g))) /\
  exists up down : R -> R -> R,
    (forall t u v, 0 < t -> 0 < u <= 1 -> 0 <= up t v <= 1 /\ (t < box_muller u v <-> u < up t v)) /\
    (forall t u v, 0 < t -> 0 < u <= 1 -> 0 <= down t v <= 1 /\ (box_muller u v < - t <-> u < down t v)) /\
    (forall t, 0 < t -> ex_RInt (up t) 0 1 /\ Rabs (RInt (up t) 0 1 - (1 - Phi t)) <= / 10 ^ 15) /\
    (forall t, 0 < t -> ex_RInt (down t) 0 1 /\ Rabs (RInt (down t) 0 1 - Phi (- t)) <= / 10 ^ 15).
Proof.
  split; [exact draw_R|]. exists (fun t v => over t (cos (2 * pi64 * v))), (fun t v => over t (- cos (2 * pi64 * v))).
  assert (D : 2 * Rabs (PI - pi64) / PI <= / 10 ^ 15).
  { destruct PI_bounds as [L U]. assert (A : Rabs (PI - pi64) <= 1 / 1000000000000000) by (unfold pi64; apply Rabs_le; lra).
    assert (P : 0 < PI) by apply PI_RGT_0. apply Rmult_le_reg_r with PI; auto. replace (2 * Rabs (PI - pi64) / PI * PI) with (2 * Rabs (PI - pi64)) by (field; lra).
    replace (10 ^ 15) with 1000000000000000 by ring. lra. }
  assert (P0 : 0 < pi64) by (unfold pi64; lra).
  split; [|split; [|split]].
  - intros t u v Ht Hu. split; [apply over_range|]. apply beyond; auto.
  - intros t u v Ht Hu. split; [apply over_range|]. rewrite <- beyond by auto. unfold box_muller.
    replace (sqrt (-2 * ln u) * - cos (2 * pi64 * v)) with (- (sqrt (-2 * ln u) * cos (2 * pi64 * v))) by ring. split; lra.
  - intros t Ht. split; [|eapply Rle_trans; [apply (normal_law pi64 t P0 Ht)|exact D]]. apply ex_RInt_c. intros s.
    apply (cont_lin (fun th : R => over t (cos th)) (2 * pi64) s). apply h_cont. lra.
  - intros t Ht. split; [|eapply Rle_trans; [apply (normal_law pi64 t P0 Ht)|exact D]]. apply ex_RInt_c. intros s.
    apply (cont_lin (fun th : R => over t (- cos th)) (2 * pi64) s). intros s'.
    apply (continuous_comp (fun th => - cos th) (over t)); [|apply over_cont; lra]. apply (ex_derive_continuous (fun th => - cos th)). auto_derive. auto.
Qed.
Print Assumptions C68_law.
(** [Phi] is a distribution function: it is increasing, has the limits 0 and 1, and the Gaussian tails *)
Theorem C68_phi : (forall t, is_derive Phi t (exp (- (t * t) / 2) / sqrt (2 * PI))) /\ Phi 0 = 1 / 2 /\ (forall t, Phi (- t) = 1 - Phi t) /\
  forall t, 0 <= t -> 0 <= 1 - Phi t <= exp (- (t * t) / 2).
Proof.
  split; [|split; [|split; [exact Phi_odd|exact Phi_tail]]].
  - intros t. unfold Phi. replace (exp (- (t * t) / 2) / sqrt (2 * PI)) with (0 + gauss t * / sqrt (2 * PI)) by (unfold gauss, Rdiv; ring).
    apply (is_derive_plus (fun _ => 1 / 2) (fun t => E t * / sqrt (2 * PI))); [apply (is_derive_const (K := R_AbsRing) (V := R_NormedModule) (1 / 2))|].
    apply (is_derive_scal_l (K := R_AbsRing) (V := R_NormedModule) E t (gauss t) (/ sqrt (2 * PI))). apply E_derive.
  - unfold Phi. rewrite (RInt_point (V := R_CompleteNormedModule)). unfold zero. cbn. unfold Rdiv. rewrite Rmult_0_l. ring.
Qed.
Print Assumptions C68_phi.

(** [normal_pdf] (rand_func.c:200-206) is the density of the normal law with the given mean and standard deviation, to 10^-14 *)
Theorem C68_pdf : forall x mean sd, 0 < sd ->
  let d := Derive (fun y => Phi ((y - mean) / sd)) x in
  0 < d /\ Rabs (@normal_pdf RArith x mean sd - d) <= / 10 ^ 14 * d.
Proof.
  intros x mean sd Hs. pose proof PI_RGT_0 as HP. set (s := sqrt (2 * PI)). assert (S0 : 0 < s) by (apply sqrt_lt_R0; lra).
  assert (SS : s * s = 2 * PI) by (apply sqrt_sqrt; lra).
  assert (D : is_derive (fun y => Phi ((y - mean) / sd)) x (/ sd * (gauss ((x - mean) / sd) / s))).
  { apply (is_derive_comp Phi (fun y => (y - mean) / sd)); [apply C68_phi|]. auto_derive; [lra|]. field. lra. }
  cbv zeta. assert (DU : Derive (fun y => Phi ((y - mean) / sd)) x = / sd * (gauss ((x - mean) / sd) / s)) by (apply is_derive_unique; exact D). rewrite DU. set (z := (x - mean) / sd). pose proof (gauss_pos z) as G.
  assert (P : 0 < / sd * (gauss z / s)) by (apply Rmult_lt_0_compat; [apply Rinv_0_lt_compat|apply Rdiv_lt_0_compat]; auto). split; [exact P|].
  set (c := 3989422804014327 / 10000000000000000).
  assert (EP : @normal_pdf RArith x mean sd = c * s * (/ sd * (gauss z / s)) :> R).
  { assert (Z : - (5 / 10) * z * z = - (z * z) / 2) by field. transitivity (c / sd * exp (- (5 / 10) * z * z)); [reflexivity|]. rewrite Z. unfold gauss. field. lra. }
  rewrite EP. replace (c * s * (/ sd * (gauss z / s)) - / sd * (gauss z / s)) with ((c * s - 1) * (/ sd * (gauss z / s))) by ring.
  rewrite Rabs_mult, (Rabs_pos_eq (/ sd * _)) by lra. apply Rmult_le_compat_r; [lra|].
  assert (Y : 0 < c * s) by (apply Rmult_lt_0_compat; [unfold c; lra|auto]).
  assert (Y2 : Rabs (c * s * (c * s) - 1) <= / 10 ^ 14).
  { replace (c * s * (c * s)) with (c * c * (2 * PI)) by (rewrite <- SS; ring). destruct PI_bounds as [L U]. replace (10 ^ 14) with 100000000000000 by ring.
    apply Rabs_le. unfold c. lra. }
  eapply Rle_trans; [|exact Y2]. replace (c * s * (c * s) - 1) with ((c * s - 1) * (c * s + 1)) by ring. rewrite Rabs_mult.
  rewrite (Rabs_pos_eq (c * s + 1)) by lra. rewrite <- (Rmult_1_r (Rabs (c * s - 1))) at 1. apply Rmult_le_compat_l; [apply Rabs_pos|lra].
Qed.
Print Assumptions C68_pdf.

(** ** the draws of the 48-bit generator *)
Lemma u48_ln : forall g, 1 <= IZR (lcg g) -> ln (u48 g) = ln (IZR (lcg g)) - 48 * ln 2.
Proof.
  intros g H. assert (M : 0 < IZR (2 ^ 48)) by (apply IZR_lt; reflexivity). unfold u48, Rdiv. rewrite ln_mult, ln_Rinv; auto; [|lra|apply Rinv_0_lt_compat; auto].
  replace (IZR (2 ^ 48)) with (2 ^ 48) by (rewrite (pow_IZR 2 48); reflexivity). rewrite ln_pow by lra. rewrite INR_IZR_INZ. change (Z.of_nat 48) with 48%Z. ring.
Qed.
Lemma lcg_bounds : forall g, (0 <= lcg g < 2 ^ 48)%Z.
Proof. intros g. apply Z.mod_pos_bound. reflexivity. Qed.
(** no draw is larger than 8.17 in size (u = 0 aside, where the code takes the logarithm of 0) *)
Theorem C68_bounded : forall g, lcg g <> 0%Z -> Rabs (fst (@r8_normal_01 RArith g)) <= 817 / 100.
Proof.
  intros g Hg. rewrite draw_R. pose proof (lcg_bounds g) as B. assert (K1 : 1 <= IZR (lcg g)) by (apply IZR_le; lia).
  unfold box_muller. rewrite Rabs_mult. rewrite (Rabs_pos_eq (sqrt _)) by apply sqrt_pos.
  assert (C : Rabs (cos (2 * pi64 * u48 (lcg g))) <= 1) by (apply Rabs_le; apply COS_bound).
  apply Rle_trans with (sqrt (-2 * ln (u48 g)) * 1); [apply Rmult_le_compat_l; [apply sqrt_pos|auto]|]. rewrite Rmult_1_r.
  rewrite <- (sqrt_square (817 / 100)) by lra. apply sqrt_le_1_alt. rewrite u48_ln by auto.
  assert (0 <= ln (IZR (lcg g))) by (rewrite <- ln_1; destruct K1 as [K|K]; [left; apply ln_increasing; lra|rewrite <- K; lra]).
  pose proof ln2_bounds. lra.
Qed.
Print Assumptions C68_bounded.
(** The draws are not symmetric: some exceed 8.15, but none is below -7.17.  The second uniform number is a function of the first,
    and follows the small ones into the first quarter of the circle. *)
Theorem C68_symmetric_refuted : (exists g, lcg g <> 0%Z /\ 815 / 100 < fst (@r8_normal_01 RArith g)) /\
  forall g, lcg g <> 0%Z -> - (717 / 100) < fst (@r8_normal_01 RArith g).
Proof.
  pose proof ln2_bounds as [LN1 LN2]. split.
  - exists 71727733358094%Z. assert (E1 : lcg 71727733358094 = 1%Z) by (vm_compute; reflexivity). split; [rewrite E1; discriminate|].
    rewrite draw_R. unfold box_muller. rewrite u48_ln by (rewrite E1; lra). rewrite E1, ln_1. unfold u48. change (lcg 1) with 25214903928%Z.
    set (x := 2 * pi64 * (IZR 25214903928 / IZR (2 ^ 48))).
    assert (X : 0 < x < 1 / 1000).
    { unfold x, pi64. change (2 ^ 48)%Z with 281474976710656%Z. lra. }
    assert (C : 1 - x * x / 2 <= cos x).
    { replace x with (2 * (x / 2)) at 3 by field. rewrite cos_2a_sin. assert (S : 0 <= sin (x / 2) <= x / 2).
      { split; [apply sin_ge_0; pose proof PI2_3_2; lra|left; apply sin_lt_x; lra]. }
      assert (sin (x / 2) * sin (x / 2) <= x / 2 * (x / 2)) by (apply Rmult_le_compat; lra). lra. }
    assert (XX : x * x <= 1 / 1000000) by (apply Rle_trans with (1 / 1000 * (1 / 1000)); [apply Rmult_le_compat; lra|lra]).
    assert (S : 81505 / 10000 <= sqrt (-2 * (0 - 48 * ln 2))).
    { rewrite <- (sqrt_square (81505 / 10000)) by lra. apply sqrt_le_1_alt. lra. }
    apply Rlt_le_trans with (81505 / 10000 * (1 - 1 / 2000000)); [lra|]. apply Rmult_le_compat; lra.
  - intros g Hg. rewrite draw_R. pose proof (lcg_bounds g) as B. assert (K1 : 1 <= IZR (lcg g)) by (apply IZR_le; lia).
    unfold box_muller. rewrite u48_ln by auto. destruct (Z_le_gt_dec (lcg g) 2048) as [K|K].
    + assert (C : 0 <= cos (2 * pi64 * u48 (lcg g))).
      { assert (E2 : (0 <= lcg (lcg g) <= 51640123222027)%Z).
        { set (k := lcg g) in *. assert (Ek : lcg k = (25214903917 * k + 11)%Z) by (apply Z.mod_small; unfold LCG_A, LCG_C, RMOD; lia). rewrite Ek. lia. }
        destruct E2 as [E2 E3]. apply IZR_le in E2, E3. assert (V : 0 <= u48 (lcg g) <= 1 / 5).
        { unfold u48. change (2 ^ 48)%Z with 281474976710656%Z. split; [apply Rmult_le_pos; [auto|lra]|]. lra. }
        apply cos_ge_0; pose proof PI2_3_2; unfold pi64; lra. }
      pose proof (Rmult_le_pos _ _ (sqrt_pos (-2 * (ln (IZR (lcg g)) - 48 * ln 2))) C). lra.
    + assert (L : 11 * ln 2 < ln (IZR (lcg g))).
      { replace (11 * ln 2) with (ln 2048); [apply ln_increasing; [lra|apply IZR_lt; lia]|]. replace 2048 with (2 ^ 11) by ring. rewrite ln_pow by lra.
        rewrite INR_IZR_INZ. reflexivity. }
      assert (S : sqrt (-2 * (ln (IZR (lcg g)) - 48 * ln 2)) < 717 / 100).
      { rewrite <- (sqrt_square (717 / 100)) by lra. destruct (Rle_lt_dec 0 (-2 * (ln (IZR (lcg g)) - 48 * ln 2))) as [P|P].
        - apply sqrt_lt_1_alt. lra.
        - rewrite sqrt_neg_0 by lra. apply sqrt_lt_R0. lra. }
      pose proof (sqrt_pos (-2 * (ln (IZR (lcg g)) - 48 * ln 2))) as S0. set (r := sqrt _) in *.
      pose proof (COS_bound (2 * pi64 * u48 (lcg g))) as [C1 C2]. set (c := cos _) in *.
      assert (r * -1 <= r * c) by (apply Rmult_le_compat_l; auto). lra.
Qed.
Print Assumptions C68_symmetric_refuted.

(** In doubles one generator state gives an infinite draw: the logarithm is taken of 0 (and is -inf, as C11 F.10.3.7 has it). *)
Theorem C68_finite_refuted : exists g, (0 <= g < 2 ^ 48)%Z /\ forall L : Libm, l_log L (B754_zero false) = B754_infinity true ->
  (forall x, is_finite x = true -> Bltb x (bof 1) = true -> exists m e H, l_cos L x = B754_finite false m e H) ->
  fst (@r8_normal_01 (B64 L) g) = B754_infinity false.
Proof.
  exists 107048004364969%Z. split; [lia|]. intros L HL HC. unfold r8_normal_01, drand48.
  assert (E1 : lcg 107048004364969 = 0%Z) by (vm_compute; reflexivity). rewrite E1. cbn [fst].
  assert (E0 : @ndiv (B64 L) (nof 0) (nof RMOD) = B754_zero false) by (vm_compute; reflexivity).
  rewrite E0. change (nlog (B754_zero false : num (B64 L))) with (l_log L (B754_zero false)). rewrite HL.
  set (y := nmul (nmul (nof 2) r8_pi) (ndiv (nof (lcg 0)) (nof RMOD))).
  destruct (HC y) as [m [e [H EC]]]; [vm_compute; reflexivity|vm_compute; reflexivity|].
  change (ncos y) with (l_cos L y). rewrite EC. reflexivity.
Qed.
Print Assumptions C68_finite_refuted.

(** a point of the unit square beyond 1, and one that is not *)
Example C68_case : 0 < 1 /\ over 1 (cos 0) = exp (- (1) / 2) /\ (1 < box_muller (exp (-2)) 0) /\ ~ (1 < box_muller (exp (- (1) / 8)) 0) /\ lcg 1 <> 0%Z.
Proof.
  split; [lra|]. split.
  - rewrite cos_0. unfold over. destruct (Rlt_dec 0 1); [|lra]. f_equal. field.
  - unfold box_muller. rewrite !Rmult_0_r, cos_0, !Rmult_1_r, !ln_exp. replace (-2 * -2) with (2 * 2) by ring. rewrite sqrt_square by lra.
    replace (-2 * (- (1) / 8)) with (1 / 2 * (1 / 2)) by field. rewrite sqrt_square by lra. split; [lra|]. split; [lra|]. vm_compute. discriminate.
Qed.
