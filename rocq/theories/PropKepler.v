(** Property C87: the loop of the Kepler solver in binary64. *)
From Coq Require Import ZArith Reals List Bool Lia Lra Psatz.
From Flocq Require Import Core IEEE754.BinarySingleNaN.
From Verif Require Import Base Arith B64 B64Facts UserModels UserOld Kepler OrbFacts Kepler64 Orb64 Cycle64.
Import ListNotations.
Open Scope R_scope.

(** The loop of newton_solver has no bound on its turns.  In binary64, with a sine and a cosine that are within 2^-40 of the true ones (those
    of a C library are within 2^-52), for every eccentricity of the prior range of the shipped file and every mean anomaly up to 2^20 it ends
    after at most five turns, at a double within 10^-9 of the solution of Kepler's equation; [fuel] bounds the turns in the model, and from
    five on the answer does not depend on it. *)
Theorem C87_ends : forall L,
  (forall x : b64, is_finite x = true -> Rabs (B2R x) <= 2 ^ 20 + 2 ->
    (is_finite (l_sin L x) = true /\ Rabs (B2R (l_sin L x) - sin (B2R x)) <= / 2 ^ 40) /\
    (is_finite (l_cos L x) = true /\ Rabs (B2R (l_cos L x) - cos (B2R x)) <= / 2 ^ 40)) ->
  forall M e : b64, is_finite M = true -> Rabs (B2R M) <= 2 ^ 20 -> is_finite e = true -> 0 <= B2R e <= 1 / 2 ->
  exists r : b64, is_finite r = true /\
    (forall X, X - B2R e * sin X = B2R M -> Rabs (B2R r - X) <= 1 / 10 ^ 9) /\
    forall fuel, (5 <= fuel)%nat -> @newton_solver (B64 L) fuel M e = Some r.
Proof.
  intros L TL M e FM HM Fe He.
  assert (TL' : trig_near L (IZR (2 ^ 20 + 2)) (bp (-40))).
  { intros x Fx Hx. change (bp (-40)) with (/ IZR (2 ^ 40)). change (2 ^ 40)%Z with (Z.pow 2 (Z.of_nat 40)). rewrite <- (pow_IZR 2 40). apply TL; auto. change (IZR (2 ^ 20 + 2)) with 1048578 in Hx. lra. }
  assert (HM' : Rabs (B2R M) <= IZR (2 ^ 20)) by (change (IZR (2 ^ 20)) with 1048576; lra).
  destruct (kep_root (B2R e) (B2R M) ltac:(lra)) as [X [HX _]]. assert (KX : X - B2R e * sin X = B2R M) by (unfold kep in HX; lra).
  destruct (solver_64 L TL' e M Fe He FM HM' X KX) as (r & Fr & Hr & R). exists r. split; [auto|]. split; [|exact R].
  intros Y HY. pose proof (kep_near (B2R e) (B2R M) Y X ltac:(lra) HX) as N. replace (kep (B2R e) (B2R M) Y) with 0 in N by (unfold kep; lra). rewrite Rabs_R0 in N.
  pose proof (Rabs_pos (Y - X)). assert (Z : Rabs (Y - X) = 0) by nra. destruct (Req_dec (Y - X) 0) as [W|W]; [|apply Rabs_no_R0 in W; lra].
  replace Y with X by lra. lra.
Qed.

(** The orbit likelihood returns a value for every point of the prior box of the shipped file (periods from half a day, eccentricities up to
    one half, angles up to 360 degrees) when the times of the observations are at most 65536 days; those of the shipped file are at most
    1826.25 days.  The other parameters, the rest of the data and the other library functions are arbitrary. *)
Theorem C87_orbit : forall L,
  (forall x : b64, is_finite x = true -> Rabs (B2R x) <= 2 ^ 20 + 2 ->
    (is_finite (l_sin L x) = true /\ Rabs (B2R (l_sin L x) - sin (B2R x)) <= / 2 ^ 40) /\
    (is_finite (l_cos L x) = true /\ Rabs (B2R (l_cos L x) - cos (B2R x)) <= / 2 ^ 40)) ->
  forall (x : list b64) nline (data : list b64) (beta : b64), length data = Z.to_nat (2 * nline) ->
  (forall i lo hi, In (i, lo, hi) [(1%nat, 0, 1 / 2); (9%nat, 0, 1 / 2); (7%nat, 1 / 2, 3000); (14%nat, 1 / 2, 3000); (4%nat, 0, 360); (12%nat, 0, 360)] ->
    is_finite (nth i x (bof 0)) = true /\ lo <= B2R (nth i x (bof 0)) <= hi) ->
  (forall i, (4 * i < length data)%nat -> is_finite (nth (4 * i) data (bof 0)) = true /\ -65536 <= B2R (nth (4 * i) data (bof 0)) <= 65536) ->
  exists v, forall fuel, (5 <= fuel)%nat -> @orb_logll (B64 L) fuel x nline data beta = OK v.
Proof.
  intros L TL x nline data beta LD HX HT.
  assert (TL' : trig_near L (IZR (2 ^ 20 + 2)) (bp (-40))).
  { intros y Fx Hx. change (bp (-40)) with (/ IZR (2 ^ 40)). change (2 ^ 40)%Z with (Z.pow 2 (Z.of_nat 40)). rewrite <- (pow_IZR 2 40). apply TL; auto. change (IZR (2 ^ 20 + 2)) with 1048578 in Hx. lra. }
  destruct (orb_64 L TL' x nline data LD) as [v V].
  - apply (HX 1%nat). simpl. tauto.
  - apply (HX 9%nat). simpl. tauto.
  - destruct (HX 7%nat (1 / 2) 3000 ltac:(simpl; tauto)) as [F B]. split; [exact F|]. change (@xi (B64 L) x 7) with (nth 7 x (bof 0)). lra.
  - destruct (HX 14%nat (1 / 2) 3000 ltac:(simpl; tauto)) as [F B]. split; [exact F|]. change (@xi (B64 L) x 14) with (nth 14 x (bof 0)). lra.
  - destruct (HX 4%nat 0 360 ltac:(simpl; tauto)) as [F B]. split; [exact F|]. change (@xi (B64 L) x 4) with (nth 4 x (bof 0)). lra.
  - destruct (HX 12%nat 0 360 ltac:(simpl; tauto)) as [F B]. split; [exact F|]. change (@xi (B64 L) x 12) with (nth 12 x (bof 0)). lra.
  - intros i Hi. apply HT. rewrite LD.
    destruct (Z.le_gt_cases 0 nline) as [K|K].
    + rewrite Z.quot_div_nonneg in Hi by lia. pose proof (Z.mul_div_le nline 2 ltac:(lia)). lia.
    + assert (Z.quot nline 2 <= 0)%Z; [|lia]. rewrite <- (Z.opp_involutive nline), Z.quot_opp_l by lia. rewrite Z.quot_div_nonneg by lia.
      pose proof (Z.div_pos (- nline) 2 ltac:(lia) ltac:(lia)). lia.
  - exists (Bmult mode_NE v beta). intros fuel Hf. unfold orb_logll. rewrite (V fuel Hf). reflexivity.
Qed.

(** A NaN ends the loop: after one turn the comparison with the tolerance is false. *)
Theorem C87_nan : forall L (M e : b64) fuel, (1 <= fuel)%nat -> M = B754_nan \/ e = B754_nan -> @newton_solver (B64 L) fuel M e = Some B754_nan.
Proof.
  intros L M e fuel Hf H. destruct fuel as [|f]; [lia|]. unfold newton_solver. cbn [newton_loop].
  assert (S : @newton_step (B64 L) M e M = B754_nan).
  { unfold newton_step. cbn [B64 nsub nmul ndiv nsin ncos nof]. destruct H as [-> | ->].
    - reflexivity.
    - destruct M as [s|s| |s m x P]; destruct (l_sin L _); reflexivity. }
  rewrite S. cbn [B64 nltb nabs nsub]. replace (Bltb _ _) with false; [reflexivity|].
  symmetry. unfold Bltb, SpecFloat.SFltb. destruct M; destruct (@nlit (B64 L) 1 8); reflexivity.
Qed.

(** Without the bound on the mean anomaly this is false, whatever the library, as soon as its sine and cosine are right to within 2^-30: for the
    mean anomaly 67109059.213027..., which lies one and a half steps of the doubles below an odd multiple of pi, and the eccentricity 1/2 of the
    prior range, the loop goes back and forth between two neighbouring doubles, whose distance 2^-26 is above the tolerance 10^-8. *)
Theorem C87_large_refuted : exists M e : b64, is_finite M = true /\ Rabs (B2R M) <= 2 ^ 27 /\ is_finite e = true /\ 0 <= B2R e <= 1 / 2 /\
  forall L,
  (forall x : b64, is_finite x = true -> Rabs (B2R x) <= 2 ^ 27 ->
    (is_finite (l_sin L x) = true /\ Rabs (B2R (l_sin L x) - sin (B2R x)) <= / 2 ^ 30) /\
    (is_finite (l_cos L x) = true /\ Rabs (B2R (l_cos L x) - cos (B2R x)) <= / 2 ^ 30)) ->
  forall fuel, @newton_solver (B64 L) fuel M e = None.
Proof.
  exists m_cycle, e_half. split; [reflexivity|]. split; [rewrite m_cycle_R, Rabs_right; lra|]. split; [reflexivity|]. split; [rewrite e_half_R; lra|].
  intros L TL. apply cycle_64. intros x Fx Hx. replace (u / 16) with (/ 2 ^ 30) by lra. apply TL; auto. change (IZR (2 ^ 27)) with 134217728 in Hx. lra.
Qed.

(** Nor does the loop end for every eccentricity below 1, even in exact arithmetic: with tan a = 2a + pi/2, the eccentricity sin a and the mean
    anomaly pi/2 - a, it goes back and forth between pi/2 - a and pi + a. *)
Theorem C87_eccentric_refuted : exists M e, 0 < e < 1 /\ forall fuel, @newton_solver RArith fuel M e = None.
Proof. exact cycle_real. Qed.

Print Assumptions C87_ends.
Print Assumptions C87_orbit.
Print Assumptions C87_nan.
Print Assumptions C87_large_refuted.
Print Assumptions C87_eccentric_refuted.

(** a library whose sine and cosine are correctly rounded meets the conditions *)
Definition to_b64 (r : R) : b64 := binary_normalize prec emax _ _ mode_NE (ZnearestE (scaled_mantissa radix2 fexp64 r)) (cexp radix2 fexp64 r) false.
Lemma to_b64_ok : forall r, Rabs r <= 1 -> is_finite (to_b64 r) = true /\ Rabs (B2R (to_b64 r) - r) <= / 2 ^ 54.
Proof.
  intros r H. unfold to_b64.
  pose proof (binary_normalize_correct prec emax _ _ mode_NE (ZnearestE (scaled_mantissa radix2 fexp64 r)) (cexp radix2 fexp64 r) false) as C. cbv zeta in C.
  change (F2R (Float radix2 (ZnearestE (scaled_mantissa radix2 fexp64 r)) (cexp radix2 fexp64 r))) with (rnd r) in C.
  change (round radix2 (SpecFloat.fexp prec emax) (round_mode mode_NE)) with rnd in C.
  rewrite (rnd_id (rnd r)) in C by (apply generic_format_round; [apply valid64|apply valid_rnd_N]).
  rewrite Rlt_bool_true in C by (apply (rnd_small r 0); [lia|exact H]). destruct C as [V [F _]]. split; [exact F|]. rewrite V.
  eapply Rle_trans; [apply (rnd_err r 0); [lia|exact H]|]. change (bp (0 - 54)) with (/ IZR (2 ^ 54)). right. f_equal. change (2 ^ 54)%Z with (Z.pow 2 (Z.of_nat 54)). rewrite <- (pow_IZR 2 54). reflexivity.
Qed.
Definition rounded_libm : Libm := mkLibm (fun x => x) (fun x => x) (fun x => to_b64 (cos (B2R x))) (fun x => to_b64 (sin (B2R x))) (fun x _ => x).
Lemma rounded_near : forall k, (k <= 54)%nat -> forall x : b64,
    (is_finite (l_sin rounded_libm x) = true /\ Rabs (B2R (l_sin rounded_libm x) - sin (B2R x)) <= / 2 ^ k) /\
    (is_finite (l_cos rounded_libm x) = true /\ Rabs (B2R (l_cos rounded_libm x) - cos (B2R x)) <= / 2 ^ k).
Proof.
  intros k Hk x. assert (K : / 2 ^ 54 <= / 2 ^ k) by (apply Rinv_le_contravar; [apply pow_lt; lra|apply Rle_pow; [lra|auto]]).
  cbn [rounded_libm l_sin l_cos]. split.
  - destruct (to_b64_ok (sin (B2R x))) as [F E]; [apply Rabs_le, SIN_bound|]. split; [auto|lra].
  - destruct (to_b64_ok (cos (B2R x))) as [F E]; [apply Rabs_le, COS_bound|]. split; [auto|lra].
Qed.
Example C87_case : (exists r : b64, forall fuel, (5 <= fuel)%nat -> @newton_solver (B64 rounded_libm) fuel (bof 1000) e_half = Some r) /\
  forall fuel, @newton_solver (B64 rounded_libm) fuel m_cycle e_half = None.
Proof.
  split.
  - destruct (bof_ok 1000 ltac:(lia)) as [V F].
    destruct (C87_ends rounded_libm (fun x _ _ => rounded_near 40 ltac:(lia) x) (bof 1000) e_half F ltac:(rewrite V, Rabs_right; lra) eq_refl ltac:(rewrite e_half_R; lra)) as (r & _ & _ & R).
    exists r. exact R.
  - apply cycle_64. intros x _ _. replace (u / 16) with (/ 2 ^ 30) by lra. apply rounded_near. lia.
Qed.
Example C87_orbit_case : exists v, forall fuel, (5 <= fuel)%nat ->
  @orb_logll (B64 rounded_libm) fuel (repeat e_half 4 ++ [bof 90; bof 10; bof 1; bof 300; e_half; e_half; bof 10; bof 20; bof 30; bof 5; bof 700]) 2 [bof 1826; bof 3; bof 1826; bof (-2)] e_half = OK v.
Proof.
  apply (C87_orbit rounded_libm (fun x _ _ => rounded_near 40 ltac:(lia) x)); [reflexivity| |].
  - pose proof e_half_R as EH.
    intros i lo hi H. simpl In in H. repeat destruct H as [H|H]; try contradiction; injection H as <- <- <-; cbn [repeat app nth]; try (split; [reflexivity|rewrite EH; lra]);
      match goal with |- is_finite (bof ?z) = true /\ _ => destruct (bof_ok z ltac:(lia)) as [V F]; rewrite V; split; [auto|lra] end.
  - intros i Hi. cbn [length] in Hi. replace i with 0%nat by lia. change (nth (4 * 0) [bof 1826; bof 3; bof 1826; bof (-2)] (bof 0)) with (bof 1826). destruct (bof_ok 1826 ltac:(lia)) as [V F]. rewrite V. split; [auto|lra].
Qed.
