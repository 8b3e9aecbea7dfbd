(** Property C92: the adaptation of three betas in binary64. *)
From Coq Require Import ZArith Arith List Bool Reals Lia Lra Psatz.
From Flocq Require Import Core Relative IEEE754.BinarySingleNaN.
From Verif Require Import Base Arith B64 Rand Mh Ladder Tune Mpi MpiMeta Spmd Prog Seq ListAux MhSpec SeqWf Refine SeqTotal System B64Facts RandRange
  UserModels Demo Runs SeqFiles History Views RunHist HistCount HistRows Stale LadderRuns SwapStats Ladder64.
Import ListNotations.
Open Scope Z_scope.

Lemma two_pow : forall p, 0 <= p -> (2 ^ Z.to_nat p)%R = bp p.
Proof.
  intros p Hp. rewrite <- (Z2Nat.id p Hp) at 2. induction (Z.to_nat p) as [|k IH]; [reflexivity|].
  rewrite Nat2Z.inj_succ. unfold Z.succ. rewrite bpow_plus, <- IH. cbn [pow]. change (bp 1) with 2%R. ring.
Qed.
Lemma two_opp : forall p, 0 <= p -> (/ 2 ^ Z.to_nat p)%R = bp (- p).
Proof. intros p Hp. rewrite two_pow, bpow_opp by auto. reflexivity. Qed.
Lemma bp_fmt : forall e, -1000 <= e -> fmt (bp e).
Proof. intros e He. replace (bp e) with (IZR 1 * bp e)%R by ring. apply fmt_scaled; lia. Qed.
Lemma rnd_recip : forall e, -1000 <= e <= 1000 -> rnd (1 / bp e) = bp (- e).
Proof. intros e He. unfold Rdiv. rewrite Rmult_1_l, <- bpow_opp. apply rnd_id, bp_fmt. lia. Qed.
(** the conditions of [adapt64] for a power of two *)
Lemma power_bound : forall (p : Z) (b0 : b64), 1 <= p <= 100 -> (/ 2 ^ Z.to_nat p <= B2R b0)%R ->
  bnd (bp p) /\ (bp p <= bp 100)%R /\ (0 < B2R b0)%R /\ (rnd (1 / B2R b0) <= bp p)%R /\ (rnd (1 / rnd (1 / bp p)) <= bp p)%R /\
  rnd (1 / bp p) = (/ 2 ^ Z.to_nat p)%R.
Proof.
  intros p b0 Hp H. rewrite two_opp in H by lia. pose proof (bpow_gt_0 radix2 (- p)) as P.
  split; [split; [apply bp_fmt; lia|rewrite Rabs_pos_eq by apply bpow_ge_0; apply bpow_le; lia]|].
  split; [apply bpow_le; lia|]. split; [lra|]. split.
  - apply rnd_le_fmt; [apply bp_fmt; lia|]. unfold Rdiv. rewrite Rmult_1_l. rewrite <- (Z.opp_involutive p). rewrite bpow_opp. apply Rinv_le_contravar; lra.
  - rewrite (rnd_recip p) by lia. rewrite rnd_recip by lia. rewrite Z.opp_involutive. rewrite two_opp by lia. split; [lra|reflexivity].
Qed.

(** [pow_half L]: pow(x, 0.5) is finite and within a 256th of the root of x, for x from 1 to 2^100.

    C92.  One adaptation of (b0, b1, 1) with 2^-p <= b0 <= 0.98 and 2^-p <= b1 <= 1, scale_tune_ladder at most
    0.99, zero_stretch from 0.01 to 0.99, and any counts of at most 2^53 attempts per pair: the result is
    (b0, b1', 1) with a finite b1' from 2^-p to 1. *)
Theorem C92_adapt : forall L (sc zs b0 b1 : b64) p (s0 s1 s2 p0 p1 p2 : Z), pow_half L -> 1 <= p <= 100 ->
  is_finite sc = true -> (0 <= B2R sc <= 99 / 100)%R -> is_finite zs = true -> (1 / 100 <= B2R zs <= 99 / 100)%R ->
  is_finite b0 = true -> (/ 2 ^ Z.to_nat p <= B2R b0 <= 98 / 100)%R -> is_finite b1 = true -> (/ 2 ^ Z.to_nat p <= B2R b1 <= 1)%R ->
  0 <= s0 <= p0 -> 0 <= s1 <= p1 -> p0 <= 2 ^ 53 -> p1 <= 2 ^ 53 ->
  exists b1' : b64, tune_ladder (A := B64 L) sc zs 3 [bof s0; bof s1; bof s2] [bof p0; bof p1; bof p2] [b0; b1; bof 1] = OK [b0; b1'; bof 1] /\
    is_finite b1' = true /\ (/ 2 ^ Z.to_nat p <= B2R b1' <= 1)%R.
Proof.
  intros L sc zs b0 b1 p s0 s1 s2 p0 p1 p2 HP Hp Fs Hs Fz Hz F0 H0 F1 H1 C0 C1 C2 C3.
  destruct (power_bound p b0 Hp (proj1 H0)) as [B [B1 [B2 [B3 [B4 B5]]]]].
  destruct (adapt64 L sc zs b0 b1 (bp p) s0 s1 s2 p0 p1 p2) as [b1' [E [F W]]]; auto; try (split; auto; fail); try lra.
  - split; [exact F1|]. rewrite B5. exact H1.
  - exists b1'. rewrite B5 in W. auto.
Qed.
Print Assumptions C92_adapt.

(** Every state of every run of three ranks, and every record of the beta file at any time. *)
Theorem C92_run : forall L (S : Setup (B64 L)), Legal S -> s_n S = 3%nat -> forall (b0 b1 : b64) p, pow_half L -> 1 <= p <= 100 ->
  is_finite (scale_tune_ladder (s_cfg S) : b64) = true -> (0 <= B2R (scale_tune_ladder (s_cfg S) : b64) <= 99 / 100)%R ->
  is_finite (zero_stretch (s_cfg S) : b64) = true -> (1 / 100 <= B2R (zero_stretch (s_cfg S) : b64) <= 99 / 100)%R ->
  Z.max 0 (N_swap (s_cfg S)) * n_iter_a_stack (s_cfg S) <= 2 ^ 53 ->
  firstn 3 (Beta_Values (s_cfg S)) = [b0; b1; bof 1] ->
  is_finite b0 = true -> (/ 2 ^ Z.to_nat p <= B2R b0 <= 98 / 100)%R -> is_finite b1 = true -> (/ 2 ^ Z.to_nat p <= B2R b1 <= 1)%R ->
  (forall D G0 h Gf, history S D G0 h Gf -> forall G, In G (states G0 h Gf) -> forall r, (r < 3)%nat ->
    exists b1' : b64, l_beta (loc_at G r) = [b0; b1'; bof 1] /\ is_finite b1' = true /\ (/ 2 ^ Z.to_nat p <= B2R b1' <= 1)%R) /\
  (forall k tr X, execution S k tr X -> forall ev, In ev (file FBeta tr) ->
    exists b1' : b64, ev = EvBeta (A := B64 L) [b0; b1'; bof 1] /\ is_finite b1' = true /\ (/ 2 ^ Z.to_nat p <= B2R b1' <= 1)%R).
Proof.
  intros L S HL H3 b0 b1 p HP Hp Fs Hs Fz Hz HN EB F0 H0 F1 H1.
  destruct (power_bound p b0 Hp (proj1 H0)) as [B [B1 [B2 [B3 [B4 B5]]]]].
  assert (K : forall D G0 h Gf, history S D G0 h Gf -> forall G, In G (states G0 h Gf) -> forall r, (r < 3)%nat ->
    exists b1' : b64, l_beta (loc_at G r) = [b0; b1'; bof 1] /\ is_finite b1' = true /\ (/ 2 ^ Z.to_nat p <= B2R b1' <= 1)%R).
  { intros D G0 h Gf HH G HG r Hr.
    destruct (run64 L S HL H3 b0 b1 (bp p) HP) with (D := D) (G0 := G0) (h := h) (Gf := Gf) (G := G) (r := r) as [b1' [E [F W]]];
      auto; try (split; auto; fail); try lra.
    - split; [exact F1|]. rewrite B5. exact H1.
    - exists b1'. rewrite B5 in W. auto. }
  split; [exact K|]. intros k tr X HE ev Hev.
  destruct (history_exists S HL) as [D [G0 [h [Gf HH]]]].
  destruct (beta_file S HL D G0 h Gf HH k tr X HE) as [rest [E _]].
  assert (In ev (map (fun s => EvBeta (l_beta (loc_at (sr_in s) 0))) h)) as M by (rewrite E; apply in_or_app; auto).
  apply in_map_iff in M. destruct M as [s [<- Hs']]. 
  destruct (K D G0 h Gf HH (sr_in s)) with (r := 0%nat) as [b1' [Eb W]]; [|lia|].
  - right. apply in_or_app. left. apply in_concat. exists (sstates s). split; [apply in_map; auto|left; auto].
  - exists b1'. rewrite Eb. auto.
Qed.
Print Assumptions C92_run.

(** The lower end.  b0 itself need not bound b1', as 1/(1/b0) is computed with two roundings.  Where a third
    reciprocal brings nothing new, 1/(1/b0) as computed is a lower bound for good, and b0 (1 - 2^-51) is one below it. *)
Theorem C92_lower : forall L (S : Setup (B64 L)), Legal S -> s_n S = 3%nat -> forall (b0 b1 : b64), pow_half L ->
  is_finite (scale_tune_ladder (s_cfg S) : b64) = true -> (0 <= B2R (scale_tune_ladder (s_cfg S) : b64) <= 99 / 100)%R ->
  is_finite (zero_stretch (s_cfg S) : b64) = true -> (1 / 100 <= B2R (zero_stretch (s_cfg S) : b64) <= 99 / 100)%R ->
  Z.max 0 (N_swap (s_cfg S)) * n_iter_a_stack (s_cfg S) <= 2 ^ 53 ->
  firstn 3 (Beta_Values (s_cfg S)) = [b0; b1; bof 1] ->
  is_finite b0 = true -> (/ 2 ^ 100 <= B2R b0 <= 98 / 100)%R -> is_finite b1 = true -> (B2R b0 <= B2R b1 <= 1)%R ->
  let inv (x : b64) := Bdiv mode_NE (bof 1) x in
  inv (inv (inv b0)) = inv b0 -> (B2R (inv (inv b0)) <= B2R b1)%R ->
  forall D G0 h Gf, history S D G0 h Gf -> forall G, In G (states G0 h Gf) -> forall r, (r < 3)%nat ->
  exists b1' : b64, l_beta (loc_at G r) = [b0; b1'; bof 1] /\ is_finite b1' = true /\
    (B2R b0 * (1 - / 2 ^ 51) <= B2R (inv (inv b0)))%R /\ (B2R (inv (inv b0)) <= B2R b1' <= 1)%R.
Proof.
  intros L S HL H3 b0 b1 HP Fs Hs Fz Hz HN EB F0 H0 F1 H1 inv E3 HI D G0 h Gf HH G HG r Hr.
  change 100%nat with (Z.to_nat 100) in H0. destruct (power_bound 100 b0 ltac:(lia) (proj1 H0)) as [_ [_ [P0 [B3 _]]]].
  assert (Q : (bp (-1000) <= bp (- (100)))%R) by (apply bpow_le; lia). assert (Q1 : (1 <= bp 1000)%R) by (change 1%R with (bp 0); apply bpow_le; lia).
  assert (Q2 : (bp 100 <= bp 1000)%R) by (apply bpow_le; lia).
  rewrite two_opp in H0 by lia.
  destruct (recip_ok b0 F0 ltac:(lra)) as [Ft Et]. fold (inv b0) in Ft, Et.
  assert (T1 : (1 <= B2R (inv b0))%R).
  { rewrite Et. apply rnd_ge_fmt; [apply (fmt_IZR 1); lia|]. unfold Rdiv. rewrite Rmult_1_l. apply Rle_trans with (/ 1)%R; [rewrite Rinv_1; lra|apply Rinv_le_contravar; lra]. }
  assert (Z1 : (bp (-1000) <= 1)%R) by (change 1%R with (bp 0); apply bpow_le; lia).
  destruct (recip_ok (inv b0) Ft) as [Fu Eu]. { rewrite Et at 2. lra. } fold (inv (inv b0)) in Fu, Eu.
  assert (U : (bp (-1000) <= B2R (inv (inv b0)))%R).
  { rewrite Eu. apply rnd_ge_fmt; [apply bp_fmt; lia|]. apply Rle_trans with (1 / bp 100)%R.
    - unfold Rdiv. rewrite Rmult_1_l, <- bpow_opp. apply bpow_le. lia.
    - unfold Rdiv. rewrite !Rmult_1_l. apply Rinv_le_contravar; [lra|]. rewrite Et. exact B3. }
  destruct (recip_ok (inv (inv b0)) Fu) as [_ Ev]. { lra. } fold (inv (inv (inv b0))) in Ev.
  assert (Low : (B2R b0 * (1 - / 2 ^ 51) <= B2R (inv (inv b0)))%R).
  { assert (R1 : (B2R (inv b0) <= 1 / B2R b0 * (1 + bp (-53)))%R).
    { rewrite Et. apply rnd_rel. apply Rle_trans with 1%R; [change 1%R with (bp 0); apply bpow_le; lia|].
      unfold Rdiv. rewrite Rmult_1_l. apply Rle_trans with (/ 1)%R; [rewrite Rinv_1; lra|apply Rinv_le_contravar; lra]. }
    assert (R2 : (1 / B2R (inv b0) * (1 - bp (-53)) <= B2R (inv (inv b0)))%R).
    { rewrite Eu. apply rnd_rel. apply Rle_trans with (1 / bp 100)%R; [unfold Rdiv; rewrite Rmult_1_l, <- bpow_opp; apply bpow_le; lia|].
      unfold Rdiv. rewrite !Rmult_1_l. apply Rinv_le_contravar; [lra|]. rewrite Et. exact B3. }
    eapply Rle_trans; [|exact R2]. pose proof bp53 as [V1 V2]. replace (/ 2 ^ 51)%R with (4 * bp (-53))%R by (simpl; lra).
    set (v := bp (-53)) in *. clearbody v. set (t := B2R (inv b0)) in *. set (b := B2R b0) in *. clearbody t. clear - R1 V1 V2 T1 P0.
    assert (X : (t * b <= 1 + v)%R). { apply Rle_trans with (1 / b * (1 + v) * b)%R; [apply Rmult_le_compat_r; lra|]. right. field. lra. }
    apply (Rmult_le_reg_r t); [lra|]. replace (1 / t * (1 - v) * t)%R with (1 - v)%R by (field; lra).
    apply Rle_trans with ((1 + v) * (1 - 4 * v))%R; [|nra]. replace (b * (1 - 4 * v) * t)%R with (t * b * (1 - 4 * v))%R by ring.
    apply Rmult_le_compat_r; lra. }
  destruct (run64 L S HL H3 b0 b1 (B2R (inv b0)) HP) with (D := D) (G0 := G0) (h := h) (Gf := Gf) (G := G) (r := r) as [b1' [E [F W]]];
    auto; try (split; auto; fail); try (rewrite Et; lra); try lra.
  - split; [apply fmt_B2R|]. rewrite Rabs_pos_eq by lra. rewrite Et. lra.
  - rewrite <- Eu, <- Ev, E3. lra.
  - split; [exact F1|]. rewrite <- Eu. lra.
  - exists b1'. rewrite <- Eu in W. auto.
Qed.
Print Assumptions C92_lower.

(** Over the reals zero_stretch = 1 is harmless as well (C27_positive).  In binary64 it is not: with b0 = 2^-60 a
    swap rate of 0 between the first two chains makes the middle beta infinite. *)
Theorem C92_stretch_refuted : forall L, exists b0 b1 b1' : b64,
  is_finite b0 = true /\ is_finite b1 = true /\ (0 < B2R b0)%R /\ (B2R b0 < B2R b1)%R /\ (B2R b1 < 98 / 100)%R /\
  tune_ladder (A := B64 L) (nlit (A := B64 L) 2 1) (bof 1) 3 [bof 0; bof 1; bof 0] [bof 1; bof 1; bof 0] [b0; b1; bof 1] =
    OK [b0; b1'; bof 1] /\ is_finite b1' = false.
Proof.
  intro L. set (b0 := Bdiv mode_NE (bof 1) (bof (2 ^ 60)) : b64). set (b1 := Bdiv mode_NE (bof 1) (bof 4) : b64).
  exists b0, b1, (B754_infinity false).
  assert (F0 : is_finite b0 = true) by (vm_compute; reflexivity). assert (F1 : is_finite b1 = true) by (vm_compute; reflexivity).
  split; [exact F0|]. split; [exact F1|]. destruct zero_ok as [E0 Z0].
  split; [|split; [|split; [|split; [|reflexivity]]]].
  - rewrite <- E0. apply Bltb_tt; [vm_compute; reflexivity|auto|auto].
  - apply Bltb_tt; [vm_compute; reflexivity|auto|auto].
  - apply Rlt_trans with (B2R (Bdiv mode_NE (bof 1) (bof 2) : b64)).
    + apply Bltb_tt; [vm_compute; reflexivity|auto|auto].
    + destruct (bof_ok 1 ltac:(lia)) as [X1 Y1]. destruct (bof_ok 2 ltac:(lia)) as [X2 Y2].
      destruct (div_in 0 1 (bnd_Z 0 ltac:(lia)) (bnd_Z 1 ltac:(lia)) (bof 1) (bof 2) Y1) as [E _]; [rewrite X2; lra|rewrite X1, X2; lra|].
      rewrite E, X1, X2. replace (1 / 2)%R with (bp (-1)) by (simpl; lra). rewrite rnd_id by (apply bp_fmt; lia). simpl. lra.
  - rewrite tune3. set (t := Bdiv mode_NE _ (fin _ _ _ _ _ _ _ _ _ _ _)). assert (E : t = B754_infinity false).
    { apply B2SF_inj. vm_compute. reflexivity. }
    rewrite E. reflexivity.
Qed.
Print Assumptions C92_stretch_refuted.

(** a library with a correctly rounded root meets [pow_half]; the three ranks of [flat], with ladder tuning and
    betas 1/4, 3/4 and 1, meet the hypotheses *)
Definition root_libm : Libm := mkLibm (fun x => x) (fun x => x) (fun x => x) (fun x => x) (fun x _ => Bsqrt mode_NE x).
Lemma root_half : pow_half root_libm.
Proof.
  intros x Fx Hx. cbn [l_pow root_libm]. pose proof (Bsqrt_correct prec emax _ _ mode_NE x) as [E [F _]].
  split.
  - rewrite F. destruct x as [s|s| |s m e H]; try discriminate; auto. destruct s; auto. exfalso.
    assert (B2R (B754_finite true m e H) < 0)%R by (apply F2R_lt_0; reflexivity). lra.
  - rewrite E. change (round radix2 (SpecFloat.fexp prec emax) (round_mode mode_NE) (sqrt (B2R x))) with (rnd (sqrt (B2R x))).
    assert (Q : (1 <= sqrt (B2R x))%R) by (rewrite <- sqrt_1; apply sqrt_le_1_alt; lra).
    pose proof (rnd_pos (sqrt (B2R x)) ltac:(lra)). apply Rabs_le. lra.
Qed.
Example C92_case : let L := root_libm in let S := flat L in let inv (x : b64) := Bdiv mode_NE (bof 1) x in
  pow_half L /\ Legal S /\ s_n S = 3%nat /\ 0 < Tune_Ladder (s_cfg S) /\
  is_finite (scale_tune_ladder (s_cfg S) : b64) = true /\ (0 <= B2R (scale_tune_ladder (s_cfg S) : b64) <= 99 / 100)%R /\
  is_finite (zero_stretch (s_cfg S) : b64) = true /\ (1 / 100 <= B2R (zero_stretch (s_cfg S) : b64) <= 99 / 100)%R /\
  Z.max 0 (N_swap (s_cfg S)) * n_iter_a_stack (s_cfg S) <= 2 ^ 53 /\
  exists b0 b1 : b64, firstn 3 (Beta_Values (s_cfg S)) = [b0; b1; bof 1] /\
  is_finite b0 = true /\ (/ 2 ^ Z.to_nat 2 <= B2R b0 <= 98 / 100)%R /\ is_finite b1 = true /\ (B2R b0 <= B2R b1 <= 1)%R /\
  inv (inv (inv b0)) = inv b0 /\ (B2R (inv (inv b0)) <= B2R b1)%R.
Proof.
  cbv zeta. split; [exact root_half|]. split; [apply flat_legal|]. split; [reflexivity|]. split; [reflexivity|].
  assert (T : forall m k lo hi, 0 <= m <= 2 ^ 53 -> 0 < k <= 2 ^ 53 -> (/ 1000 <= IZR m / IZR k <= 1)%R ->
    (lo <= IZR m / IZR k * (1 - / 1000000))%R -> (IZR m / IZR k * (1 + / 1000000) <= hi)%R ->
    is_finite (Bdiv mode_NE (bof m) (bof k)) = true /\ (lo <= B2R (Bdiv mode_NE (bof m) (bof k)) <= hi)%R).
  { intros m k lo hi Hm Hk H1 H2 H3. destruct (bof_ok m ltac:(lia)) as [E1 F1]. destruct (bof_ok k ltac:(lia)) as [E2 F2].
    assert (0 < IZR k)%R by (apply IZR_lt; lia).
    destruct (div_in 0 1 (bnd_Z 0 ltac:(lia)) (bnd_Z 1 ltac:(lia)) (bof m) (bof k) F1) as [E [F _]]; [rewrite E2; lra|rewrite E1, E2; lra|].
    split; [exact F|]. rewrite E, E1, E2. pose proof (rnd_pos (IZR m / IZR k)). lra. }
  destruct (T 2 10 0%R (99 / 100)%R ltac:(lia) ltac:(lia) ltac:(lra) ltac:(lra) ltac:(lra)) as [Fa Ha].
  destruct (T 1 10 (1 / 100)%R (99 / 100)%R ltac:(lia) ltac:(lia) ltac:(lra) ltac:(lra) ltac:(lra)) as [Fb Hb].
  split; [exact Fa|]. split; [exact Ha|]. split; [exact Fb|]. split; [exact Hb|]. split; [vm_compute; discriminate|].
  exists (quarter root_libm), (three_quarters root_libm).
  assert (F0 : is_finite (quarter root_libm : b64) = true) by (vm_compute; reflexivity).
  assert (F1 : is_finite (three_quarters root_libm : b64) = true) by (vm_compute; reflexivity).
  split; [reflexivity|]. split; [exact F0|].
  assert (V : forall m k, 0 <= m <= k -> 0 < k <= 2 ^ 53 -> fmt (IZR m / IZR k) -> B2R (Bdiv mode_NE (bof m) (bof k) : b64) = (IZR m / IZR k)%R).
  { intros m k Hm Hk Hf. destruct (bof_ok m ltac:(lia)) as [E1 Y1]. destruct (bof_ok k ltac:(lia)) as [E2 Y2].
    assert (Pk : (0 < IZR k)%R) by (apply IZR_lt; lia). pose proof (IZR_le 0 m ltac:(lia)) as H0. pose proof (IZR_le m k ltac:(lia)) as H1.
    destruct (div_in 0 1 (bnd_Z 0 ltac:(lia)) (bnd_Z 1 ltac:(lia)) (bof m) (bof k) Y1) as [E _]; [rewrite E2; lra| |rewrite E, E1, E2; apply rnd_id; exact Hf].
    rewrite E1, E2. split; [apply Rmult_le_pos; [lra|left; apply Rinv_0_lt_compat; lra]|].
    apply (Rmult_le_reg_r (IZR k)); [lra|]. unfold Rdiv. rewrite Rmult_assoc, Rinv_l by lra. lra. }
  assert (B0 : B2R (quarter root_libm : b64) = (25 / 100)%R).
  { apply (V 25 100); [lia|lia|]. replace (25 / 100)%R with (IZR 1 * bp (-2))%R by (simpl; lra). apply fmt_scaled; lia. }
  assert (B1 : B2R (three_quarters root_libm : b64) = (75 / 100)%R).
  { apply (V 75 100); [lia|lia|]. replace (75 / 100)%R with (IZR 3 * bp (-2))%R by (simpl; lra). apply fmt_scaled; lia. }
  assert (I2 : Bdiv mode_NE (bof 1) (Bdiv mode_NE (bof 1) (quarter root_libm : b64)) = (quarter root_libm : b64)) by (apply B2SF_inj; vm_compute; reflexivity).
  change (Z.to_nat 2) with 2%nat. rewrite I2, B0, B1. split; [simpl; lra|]. split; [exact F1|]. split; [lra|]. split; [reflexivity|lra].
Qed.
