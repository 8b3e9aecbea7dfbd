(** The orbit likelihood in binary64: it returns for every point of the prior box. *)
From Coq Require Import ZArith Reals List Bool Lia Lra Psatz.
From Flocq Require Import Core IEEE754.BinarySingleNaN.
From Verif Require Import Base Arith B64 B64Facts UserModels UserOld Kepler OrbFacts Kepler64.
Import ListNotations.
Open Scope R_scope.

Definition within (x : b64) (a b : R) : Prop := is_finite x = true /\ a <= B2R x <= b.

Lemma nlit_near : forall L m k q, (-1021 <= q <= 1000)%Z -> (0 <= m <= 2 ^ 53)%Z -> (0 <= k <= 15)%Z -> IZR m / IZR (10 ^ k) <= bp q ->
  is_finite (@nlit (B64 L) m k) = true /\ Rabs (B2R (@nlit (B64 L) m k) - IZR m / IZR (10 ^ k)) <= bp (q - 54).
Proof.
  intros L m k q Hq Hm Hk B. unfold nlit. cbn [B64 ndiv nof].
  assert (K : (0 < 10 ^ k <= 2 ^ 53)%Z).
  { split; [apply Z.pow_pos_nonneg; lia|]. apply Z.le_trans with (10 ^ 15)%Z; [apply Z.pow_le_mono_r; lia|vm_compute; discriminate]. }
  destruct (bof_ok m ltac:(lia)) as [V1 F1]. destruct (bof_ok (10 ^ k) ltac:(lia)) as [V2 F2].
  assert (P : 0 < IZR (10 ^ k)) by (apply IZR_lt; lia).
  destruct (bdiv_err (bof m) (bof (10 ^ k)) q) as [F E]; [lia|auto|rewrite V2; lra| |].
  - rewrite V1, V2. rewrite Rabs_right; [auto|]. apply Rle_ge, Rmult_le_pos; [apply IZR_le; lia|left; apply Rinv_0_lt_compat; auto].
  - rewrite V1, V2 in E. auto.
Qed.

(** fit_orbit/user_logll.c:262: the mean anomaly, for periods of at least half a day and times up to 65536 days *)
Lemma anomaly_64 : forall L (per t M0 : b64), within per (1 / 2) 1000000 -> within t (-65536) 65536 -> within M0 (-360) 360 ->
  let A := B64 L in
  let m := @nsub A (@nmul A (@ndiv A (@nmul A (bof 2) (@PI11 A)) per) t) (@nmul A M0 (@DEG2RAD A)) in
  is_finite m = true /\ Rabs (B2R m) <= IZR (2 ^ 20).
Proof.
  intros L per t M0 [Fp Hp] [Ft Ht] [F0 H0]. cbv zeta. cbn [B64 nsub nmul ndiv].
  change (@PI11 (B64 L)) with (@nlit (B64 L) 314159265358 11). change (@DEG2RAD (B64 L)) with (@nlit (B64 L) 174532925 10).
  destruct (nlit_near L 314159265358 11 2) as [FP HP]; [lia|lia|lia|change (bp 2) with 4; change (10 ^ 11)%Z with 100000000000%Z; lra|].
  destruct (nlit_near L 174532925 10 0) as [FD HD]; [lia|lia|lia|change (bp 0) with 1; change (10 ^ 10)%Z with 10000000000%Z; lra|].
  change (10 ^ 11)%Z with 100000000000%Z in HP. change (10 ^ 10)%Z with 10000000000%Z in HD.
  change (bp (2 - 54)) with (/ 4503599627370496) in HP. change (bp (0 - 54)) with (/ 18014398509481984) in HD.
  apply Rabs_le_inv in HP. apply Rabs_le_inv in HD.
  set (p := @nlit (B64 L) 314159265358 11) in *. set (d := @nlit (B64 L) 174532925 10) in *.
  destruct (bof_ok 2 ltac:(lia)) as [V2 F2].
  destruct (bmult_err (bof 2) p 3) as [Fa Ha]; [lia|auto|auto|rewrite V2; change (bp 3) with 8; apply Rabs_le; lra|].
  rewrite V2 in Ha. change (bp (3 - 54)) with (/ 2251799813685248) in Ha. apply Rabs_le_inv in Ha. set (a := Bmult mode_NE (bof 2) p) in *.
  assert (Q : 0 <= B2R a / B2R per <= 12567 / 1000).
  { split; [apply Rmult_le_pos; [lra|left; apply Rinv_0_lt_compat; lra]|].
    apply (Rmult_le_reg_r (B2R per)); [lra|]. unfold Rdiv at 1. rewrite Rmult_assoc, Rinv_l by lra. lra. }
  destruct (bdiv_err a per 4) as [Fb Hb]; [lia|auto|lra|change (bp 4) with 16; apply Rabs_le; lra|].
  change (bp (4 - 54)) with (/ 1125899906842624) in Hb. apply Rabs_le_inv in Hb. set (b := Bdiv mode_NE a per) in *.
  assert (R1 : - 823700 <= B2R b * B2R t <= 823700) by nra.
  destruct (bmult_err b t 20) as [Fc Hc]; [lia|auto|auto|change (bp 20) with 1048576; apply Rabs_le; lra|].
  change (bp (20 - 54)) with (/ 17179869184) in Hc. apply Rabs_le_inv in Hc. set (c := Bmult mode_NE b t) in *.
  assert (R2 : - 7 <= B2R M0 * B2R d <= 7) by nra.
  destruct (bmult_err M0 d 3) as [Fe He]; [lia|auto|auto|change (bp 3) with 8; apply Rabs_le; lra|].
  change (bp (3 - 54)) with (/ 2251799813685248) in He. apply Rabs_le_inv in He. set (e := Bmult mode_NE M0 d) in *.
  destruct (bminus_err c e 20) as [Fz Hz]; [lia|auto|auto|change (bp 20) with 1048576; apply Rabs_le; lra|].
  change (bp (20 - 54)) with (/ 17179869184) in Hz. apply Rabs_le_inv in Hz.
  split; [exact Fz|]. change (IZR (2 ^ 20)) with 1048576. apply Rabs_le. lra.
Qed.

Lemma radec_64 : forall L, trig_near L (IZR (2 ^ 20 + 2)) (bp (-40)) ->
  forall ecc osi cosi OmegaO M0 omega per t : b64, within ecc 0 (1 / 2) -> within per (1 / 2) 1000000 -> within t (-65536) 65536 -> within M0 (-360) 360 ->
  exists p, forall fuel, (5 <= fuel)%nat -> @radec (B64 L) fuel ecc osi cosi OmegaO M0 omega per t = OK p.
Proof.
  intros L TL ecc osi cosi OmegaO M0 omega per t [Fe He] Hp Ht H0.
  destruct (anomaly_64 L per t M0 Hp Ht H0) as [Fm Hm]. cbv zeta in Fm, Hm.
  match type of Fm with is_finite ?m = true => set (mm := m) in * end.
  destruct (kep_root (B2R ecc) (B2R mm) ltac:(lra)) as [X [HX _]].
  destruct (solver_64 L TL ecc mm Fe He Fm Hm X ltac:(unfold kep in HX; lra)) as (r & _ & _ & R).
  eexists. intros fuel Hf. unfold radec. cbn [B64 nmul nof]. fold mm.
  match goal with |- context [newton_solver fuel ?m ecc] => change m with mm end.
  rewrite (R fuel Hf). reflexivity.
Qed.
Lemma func_as_64 : forall L, trig_near L (IZR (2 ^ 20 + 2)) (bp (-40)) ->
  forall (ecc osi cosi OmegaO M0 omega per : b64) ts, within ecc 0 (1 / 2) -> within per (1 / 2) 1000000 -> List.Forall (fun t => within t (-65536) 65536) ts -> within M0 (-360) 360 ->
  exists p, forall fuel, (5 <= fuel)%nat -> @func_as (B64 L) fuel ts ecc osi cosi OmegaO M0 omega per = OK p.
Proof.
  intros L TL ecc osi cosi OmegaO M0 omega per ts He Hp Ht H0. induction Ht as [|t ts T Ht [p IH]]; [exists []; reflexivity|].
  destruct (radec_64 L TL ecc osi cosi OmegaO M0 omega per t He Hp T H0) as [q Q]. exists (q :: p). intros fuel Hf.
  unfold func_as in *. cbn [map_res]. rewrite (Q fuel Hf). cbn [rbind]. rewrite (IH fuel Hf). reflexivity.
Qed.
Lemma orb_64 : forall L, trig_near L (IZR (2 ^ 20 + 2)) (bp (-40)) ->
  forall (x : list b64) nline (data : list b64), length data = Z.to_nat (2 * nline) ->
  within (@xi (B64 L) x 1) 0 (1 / 2) -> within (@xi (B64 L) x 9) 0 (1 / 2) ->
  within (@xi (B64 L) x 7) (1 / 2) 1000000 -> within (@xi (B64 L) x 14) (1 / 2) 1000000 ->
  within (@xi (B64 L) x 4) (-360) 360 -> within (@xi (B64 L) x 12) (-360) 360 ->
  (forall i, (i < Z.to_nat (Z.quot nline 2))%nat -> within (nth (4 * i) data (bof 0)) (-65536) 65536) ->
  exists v, forall fuel, (5 <= fuel)%nat -> @orb_value (B64 L) fuel x nline data = OK v.
Proof.
  intros L TL x nline data LD E1 E2 P1 P2 M1 M2 T. set (l := seq 0 (Z.to_nat (Z.quot nline 2))).
  set (obs := map (fun i => (nth (4 * i) data (bof 0), (nth (4 * i + 1) data (bof 0), nth (4 * i + 3) data (bof 0)))) l).
  assert (FT : List.Forall (fun t => within t (-65536) 65536) (map fst obs)).
  { unfold obs. rewrite map_map. cbn [fst]. apply Forall_forall. intros t Ht. apply in_map_iff in Ht. destruct Ht as [i [<- Hi]]. apply T. apply in_seq in Hi. lia. }
  edestruct (func_as_64 L TL) as [r1 R1]; [exact E1|exact P1|exact FT|exact M1|].
  edestruct (func_as_64 L TL) as [r2 R2]; [exact E2|exact P2|exact FT|exact M2|].
  eexists. intros fuel Hf. unfold orb_value. rewrite (@orb_times (B64 L) nline data (bof 0) LD). fold l. fold obs. cbn [rbind].
  rewrite R1 by auto. cbn [rbind]. rewrite R2 by auto. cbn [rbind]. reflexivity.
Qed.
