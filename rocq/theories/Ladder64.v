(** The adaptation of a ladder of three temperatures in binary64. *)
From Coq Require Import ZArith Arith List Bool Reals Lia Lra Psatz.
From Flocq Require Import Core Relative Plus_error IEEE754.BinarySingleNaN.
From Verif Require Import Base Arith B64 Rand Mh Ladder Tune Mpi MpiMeta Spmd Prog Seq ListAux MhSpec SeqWf Refine SeqTotal System B64Facts RandRange
  Runs History Views RunHist HistCount HistRows LadderRuns SwapStats.
Import ListNotations.
Open Scope R_scope.
Notation bp := (bpow radix2).

(** ** numbers that can be used as bounds *)
Definition bnd (r : R) : Prop := fmt r /\ Rabs r <= bp 1000.
Definition within (lo hi : R) (x : b64) : Prop := is_finite x = true /\ lo <= B2R x <= hi.

Lemma bnd_Z : forall z, (Z.abs z <= 2 ^ 53)%Z -> bnd (IZR z).
Proof.
  intros z Hz. split; [apply fmt_IZR; auto|]. rewrite <- abs_IZR. apply Rle_trans with (bp 53); [|apply bpow_le; lia].
  change (bp 53) with (IZR (2 ^ 53)). apply IZR_le. auto.
Qed.
Lemma bnd_b64 : forall x : b64, Rabs (B2R x) <= bp 1000 -> bnd (B2R x).
Proof. intros. split; [apply fmt_B2R|auto]. Qed.
Lemma bnd_rnd : forall x, Rabs x <= bp 1000 -> bnd (rnd x).
Proof.
  intros x H. split; [apply generic_format_round; [apply valid64|apply valid_rnd_N]|].
  assert (F : fmt (bp 1000)). { replace (bp 1000) with (IZR 1 * bp 1000) by ring. apply fmt_scaled; reflexivity || lia. }
  assert (F' : fmt (- bp 1000)) by (apply generic_format_opp; exact F).
  apply Rabs_le_inv in H. apply Rabs_le. split; [apply rnd_ge_fmt|apply rnd_le_fmt]; auto; lra.
Qed.
Lemma bnd_lt : forall lo hi r, bnd lo -> bnd hi -> lo <= r <= hi -> Rabs r < bp emax.
Proof.
  intros lo hi r [_ H1] [_ H2] H. apply Rle_lt_trans with (bp 1000); [|apply bpow_lt; reflexivity].
  apply Rabs_le_inv in H1. apply Rabs_le_inv in H2. apply Rabs_le. lra.
Qed.
Lemma rnd_in : forall lo hi r, bnd lo -> bnd hi -> lo <= r <= hi -> lo <= rnd r <= hi.
Proof. intros lo hi r [F1 _] [F2 _] H. split; [apply rnd_ge_fmt|apply rnd_le_fmt]; auto; lra. Qed.

Section Ops.
Variables (lo hi : R) (Hlo : bnd lo) (Hhi : bnd hi).
Lemma div_in : forall x y, is_finite x = true -> B2R y <> 0 -> lo <= B2R x / B2R y <= hi ->
  B2R (Bdiv mode_NE x y) = rnd (B2R x / B2R y) /\ within lo hi (Bdiv mode_NE x y).
Proof.
  intros x y Fx Ny H. pose proof (rnd_in lo hi _ Hlo Hhi H) as K. destruct (bdiv_ok x y Fx Ny (bnd_lt _ _ _ Hlo Hhi K)) as [E F].
  split; [exact E|]. split; [exact F|]. rewrite E. exact K.
Qed.
Lemma mul_in : forall x y, is_finite x = true -> is_finite y = true -> lo <= B2R x * B2R y <= hi ->
  B2R (Bmult mode_NE x y) = rnd (B2R x * B2R y) /\ within lo hi (Bmult mode_NE x y).
Proof.
  intros x y Fx Fy H. pose proof (rnd_in lo hi _ Hlo Hhi H) as K. destruct (bmult_ok x y Fx Fy (bnd_lt _ _ _ Hlo Hhi K)) as [E F].
  split; [exact E|]. split; [exact F|]. rewrite E. exact K.
Qed.
Lemma add_in : forall x y, is_finite x = true -> is_finite y = true -> lo <= B2R x + B2R y <= hi ->
  B2R (Bplus mode_NE x y) = rnd (B2R x + B2R y) /\ within lo hi (Bplus mode_NE x y).
Proof.
  intros x y Fx Fy H. pose proof (rnd_in lo hi _ Hlo Hhi H) as K. destruct (bplus_ok x y Fx Fy (bnd_lt _ _ _ Hlo Hhi K)) as [E F].
  split; [exact E|]. split; [exact F|]. rewrite E. exact K.
Qed.
Lemma sub_in : forall x y, is_finite x = true -> is_finite y = true -> lo <= B2R x - B2R y <= hi ->
  B2R (Bminus mode_NE x y) = rnd (B2R x - B2R y) /\ within lo hi (Bminus mode_NE x y).
Proof.
  intros x y Fx Fy H. pose proof (rnd_in lo hi _ Hlo Hhi H) as K. destruct (bminus_ok x y Fx Fy (bnd_lt _ _ _ Hlo Hhi K)) as [E F].
  split; [exact E|]. split; [exact F|]. rewrite E. exact K.
Qed.
End Ops.

(** ** a part of a difference *)
Lemma rnd_opp : forall x, rnd (- x) = - rnd x.
Proof. intro x. apply round_NE_opp. Qed.
(** two different representable numbers from 1 up differ by 2^-52 or more *)
Lemma gap52 : forall x y, fmt x -> fmt y -> 1 <= x -> x < y -> bp (-52) <= y - x.
Proof.
  intros x y Fx Fy H1 H2. assert (V : Valid_exp (SpecFloat.fexp prec emax)) by apply valid64.
  assert (K : succ radix2 (SpecFloat.fexp prec emax) x <= y) by (apply succ_le_lt; auto).
  rewrite succ_eq_pos in K by lra.
  assert (U : ulp radix2 (SpecFloat.fexp prec emax) 1 <= ulp radix2 (SpecFloat.fexp prec emax) x).
  { apply ulp_le_pos; auto; [|lra]. apply fexp_monotone. }
  replace (ulp radix2 (SpecFloat.fexp prec emax) 1) with (bp (-52)) in U; [lra|].
  change 1 with (bp 0). rewrite ulp_bpow. reflexivity.
Qed.
Lemma rnd_sub_ex : forall x y, fmt x -> fmt y -> exists e, Rabs e <= bp (-53) /\ rnd (x - y) = (x - y) * (1 + e).
Proof.
  intros x y Fx Fy.
  destruct (@FLT_plus_error_N_ex radix2 emin prec ltac:(reflexivity) (fun n => negb (Z.even n)) x (- y)) as [e [He E]]; auto.
  { apply generic_format_opp. exact Fy. }
  exists e. split; [|exact E]. eapply Rle_trans; [exact He|]. unfold u_ro. change (- prec + 1)%Z with (-52)%Z.
  replace (bp (-53)) with (/ 2 * bp (-52)) by (change (-52)%Z with (-53 + 1)%Z; rewrite bpow_plus; simpl; lra).
  pose proof (bpow_gt_0 radix2 (-52)) as P. unfold Rdiv. apply Rle_trans with (/ 2 * bp (-52) * 1); [|lra].
  apply Rmult_le_compat_l; [lra|]. apply Rle_trans with (/ 1); [apply Rinv_le_contravar; lra|rewrite Rinv_1; lra].
Qed.
Lemma bp53 : 0 < bp (-53) <= / 1000000.
Proof. split; [apply bpow_gt_0|]. simpl. lra. Qed.

(** 0 <= f <= 0.995: the rounded product of f and the rounded difference is a part of the exact difference *)
Lemma part : forall x y f, fmt x -> fmt y -> 1 <= x -> 1 <= y -> 0 <= f <= 995 / 1000 ->
  exists t, 0 <= t <= 1 /\ rnd (f * rnd (x - y)) = t * (x - y).
Proof.
  assert (K : forall x y f, fmt x -> fmt y -> 1 <= x -> x < y -> 0 <= f <= 995 / 1000 ->
    exists t, 0 <= t <= 1 /\ rnd (f * rnd (y - x)) = t * (y - x)).
  { intros x y f Fx Fy H1 H2 Hf. pose proof (gap52 x y Fx Fy H1 H2) as G. destruct (rnd_sub_ex y x Fy Fx) as [e [He E]].
    apply Rabs_le_inv in He. pose proof bp53 as P. set (D := y - x) in *. assert (PD : 0 < D) by (pose proof (bpow_gt_0 radix2 (-52)); lra).
    rewrite E. set (w := f * (D * (1 + e))). assert (W : 0 <= w <= 996 / 1000 * D).
    { unfold w. split; [apply Rmult_le_pos; [lra|apply Rmult_le_pos; lra]|]. apply Rle_trans with (995 / 1000 * (D * (1 + e))).
      - apply Rmult_le_compat_r; [apply Rmult_le_pos; lra|lra].
      - clear - P He PD. assert (D * e <= D * / 1000000) by (apply Rmult_le_compat_l; lra). lra. }
    assert (R0 : 0 <= rnd w) by (apply rnd_ge_fmt; [apply generic_format_0|lra]).
    assert (R1 : rnd w <= D).
    { destruct (Rle_or_lt (bp (-1022)) w) as [B|B].
      - pose proof (rnd_rel w B) as [_ Q]. assert (w * bp (-53) <= w * / 1000000) by (apply Rmult_le_compat_l; lra). lra.
      - apply Rle_trans with (bp (-52)); [|exact G]. apply rnd_le_fmt.
        + replace (bp (-52)) with (IZR 1 * bp (-52)) by ring. apply fmt_scaled; [reflexivity|lia].
        + apply Rle_trans with (bp (-1022)); [lra|apply bpow_le; lia]. }
    exists (rnd w / D). split; [|field; lra]. split; [apply Rmult_le_pos; [lra|left; apply Rinv_0_lt_compat; lra]|].
    apply (Rmult_le_reg_r D); [lra|]. unfold Rdiv. rewrite Rmult_assoc, Rinv_l by lra. lra. }
  intros x y f Fx Fy H1 H2 Hf. destruct (Rtotal_order x y) as [C|[C|C]].
  - destruct (K x y f) as [t [Ht E]]; auto. exists t. split; [exact Ht|]. replace (x - y) with (- (y - x)) by ring.
    rewrite rnd_opp. replace (f * - rnd (y - x)) with (- (f * rnd (y - x))) by ring. rewrite rnd_opp, E. ring.
  - exists 0. split; [lra|]. replace (x - y) with 0 by lra. rewrite rnd_0, Rmult_0_r, rnd_0. ring.
  - apply K; auto.
Qed.
(** rounding a multiple d of a representable number, 0 <= d <= 1 *)
Lemma part1 : forall d X, fmt X -> 0 <= d <= 1 -> exists f, 0 <= f <= 1 /\ rnd (X * d) = f * X.
Proof.
  intros d X F Hd. destruct (Rtotal_order X 0) as [C|[C|C]].
  - assert (H : X <= rnd (X * d) <= 0).
    { split; [apply rnd_ge_fmt; auto|apply rnd_le_fmt; [apply generic_format_0|]]; nra. }
    exists (rnd (X * d) / X). split; [|field; lra]. replace (rnd (X * d) / X) with (- rnd (X * d) / - X) by (field; lra).
    split; [apply Rmult_le_pos; [lra|left; apply Rinv_0_lt_compat; lra]|].
    apply (Rmult_le_reg_r (- X)); [lra|]. unfold Rdiv. rewrite Rmult_assoc, Rinv_l by lra. lra.
  - exists 0. split; [lra|]. rewrite C, Rmult_0_l, rnd_0. ring.
  - assert (H : 0 <= rnd (X * d) <= X).
    { split; [apply rnd_ge_fmt; [apply generic_format_0|]|apply rnd_le_fmt; auto]; nra. }
    exists (rnd (X * d) / X). split; [|field; lra].
    split; [apply Rmult_le_pos; [lra|left; apply Rinv_0_lt_compat; lra]|].
    apply (Rmult_le_reg_r X); [lra|]. unfold Rdiv. rewrite Rmult_assoc, Rinv_l by lra. lra.
Qed.

(** ** a temperature moved towards another one *)
Section Move.
Variable (hi : R).
Hypothesis Hhi : 1 <= hi <= bp 100.
Lemma hi_abs : forall x, within 1 hi x -> Rabs (B2R x) <= bp 100.
Proof. intros x [_ H]. apply Rabs_le. pose proof (bpow_gt_0 radix2 100). lra. Qed.
Lemma bnd_s : forall r, Rabs r <= bp 101 -> bnd (rnd r).
Proof. intros. apply bnd_rnd. eapply Rle_trans; [eassumption|]. apply bpow_le. lia. Qed.
Definition Bd := bp 101.
Lemma bnd_Bd : bnd Bd /\ bnd (- Bd).
Proof.
  assert (F : fmt Bd). { unfold Bd. replace (bp 101) with (IZR 1 * bp 101) by ring. apply fmt_scaled; [reflexivity|lia]. }
  assert (A : Rabs Bd <= bp 1000). { unfold Bd. rewrite Rabs_pos_eq by apply bpow_ge_0. apply bpow_le. lia. }
  split; split; auto; [apply generic_format_opp; exact F|rewrite Rabs_Ropp; exact A].
Qed.
Lemma sub_ok : forall x y, within 1 hi x -> within 1 hi y ->
  B2R (Bminus mode_NE x y) = rnd (B2R x - B2R y) /\ is_finite (Bminus mode_NE x y) = true /\ Rabs (B2R (Bminus mode_NE x y)) <= Bd.
Proof.
  intros x y [Fx Hx] [Fy Hy]. destruct bnd_Bd as [B1 B2]. unfold Bd in *.
  assert (E : bp 101 = 2 * bp 100) by (change 101%Z with (1 + 100)%Z; rewrite bpow_plus; reflexivity).
  destruct (sub_in _ _ B2 B1 x y Fx Fy ltac:(lra)) as [E1 [F1 H1]]. split; [exact E1|split; [exact F1|]]. apply Rabs_le. exact H1.
Qed.
(** the amounts by which a temperature is moved: a part of the difference *)
Lemma amount1 : forall x y s : b64, within 1 hi x -> within 1 hi y -> within 0 (995 / 1000) s ->
  exists t, 0 <= t <= 1 /\ is_finite (Bmult mode_NE (Bminus mode_NE x y) s) = true /\
    B2R (Bmult mode_NE (Bminus mode_NE x y) s) = t * (B2R x - B2R y).
Proof.
  intros x y s Wx Wy [Fs Hs]. destruct (sub_ok x y Wx Wy) as [E [F A]]. destruct bnd_Bd as [B1 B2].
  apply Rabs_le_inv in A. set (X := Bminus mode_NE x y) in *.
  assert (M : - Bd <= B2R X * B2R s <= Bd). { clear - A Hs. assert (0 <= Bd) by (unfold Bd; apply bpow_ge_0). split; nra. }
  destruct (mul_in _ _ B2 B1 X s F Fs M) as [E2 [F2 _]].
  destruct (part (B2R x) (B2R y) (B2R s)) as [t [Ht Et]]; try apply fmt_B2R; [apply Wx|apply Wy|lra|].
  exists t. split; [exact Ht|split; [exact F2|]]. rewrite E2, E, Rmult_comm. exact Et.
Qed.
Lemma amount2 : forall x y d s : b64, within 1 hi x -> within 1 hi y -> within 0 1 d -> within 0 (995 / 1000) s ->
  exists t, 0 <= t <= 1 /\ is_finite (Bmult mode_NE (Bmult mode_NE (Bminus mode_NE x y) d) s) = true /\
    B2R (Bmult mode_NE (Bmult mode_NE (Bminus mode_NE x y) d) s) = t * (B2R x - B2R y).
Proof.
  intros x y d s Wx Wy [Fd Hd] [Fs Hs]. destruct (sub_ok x y Wx Wy) as [E [F A]]. destruct bnd_Bd as [B1 B2].
  apply Rabs_le_inv in A. set (X := Bminus mode_NE x y) in *. assert (P : 0 <= Bd) by (unfold Bd; apply bpow_ge_0).
  assert (M : - Bd <= B2R X * B2R d <= Bd). { clear - A Hd P. split; nra. }
  destruct (mul_in _ _ B2 B1 X d F Fd M) as [E2 [F2 H2]]. set (Y := Bmult mode_NE X d) in *.
  destruct (part1 (B2R d) (B2R X) (fmt_B2R X) Hd) as [f [Hf Ef]].
  assert (M' : - Bd <= B2R Y * B2R s <= Bd). { clear - H2 Hs P. split; nra. }
  destruct (mul_in _ _ B2 B1 Y s F2 Fs M') as [E3 [F3 _]].
  destruct (part (B2R x) (B2R y) (f * B2R s)) as [t [Ht Et]]; try apply fmt_B2R; [apply Wx|apply Wy|clear - Hf Hs; split; [apply Rmult_le_pos; lra|]|].
  { apply Rle_trans with (1 * B2R s); [apply Rmult_le_compat_r; lra|lra]. }
  exists t. split; [exact Ht|split; [exact F3|]]. rewrite E3, E2, Ef. rewrite <- Et, <- E. f_equal. ring.
Qed.
(** adding or taking away such an amount does not leave the range *)
Lemma add_part : forall x y z t, bnd hi -> within 1 hi x -> within 1 hi y -> is_finite z = true -> 0 <= t <= 1 ->
  B2R z = t * (B2R y - B2R x) -> within 1 hi (Bplus mode_NE x z).
Proof.
  intros x y z t B [Fx Hx] [Fy Hy] Fz Ht E. apply (add_in 1 hi); auto; [apply (bnd_Z 1); reflexivity || lia|]. rewrite E. clear - Hx Hy Ht. split; nra.
Qed.
Lemma sub_part : forall x y z t, bnd hi -> within 1 hi x -> within 1 hi y -> is_finite z = true -> 0 <= t <= 1 ->
  B2R z = t * (B2R x - B2R y) -> within 1 hi (Bminus mode_NE x z).
Proof.
  intros x y z t B [Fx Hx] [Fy Hy] Fz Ht E. apply (sub_in 1 hi); auto; [apply (bnd_Z 1); reflexivity || lia|]. rewrite E. clear - Hx Hy Ht. split; nra.
Qed.
End Move.

(** ** one adaptation of three betas *)
Section Three.
Variable (L : Libm).
Notation A := (B64 L).
Notation fone := (bof 1).
Notation lit := (Bdiv mode_NE (bof 1) (bof 100)).
Notation half := (Bdiv mode_NE (bof 5) (bof 10)).

(** pow(x, 0.5) between 1 and 2^100 with a relative error of at most 1/256 *)
Definition pow_half : Prop := forall x : b64, is_finite x = true -> 1 <= B2R x <= bp 100 ->
  is_finite (l_pow L x half) = true /\ Rabs (B2R (l_pow L x half) - sqrt (B2R x)) <= sqrt (B2R x) / 256.

Section Body.
Variables (sc zs b0 b1 b2 a0 a1 t0 t1 t2 : b64).
Definition geo : b64 := Bdiv mode_NE t0 (l_pow L (Bdiv mode_NE (Bdiv mode_NE fone b0) (Bdiv mode_NE fone b2)) half).
Definition dev : b64 := Bdiv mode_NE (Bminus mode_NE a1 a0) (Bplus mode_NE a1 a0).
Definition up : b64 :=
  nfmin (A := A) (Bplus mode_NE t1 (if Beqb dev fone then Bmult mode_NE (Bminus mode_NE (Bdiv mode_NE fone b0) (Bdiv mode_NE fone b1)) (Bminus mode_NE fone zs)
    else Bmult mode_NE (Bmult mode_NE (Bminus mode_NE (Bdiv mode_NE fone b0) (Bdiv mode_NE fone b1)) dev) sc))
   (Bmult mode_NE (Bdiv mode_NE fone b0) (Bminus mode_NE fone lit)).
Definition down : b64 :=
  nfmax (A := A) (Bminus mode_NE t1 (if Beqb dev (bof (-1)) then Bmult mode_NE (Bminus mode_NE (Bdiv mode_NE fone b1) (Bdiv mode_NE fone b2)) (Bminus mode_NE fone zs)
    else Bmult mode_NE (Bmult mode_NE (Bminus mode_NE (Bdiv mode_NE fone b1) (Bdiv mode_NE fone b2)) (Bopp dev)) sc))
   (Bmult mode_NE (Bdiv mode_NE fone b2) (Bplus mode_NE fone lit)).
Definition mid : b64 :=
  if Bltb (bof 0) (Bplus mode_NE a0 a1) then
    if Bltb (bof 0) dev then up else if Beqb dev (bof 0) then geo else down
  else geo.
Definition low : b64 := if Bltb a0 lit then Bminus mode_NE t0 (Bmult mode_NE (Bminus mode_NE t0 t2) zs) else mid.
Definition fin : b64 := if Bltb a1 lit then Bminus mode_NE t0 (Bmult mode_NE (Bminus mode_NE t0 t2) (Bminus mode_NE fone zs)) else low.
Lemma body3 : ladder_body (A := A) sc zs 3 [b0; b1; b2] [a0; a1] 1 [t0; t1; t2] = OK [t0; fin; t2].
Proof.
  unfold ladder_body, fin, low, mid.
  change (zget [a0; a1] (1 - 1)) with (OK a0). change (zget [a0; a1] 1) with (OK a1). change (zget [a0; a1] 0) with (OK a0).
  change (zget [a0; a1] (3 - 2)) with (OK a1). cbn [rbind].
  change (nltb (a := A)) with (@Bltb prec emax). change (neqb (a := A)) with (@Beqb prec emax).
  change (nof (a := A)) with bof.
  change (ndiv (a := A) (nsub (a := A) a1 a0) (nadd (a := A) a1 a0)) with dev.
  change (nadd (a := A) a0 a1) with (Bplus mode_NE a0 a1).
  change (nlit (A := A) 1 2) with lit.
  destruct (Bltb (bof 0) (Bplus mode_NE a0 a1)); [destruct (Bltb (bof 0) dev); [|destruct (Beqb dev (bof 0))]|];
    destruct (Bltb a0 lit); destruct (Bltb a1 lit); reflexivity.
Qed.
End Body.
Lemma tune3 : forall sc zs b0 b1 b2 s0 s1 s2 p0 p1 p2 : b64,
  tune_ladder (A := A) sc zs 3 [s0; s1; s2] [p0; p1; p2] [b0; b1; b2] =
  OK [b0; Bdiv mode_NE fone (fin sc zs b0 b1 b2 (Bdiv mode_NE s0 p0) (Bdiv mode_NE s1 p1)
     (Bdiv mode_NE fone b0) (Bdiv mode_NE fone b1) (Bdiv mode_NE fone b2)); b2].
Proof.
  intros. unfold tune_ladder.
  change (ladder_T (A := A) 3 [b0; b1; b2]) with (OK [Bdiv mode_NE fone b0; Bdiv mode_NE fone b1; Bdiv mode_NE fone b2]).
  change (ladder_ar (A := A) 3 [s0; s1; s2] [p0; p1; p2]) with (OK [Bdiv mode_NE s0 p0; Bdiv mode_NE s1 p1]).
  cbn [rbind]. change (Z.to_nat (3 - 2)) with 1%nat. cbn [for_from]. rewrite body3. reflexivity.
Qed.

Lemma Bltb_tt : forall x y : b64, Bltb x y = true -> is_finite x = true -> is_finite y = true -> B2R x < B2R y.
Proof. intros x y H Fx Fy. rewrite (Bltb_correct prec emax x y Fx Fy) in H. revert H. case Rlt_bool_spec; [auto|discriminate]. Qed.
Lemma Bltb_ff : forall x y : b64, Bltb x y = false -> is_finite x = true -> is_finite y = true -> B2R y <= B2R x.
Proof. intros x y H Fx Fy. rewrite (Bltb_correct prec emax x y Fx Fy) in H. revert H. case Rlt_bool_spec; [discriminate|auto]. Qed.
Lemma Bltb_nan : forall x y : b64, is_nan y = true -> Bltb x y = false.
Proof. intros x y H. destruct y; try discriminate. destruct x as [[]|[]| |[]]; reflexivity. Qed.
Lemma Bltb_nan1 : forall x y : b64, is_nan x = true -> Bltb x y = false.
Proof. intros x y H. destruct x; try discriminate. destruct y as [[]|[]| |[]]; reflexivity. Qed.
Lemma plus_nan : forall x y : b64, is_nan x = true \/ is_nan y = true -> is_nan (Bplus mode_NE x y) = true.
Proof. intros x y [H|H]; [destruct x|destruct y]; try discriminate; [destruct y|destruct x]; reflexivity. Qed.
Lemma one_ok : B2R fone = 1 /\ is_finite fone = true.
Proof. apply (bof_ok 1). reflexivity || lia. Qed.
Lemma zero_ok : B2R (bof 0) = 0 /\ is_finite (bof 0) = true.
Proof. apply (bof_ok 0). reflexivity || lia. Qed.
Lemma one_one : Bdiv mode_NE fone fone = fone.
Proof. apply B2SF_inj. vm_compute. reflexivity. Qed.
Lemma rnd_pos : forall x, / 1000 <= x -> x * (1 - / 1000000) <= rnd x <= x * (1 + / 1000000).
Proof.
  intros x H. destruct (rnd_rel x) as [H1 H2].
  { apply Rle_trans with (bp (-20)); [apply bpow_le; lia|]. apply Rle_trans with (/ 1000); [simpl; lra|exact H]. }
  pose proof bp53 as P. assert (x * bp (-53) <= x * / 1000000) by (apply Rmult_le_compat_l; lra). lra.
Qed.
Lemma lit_ok : is_finite lit = true /\ 99 / 10000 <= B2R lit <= 101 / 10000.
Proof.
  destruct one_ok as [E1 F1]. destruct (bof_ok 100 ltac:(reflexivity || lia)) as [E2 F2].
  destruct (div_in 0 1 (bnd_Z 0 ltac:(lia)) (bnd_Z 1 ltac:(lia)) fone (bof 100) F1) as [E [F _]]; [rewrite E2; lra|rewrite E1, E2; lra|].
  split; [exact F|]. rewrite E, E1, E2. pose proof (rnd_pos (1 / 100)). lra.
Qed.
Lemma pick_min : forall (P : b64 -> Prop) x y, P x -> P y -> P (nfmin (A := A) x y).
Proof. intros P x y Hx Hy. unfold nfmin. destruct (nnan (A := A) x); auto. destruct (nnan (A := A) y); auto. destruct (nltb (a := A) y x); auto. Qed.
Lemma pick_max : forall (P : b64 -> Prop) x y, P x -> P y -> P (nfmax (A := A) x y).
Proof. intros P x y Hx Hy. unfold nfmax. destruct (nnan (A := A) x); auto. destruct (nnan (A := A) y); auto. destruct (nltb (a := A) x y); auto. Qed.

(** swap rates: a quotient of counts, or 0/0 *)
Definition rate64 (a : b64) : Prop := is_nan a = true \/ within 0 1 a.
Lemma rate_counts : forall s p : Z, (0 <= s <= p)%Z -> (p <= 2 ^ 53)%Z -> rate64 (Bdiv mode_NE (bof s) (bof p)).
Proof.
  intros s p H Hp. destruct (Z.eq_dec p 0) as [->|N].
  - left. replace s with 0%Z by lia. reflexivity.
  - right. destruct (bof_ok s ltac:(lia)) as [E1 F1]. destruct (bof_ok p ltac:(lia)) as [E2 F2].
    assert (Pp : 0 < IZR p) by (apply IZR_lt; lia). pose proof (IZR_le 0 s ltac:(lia)) as H0. pose proof (IZR_le s p ltac:(lia)) as H1.
    apply (div_in 0 1 (bnd_Z 0 ltac:(lia)) (bnd_Z 1 ltac:(lia))); [exact F1|rewrite E2; lra|]. rewrite E1, E2. split.
    + apply Rmult_le_pos; [lra|left; apply Rinv_0_lt_compat; lra].
    + apply (Rmult_le_reg_r (IZR p)); [lra|]. unfold Rdiv. rewrite Rmult_assoc, Rinv_l by lra. lra.
Qed.

Section Range.
Variables (sc zs b0 b1 a0 a1 : b64) (hi : R).
Notation t0 := (Bdiv mode_NE fone b0).
Notation t1 := (Bdiv mode_NE fone b1).
Hypothesis Hpow : pow_half.
Hypothesis Hsc : within 0 (99 / 100) sc.
Hypothesis Hzs : within (1 / 100) (99 / 100) zs.
Hypothesis Hhi : bnd hi.
Hypothesis Hhi' : hi <= bp 100.
Hypothesis W0 : within (102 / 100) hi t0.
Hypothesis W1 : within 1 hi t1.
Hypothesis R0 : rate64 a0.
Hypothesis R1 : rate64 a1.

Lemma r_hi : 1 <= hi <= bp 100.
Proof. destruct W0 as [_ H]. lra. Qed.
Lemma r_t0 : within 1 hi t0.
Proof. destruct W0 as [F H]. split; [exact F|lra]. Qed.
Lemma r_one : within 1 hi fone.
Proof. destruct one_ok as [E F]. split; [exact F|]. rewrite E. pose proof r_hi. lra. Qed.
Lemma r_sc : within 0 (995 / 1000) sc.
Proof. destruct Hsc as [F H]. split; [exact F|lra]. Qed.
Lemma r_zs : within 0 (995 / 1000) zs.
Proof. destruct Hzs as [F H]. split; [exact F|lra]. Qed.
Lemma r_zs1 : within 0 (995 / 1000) (Bminus mode_NE fone zs).
Proof.
  destruct Hzs as [F H]. destruct one_ok as [E1 F1].
  destruct (sub_in 0 1 (bnd_Z 0 ltac:(lia)) (bnd_Z 1 ltac:(lia)) fone zs F1 F) as [E [F2 H2]]; [rewrite E1; lra|].
  split; [exact F2|]. split; [lra|]. rewrite E, E1. pose proof (rnd_pos (1 - B2R zs)). lra.
Qed.
Lemma r_clip0 : within 1 hi (Bmult mode_NE t0 (Bminus mode_NE fone lit)).
Proof.
  destruct lit_ok as [F H]. destruct one_ok as [E1 F1]. destruct W0 as [F0 H0].
  destruct (sub_in 0 1 (bnd_Z 0 ltac:(lia)) (bnd_Z 1 ltac:(lia)) fone lit F1 F) as [E [F2 H2]]; [rewrite E1; lra|].
  assert (C : 9897 / 10000 <= B2R (Bminus mode_NE fone lit)) by (rewrite E, E1; pose proof (rnd_pos (1 - B2R lit)); lra).
  apply (mul_in 1 hi (bnd_Z 1 ltac:(lia)) Hhi); auto. set (c := B2R (Bminus mode_NE fone lit)) in *. clear - C H2 H0. split; nra.
Qed.
Lemma r_clip2 : within 1 hi (Bmult mode_NE fone (Bplus mode_NE fone lit)).
Proof.
  destruct lit_ok as [F H]. destruct one_ok as [E1 F1]. pose proof W0 as [_ H0].
  destruct (add_in 1 2 (bnd_Z 1 ltac:(lia)) (bnd_Z 2 ltac:(lia)) fone lit F1 F) as [E [F2 H2]]; [rewrite E1; lra|].
  assert (C : B2R (Bplus mode_NE fone lit) <= 10102 / 10000) by (rewrite E, E1; pose proof (rnd_pos (1 + B2R lit)); lra).
  apply (mul_in 1 hi (bnd_Z 1 ltac:(lia)) Hhi); auto. rewrite E1. lra.
Qed.
Lemma r_geo : within 1 hi (geo b0 fone t0).
Proof.
  unfold geo. rewrite one_one. destruct W0 as [F0 H0]. destruct one_ok as [E1 F1].
  destruct (div_in 1 hi (bnd_Z 1 ltac:(lia)) Hhi t0 fone F0) as [E [F _]]; [rewrite E1; lra|rewrite E1; lra|].
  assert (Ex : B2R (Bdiv mode_NE t0 fone) = B2R t0). { rewrite E, E1. unfold Rdiv. rewrite Rinv_1, Rmult_1_r. apply rnd_id, fmt_B2R. }
  destruct (Hpow _ F) as [Fp Hp]; [rewrite Ex; lra|]. rewrite Ex in Hp. set (e := l_pow L (Bdiv mode_NE t0 fone) half) in *.
  set (q := sqrt (B2R t0)) in *. assert (Q : q * q = B2R t0) by (apply sqrt_sqrt; lra). assert (Q0 : 0 <= q) by apply sqrt_pos.
  assert (Q1 : 1009 / 1000 <= q) by nra. apply Rabs_le_inv in Hp.
  assert (P : 1 <= B2R e) by lra. assert (U : B2R e <= B2R t0) by (rewrite <- Q; nra).
  apply (div_in 1 hi (bnd_Z 1 ltac:(lia)) Hhi); [exact F0|lra|]. split.
  - apply (Rmult_le_reg_r (B2R e)); [lra|]. unfold Rdiv. rewrite Rmult_assoc, Rinv_l by lra. lra.
  - apply Rle_trans with (B2R t0); [|lra]. apply (Rmult_le_reg_r (B2R e)); [lra|]. unfold Rdiv. rewrite Rmult_assoc, Rinv_l by lra. nra.
Qed.
Lemma r_dev : Bltb (bof 0) (Bplus mode_NE a0 a1) = true -> within (-1) 1 (dev a0 a1).
Proof.
  intro H. assert (N : is_nan a0 = true \/ is_nan a1 = true -> False).
  { intro K. rewrite (Bltb_nan _ _ (plus_nan _ _ K)) in H. discriminate. }
  destruct R0 as [N0|[F0 H0]]; [exfalso; auto|]. destruct R1 as [N1|[F1 H1]]; [exfalso; auto|]. destruct zero_ok as [E0 Z0].
  destruct (add_in 0 2 (bnd_Z 0 ltac:(lia)) (bnd_Z 2 ltac:(lia)) a0 a1 F0 F1 ltac:(lra)) as [Ea [Fa _]].
  destruct (add_in 0 2 (bnd_Z 0 ltac:(lia)) (bnd_Z 2 ltac:(lia)) a1 a0 F1 F0 ltac:(lra)) as [Eb [Fb Hb]].
  destruct (sub_in (-1) 1 (bnd_Z (-1) ltac:(lia)) (bnd_Z 1 ltac:(lia)) a1 a0 F1 F0 ltac:(lra)) as [Ed [Fd Hd]].
  apply Bltb_tt in H; auto. rewrite E0, Ea, Rplus_comm, <- Eb in H.
  assert (Q : - B2R (Bplus mode_NE a1 a0) <= B2R (Bminus mode_NE a1 a0) <= B2R (Bplus mode_NE a1 a0)).
  { rewrite Eb, Ed. split; [rewrite <- rnd_opp|]; apply rnd_le; lra. }
  unfold dev. set (s := B2R (Bplus mode_NE a1 a0)) in *. set (d := B2R (Bminus mode_NE a1 a0)) in *.
  apply (div_in (-1) 1 (bnd_Z (-1) ltac:(lia)) (bnd_Z 1 ltac:(lia))); [exact Fd|unfold s in H; lra|]. fold s d.
  split; apply (Rmult_le_reg_r s); try lra; unfold Rdiv; rewrite Rmult_assoc, Rinv_l by lra; lra.
Qed.
Lemma r_up : within 0 1 (dev a0 a1) -> within 1 hi (up sc zs b0 b1 a0 a1 t1).
Proof.
  intro D. unfold up. apply (pick_min (within 1 hi)); [|exact r_clip0]. destruct (Beqb (dev a0 a1) fone).
  - destruct (amount1 hi r_hi t0 t1 _ r_t0 W1 r_zs1) as [t [Ht [F E]]]. exact (add_part hi _ _ _ t Hhi W1 r_t0 F Ht E).
  - destruct (amount2 hi r_hi t0 t1 _ _ r_t0 W1 D r_sc) as [t [Ht [F E]]]. exact (add_part hi _ _ _ t Hhi W1 r_t0 F Ht E).
Qed.
Lemma r_down : within 0 1 (Bopp (dev a0 a1)) -> within 1 hi (down sc zs b1 fone a0 a1 t1).
Proof.
  intro D. unfold down. rewrite one_one. apply (pick_max (within 1 hi)); [|exact r_clip2]. destruct (Beqb (dev a0 a1) (bof (-1))).
  - destruct (amount1 hi r_hi t1 fone _ W1 r_one r_zs1) as [t [Ht [F E]]]. exact (sub_part hi _ _ _ t Hhi W1 r_one F Ht E).
  - destruct (amount2 hi r_hi t1 fone _ _ W1 r_one D r_sc) as [t [Ht [F E]]]. exact (sub_part hi _ _ _ t Hhi W1 r_one F Ht E).
Qed.
Lemma r_mid : within 1 hi (mid sc zs b0 b1 fone a0 a1 t0 t1).
Proof.
  unfold mid. destruct (Bltb (bof 0) (Bplus mode_NE a0 a1)) eqn:E; [|exact r_geo].
  destruct (r_dev E) as [Fd Hd]. destruct zero_ok as [E0 Z0]. destruct (Bltb (bof 0) (dev a0 a1)) eqn:E1.
  - apply r_up. apply Bltb_tt in E1; auto. split; [exact Fd|lra].
  - destruct (Beqb (dev a0 a1) (bof 0)); [exact r_geo|]. apply r_down. apply Bltb_ff in E1; auto.
    split; [rewrite is_finite_Bopp; exact Fd|]. rewrite B2R_Bopp. lra.
Qed.
Lemma r_fin : within 1 hi (fin sc zs b0 b1 fone a0 a1 t0 t1 fone).
Proof.
  assert (Low : within 1 hi (low sc zs b0 b1 fone a0 a1 t0 t1 fone)).
  { unfold low. destruct (Bltb a0 lit); [|exact r_mid]. destruct (amount1 hi r_hi t0 fone _ r_t0 r_one r_zs) as [t [Ht [F E]]].
    exact (sub_part hi _ _ _ t Hhi r_t0 r_one F Ht E). }
  unfold fin. destruct (Bltb a1 lit); [|exact Low]. destruct (amount1 hi r_hi t0 fone _ r_t0 r_one r_zs1) as [t [Ht [F E]]].
  exact (sub_part hi _ _ _ t Hhi r_t0 r_one F Ht E).
Qed.
End Range.

(** a beta between lo and 1 has a temperature between 1 and 1/lo, and back *)
Lemma recip_ok : forall x : b64, is_finite x = true -> bp (-1000) <= B2R x <= bp 1000 ->
  is_finite (Bdiv mode_NE fone x) = true /\ B2R (Bdiv mode_NE fone x) = rnd (1 / B2R x).
Proof.
  intros x F H. destruct one_ok as [E1 F1]. pose proof (bpow_gt_0 radix2 (-1000)) as P.
  assert (B : bnd (bp 1000)). { split; [replace (bp 1000) with (IZR 1 * bp 1000) by ring; apply fmt_scaled; [reflexivity|lia]|rewrite Rabs_pos_eq by apply bpow_ge_0; lra]. }
  assert (I : / B2R x <= bp 1000). { replace (bp 1000) with (/ bp (-1000)) by (rewrite <- bpow_opp; reflexivity). apply Rinv_le_contravar; lra. }
  assert (I0 : 0 < / B2R x) by (apply Rinv_0_lt_compat; lra).
  destruct (div_in 0 (bp 1000) (bnd_Z 0 ltac:(lia)) B fone x F1 ltac:(lra)) as [E [F2 _]]; [rewrite E1; unfold Rdiv; lra|].
  split; [exact F2|]. rewrite E, E1. reflexivity.
Qed.
Lemma recip_anti : forall x y, 0 < x -> x <= y -> rnd (1 / y) <= rnd (1 / x).
Proof. intros x y P H. apply rnd_le. unfold Rdiv. rewrite !Rmult_1_l. apply Rinv_le_contravar; auto. Qed.

(** one adaptation; [hi] bounds the temperatures and its rounded reciprocal the betas *)
Lemma adapt64 : forall (sc zs b0 b1 : b64) hi (s0 s1 s2 p0 p1 p2 : Z), pow_half ->
  within 0 (99 / 100) sc -> within (1 / 100) (99 / 100) zs -> bnd hi -> hi <= bp 100 ->
  is_finite b0 = true -> 0 < B2R b0 <= 98 / 100 -> rnd (1 / B2R b0) <= hi -> rnd (1 / rnd (1 / hi)) <= hi ->
  within (rnd (1 / hi)) 1 b1 -> (0 <= s0 <= p0)%Z -> (0 <= s1 <= p1)%Z -> (p0 <= 2 ^ 53)%Z -> (p1 <= 2 ^ 53)%Z ->
  exists b1', tune_ladder (A := A) sc zs 3 [bof s0; bof s1; bof s2] [bof p0; bof p1; bof p2] [b0; b1; fone] = OK [b0; b1'; fone] /\
    within (rnd (1 / hi)) 1 b1'.
Proof.
  intros sc zs b0 b1 hi s0 s1 s2 p0 p1 p2 HP Hsc Hzs Bh Hh F0 [P0 H0] Hi0 Hii [F1 H1] C0 C1 C2 C3.
  assert (One : fmt 1) by (apply (fmt_IZR 1); lia).
  assert (K0 : 10204 / 10000 <= 1 / B2R b0).
  { apply Rle_trans with (1 / (98 / 100)); [lra|]. unfold Rdiv at 1 3. rewrite !Rmult_1_l. apply Rinv_le_contravar; lra. }
  pose proof (rnd_pos (1 / B2R b0) ltac:(lra)) as K1.
  assert (Ph : 102 / 100 <= hi) by lra.
  assert (L0 : bp (-101) <= 1 / hi).
  { unfold Rdiv. rewrite Rmult_1_l. apply Rle_trans with (/ bp 100); [rewrite <- bpow_opp; apply bpow_le; lia|]. apply Rinv_le_contravar; lra. }
  assert (L1 : bp (-101) <= rnd (1 / hi)). { apply rnd_ge_fmt; [|exact L0]. replace (bp (-101)) with (IZR 1 * bp (-101)) by ring. apply fmt_scaled; [reflexivity|lia]. }
  pose proof (bpow_gt_0 radix2 (-101)) as Pp. assert (Pm : bp (-1000) <= bp (-101)) by (apply bpow_le; lia).
  assert (Pq : 1 <= bp 1000) by (change 1 with (bp 0); apply bpow_le; lia).
  assert (G0 : bp (-1000) <= B2R b0).
  { destruct (Rle_or_lt (bp (-101)) (B2R b0)) as [G|G]; [lra|exfalso].
    assert (bp 101 <= rnd (1 / B2R b0)).
    { apply rnd_ge_fmt; [replace (bp 101) with (IZR 1 * bp 101) by ring; apply fmt_scaled; [reflexivity|lia]|].
      unfold Rdiv. rewrite Rmult_1_l. change 101%Z with (- (-101))%Z. rewrite bpow_opp. apply Rinv_le_contravar; lra. }
    assert (bp 100 < bp 101) by (apply bpow_lt; lia). lra. }
  destruct (recip_ok b0 F0 ltac:(lra)) as [T0 E0]. destruct (recip_ok b1 F1 ltac:(lra)) as [T1 E1].
  assert (W0 : within (102 / 100) hi (Bdiv mode_NE fone b0)) by (split; [exact T0|rewrite E0; lra]).
  assert (W1 : within 1 hi (Bdiv mode_NE fone b1)).
  { split; [exact T1|]. rewrite E1. split.
    - apply rnd_ge_fmt; [exact One|]. unfold Rdiv. rewrite Rmult_1_l. apply Rle_trans with (/ 1); [rewrite Rinv_1; lra|apply Rinv_le_contravar; lra].
    - apply Rle_trans with (rnd (1 / rnd (1 / hi))); [apply recip_anti; lra|exact Hii]. }
  rewrite tune3. rewrite one_one.
  pose proof (r_fin sc zs b0 b1 _ _ hi HP Hsc Hzs Bh Hh W0 W1 (rate_counts s0 p0 C0 C2) (rate_counts s1 p1 C1 C3)) as [Ff Hf].
  set (t := fin _ _ _ _ _ _ _ _ _ _) in *. exists (Bdiv mode_NE fone t). split; [reflexivity|].
  assert (X : bp 100 <= bp 1000) by (apply bpow_le; lia). assert (Y : bp (-1000) <= 1) by (change 1 with (bp 0); apply bpow_le; lia).
  destruct (recip_ok t Ff ltac:(lra)) as [Ft Et]. split; [exact Ft|]. rewrite Et. split; [apply recip_anti; lra|].
  apply rnd_le_fmt; [exact One|]. unfold Rdiv. rewrite Rmult_1_l. apply Rle_trans with (/ 1); [apply Rinv_le_contravar; lra|rewrite Rinv_1; lra].
Qed.

(** ** along a run *)
Lemma three_lists : forall f : nat -> Z, map (fun k => bof (f k)) (seq 0 3) = [bof (f 0%nat); bof (f 1%nat); bof (f 2%nat)].
Proof. reflexivity. Qed.
Lemma run64 : forall (S : Setup A), Legal S -> s_n S = 3%nat -> forall (b0 b1 : b64) hi, pow_half ->
  within 0 (99 / 100) (scale_tune_ladder (s_cfg S)) -> within (1 / 100) (99 / 100) (zero_stretch (s_cfg S)) -> bnd hi -> hi <= bp 100 ->
  (Z.max 0 (N_swap (s_cfg S)) * n_iter_a_stack (s_cfg S) <= 2 ^ 53)%Z ->
  firstn 3 (Beta_Values (s_cfg S)) = [b0; b1; fone] ->
  is_finite b0 = true -> 0 < B2R b0 <= 98 / 100 -> rnd (1 / B2R b0) <= hi -> rnd (1 / rnd (1 / hi)) <= hi -> within (rnd (1 / hi)) 1 b1 ->
  forall D G0 h Gf, history S D G0 h Gf -> forall G, In G (states G0 h Gf) -> forall r, (r < 3)%nat ->
  exists b1', l_beta (loc_at G r) = [b0; b1'; fone] /\ within (rnd (1 / hi)) 1 b1'.
Proof.
  intros S HL H3 b0 b1 hi HP Hsc Hzs Bh Hh HN EB F0 H0 Hi0 Hii W1 D G0 h Gf HH G HG r Hr.
  destruct (betas_hist S HL D (fun b => exists b1', b = [b0; b1'; fone] /\ within (rnd (1 / hi)) 1 b1')) with (G0 := G0) (h := h) (Gf := Gf) (G := G)
    as [b [Lb [[c [Eb Hc]] Hb]]]; auto.
  - exists b1. rewrite H3. auto.
  - intros s b b' Hs HT Lb [c [-> Hc]] HE.
    destruct (run_stats A S HL D G0 h Gf HH HT (2 ^ 53)%Z (exact_b64 L) s Hs) as [wss [H2 [Ep Es]]].
    { pose proof (batch_count S HL D G0 h Gf HH s Hs). nia. }
    rewrite H3 in *. pose proof (three_lists (fun k => tried k (concat wss))) as Q1. pose proof (three_lists (fun k => done k (concat wss))) as Q2.
    cbv beta in Q1, Q2.
    assert (Ep' := eq_trans Ep Q1). assert (Es' := eq_trans Es Q2). rewrite Ep', Es' in HE. clear Ep Es Q1 Q2.
    assert (Few : forall k, (tried k (concat wss) <= 2 ^ 53)%Z).
    { intro k. pose proof (proj2 (tried_range k (concat wss))) as T. eapply Z.le_trans; [exact T|].
      assert (K : length (concat wss) = (length (sr_batches s) * Z.to_nat (N_swap (s_cfg S)))%nat).
      { clear - H2. induction H2 as [|x ws bl wss [Lx _] H2 IH]; auto. cbn [concat length]. rewrite app_length, IH, Lx. lia. }
      rewrite K. pose proof (batch_count S HL D G0 h Gf HH s Hs). nia. }
    assert (Tr : forall k, (0 <= done k (concat wss) <= tried k (concat wss))%Z) by (intro k; apply tried_range).
    destruct (adapt64 (scale_tune_ladder (s_cfg S)) (zero_stretch (s_cfg S)) b0 c hi
      (done 0 (concat wss)) (done 1 (concat wss)) (done 2 (concat wss)) (tried 0 (concat wss)) (tried 1 (concat wss)) (tried 2 (concat wss)))
      as [c' [E1 W]]; auto.
    assert (K : OK [b0; c'; fone] = OK b') by (rewrite <- E1; exact HE). injection K; intros <-. eauto.
  - exists c. rewrite (Hb r ltac:(lia)). auto.
Qed.
End Three.
