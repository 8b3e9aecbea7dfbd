(** The boundary map of the shipped models, in binary64 and over the reals. *)
From Coq Require Import ZArith Arith List Bool Reals Lia Lra Psatz.
From Flocq Require Import Core IEEE754.BinarySingleNaN.
From Verif Require Import Base Arith B64 Rand B64Facts UserModels.
Import ListNotations.
Open Scope R_scope.

(** ** Doubles with infinities, as points of a line *)
Definition bx (x : b64) : R :=
  match x with
  | B754_infinity s => if s then - bpow radix2 emax else bpow radix2 emax
  | _ => B2R x
  end.

Lemma bx_finite : forall x, is_finite x = true -> bx x = B2R x.
Proof. intros x H. destruct x; auto; discriminate. Qed.

Lemma bx_bound : forall x, is_finite x = true -> - bpow radix2 emax < bx x < bpow radix2 emax.
Proof.
  intros x H. rewrite bx_finite by auto. pose proof (abs_B2R_lt_emax prec emax x) as P.
  apply Rabs_lt_inv in P. auto.
Qed.

Lemma inf_case : forall x : b64, is_nan x = false -> is_finite x = false ->
  x = B754_infinity false \/ x = B754_infinity true.
Proof. intros x Hn Hf. destruct x as [s|s| |s m e H]; try discriminate. destruct s; auto. Qed.

Lemma bltb_bx : forall x y : b64, is_nan x = false -> is_nan y = false ->
  Bltb x y = true <-> bx x < bx y.
Proof.
  intros x y Nx Ny.
  pose proof (bpow_gt_0 radix2 emax) as P.
  destruct (is_finite x) eqn:Fx, (is_finite y) eqn:Fy.
  - rewrite (Bltb_correct prec emax x y Fx Fy), !bx_finite by auto.
    destruct (Rlt_bool_spec (B2R x) (B2R y)); split; intros; auto; try discriminate; lra.
  - pose proof (bx_bound x Fx). destruct (inf_case y Ny Fy) as [->| ->]; cbn [bx] in *.
    + split; intros Hq; [lra|]. destruct x as [s|s| |s m e Hx]; try discriminate; try (destruct s; reflexivity).
    + split; intros; [|lra]. destruct x as [s|s| |s m e Hx]; try discriminate; destruct s; discriminate.
  - pose proof (bx_bound y Fy). destruct (inf_case x Nx Fx) as [->| ->]; cbn [bx] in *.
    + split; intros; [|lra]. destruct y as [s|s| |s m e Hx]; try discriminate; destruct s; discriminate.
    + split; intros; [lra|]. destruct y as [s|s| |s m e Hx]; try discriminate; destruct s; reflexivity.
  - destruct (inf_case x Nx Fx) as [->| ->], (inf_case y Ny Fy) as [->| ->]; cbn [bx];
      split; intros; try discriminate; try lra; reflexivity.
Qed.

Lemma bltb_nan_l : forall y : b64, Bltb B754_nan y = false.
Proof. intros. reflexivity. Qed.
Lemma bltb_nan_r : forall x : b64, Bltb x B754_nan = false.
Proof. intros. destruct x as [s|s| |s m e H]; try destruct s; reflexivity. Qed.

Lemma beqb_refl : forall x : b64, Beqb x x = negb (is_nan x).
Proof.
  intros x. destruct x as [s|s| |s m e H]; try reflexivity.
  - destruct s; reflexivity.
  - rewrite Beqb_correct by reflexivity. rewrite Req_bool_true; auto.
Qed.

Lemma nnan_b64 : forall L (x : b64), nnan (A := B64 L) x = is_nan x.
Proof. intros. unfold nnan. cbn [neqb B64]. rewrite beqb_refl, negb_involutive. auto. Qed.

Lemma nan_only : forall x : b64, is_nan x = true -> x = B754_nan.
Proof. intros x H. destruct x; try discriminate. auto. Qed.

(** fmax / fmin when the second operand is not NaN *)
Lemma fmax_bx : forall L (x y : b64), is_nan y = false ->
  let r := nfmax (A := B64 L) x y in
  is_nan r = false /\ bx y <= bx r /\ (is_nan x = false -> bx x <= bx r /\ (r = x \/ r = y)) /\ (r = x \/ r = y).
Proof.
  intros L x y Ny r. unfold r, nfmax. rewrite !nnan_b64. rewrite Ny. cbn [nltb B64].
  destruct (is_nan x) eqn:Nx.
  - repeat split; auto; try lra; try discriminate.
  - destruct (Bltb x y) eqn:Lt.
    + apply bltb_bx in Lt; auto. repeat split; auto; lra.
    + assert (~ bx x < bx y) by (intros Hlt; apply bltb_bx in Hlt; auto; congruence).
      repeat split; auto; lra.
Qed.
Lemma fmin_bx : forall L (x y : b64), is_nan y = false ->
  let r := nfmin (A := B64 L) x y in
  is_nan r = false /\ bx r <= bx y /\ (is_nan x = false -> bx r <= bx x /\ (r = x \/ r = y)) /\ (r = x \/ r = y).
Proof.
  intros L x y Ny r. unfold r, nfmin. rewrite !nnan_b64. rewrite Ny. cbn [nltb B64].
  destruct (is_nan x) eqn:Nx.
  - repeat split; auto; try lra; try discriminate.
  - destruct (Bltb y x) eqn:Lt.
    + apply bltb_bx in Lt; auto. repeat split; auto; lra.
    + assert (~ bx y < bx x) by (intros Hlt; apply bltb_bx in Hlt; auto; congruence).
      repeat split; auto; lra.
Qed.

(** a double between two finite doubles is finite *)
Lemma between_is_finite : forall x lo hi : b64, is_nan x = false -> is_finite lo = true -> is_finite hi = true ->
  bx lo <= bx x <= bx hi -> is_finite x = true /\ B2R lo <= B2R x <= B2R hi.
Proof.
  intros x lo hi N Fl Fh H. pose proof (bx_bound lo Fl). pose proof (bx_bound hi Fh).
  destruct (is_finite x) eqn:F.
  - rewrite !bx_finite in H by auto. auto.
  - destruct (inf_case x N F) as [->| ->]; cbn [bx] in *; lra.
Qed.

(** overflow of a sum or difference *)
Lemma overflow_inf : forall (z : b64) s, B2SF z = binary_overflow prec emax mode_NE s -> z = B754_infinity s.
Proof.
  intros z s H. unfold binary_overflow in H. simpl in H. destruct z; simpl in H; inversion H; auto.
Qed.

Lemma bplus_bx : forall x y : b64, is_finite x = true -> is_finite y = true ->
  is_nan (Bplus mode_NE x y) = false /\
  (bx (Bplus mode_NE x y) = rnd (B2R x + B2R y) \/
   (bx (Bplus mode_NE x y) = bpow radix2 emax /\ 0 <= B2R x /\ 0 <= B2R y) \/
   (bx (Bplus mode_NE x y) = - bpow radix2 emax /\ B2R x <= 0 /\ B2R y <= 0)).
Proof.
  intros x y Fx Fy. pose proof (Bplus_correct prec emax _ _ mode_NE x y Fx Fy) as P.
  change (round radix2 (SpecFloat.fexp prec emax) (round_mode mode_NE)) with rnd in P.
  destruct (Rlt_bool_spec (Rabs (rnd (B2R x + B2R y))) (bpow radix2 emax)).
  - destruct P as [V [F _]]. split.
    + destruct (Bplus mode_NE x y); auto; discriminate.
    + left. rewrite bx_finite; auto.
  - destruct P as [P S]. apply overflow_inf in P. rewrite P. split; auto. right.
    assert (SG : forall z : b64, is_finite z = true -> (Bsign z = true -> B2R z <= 0) /\ (Bsign z = false -> 0 <= B2R z)).
    { intros z Fz. destruct z as [s|s| |s m e Hz]; try discriminate; simpl; try (split; intros; lra).
      split; intros ->; unfold F2R; simpl.
      - change (IZR (Z.neg m)) with (- IZR (Z.pos m)). assert (0 < IZR (Z.pos m)) by (apply IZR_lt; lia).
        pose proof (bpow_gt_0 radix2 e). nra.
      - assert (0 < IZR (Z.pos m)) by (apply IZR_lt; lia). pose proof (bpow_gt_0 radix2 e). nra. }
    destruct (SG x Fx), (SG y Fy). cbn [bx]. destruct (Bsign x) eqn:Sx; [right|left]; rewrite <- S in *; auto.
Qed.

Lemma bminus_eq : forall x y : b64, is_finite y = true -> is_finite x = true -> Bminus mode_NE x y = Bplus mode_NE x (Bopp y).
Proof.
  intros x y Fy Fx. destruct x as [s|s| |s m e Hx], y as [s'|s'| |s' m' e' Hy]; try discriminate; try (destruct s, s'; reflexivity).
Qed.

Lemma bminus_bx : forall x y : b64, is_finite x = true -> is_finite y = true ->
  is_nan (Bminus mode_NE x y) = false /\
  (bx (Bminus mode_NE x y) = rnd (B2R x - B2R y) \/
   (bx (Bminus mode_NE x y) = bpow radix2 emax /\ 0 <= B2R x /\ B2R y <= 0) \/
   (bx (Bminus mode_NE x y) = - bpow radix2 emax /\ B2R x <= 0 /\ 0 <= B2R y)).
Proof.
  intros x y Fx Fy. rewrite bminus_eq by auto.
  assert (Fo : is_finite (Bopp y) = true) by (rewrite is_finite_Bopp; auto).
  destruct (bplus_bx x (Bopp y) Fx Fo) as [N H]. split; auto.
  rewrite !B2R_Bopp in H. unfold Rminus. destruct H as [H|[[H1 [H2 H3]]|[H1 [H2 H3]]]]; [left; auto|right; left|right; right]; repeat split; auto; lra.
Qed.

(** subtracting a lower finite bound from a larger number *)
Lemma minus_ge0 : forall x y : b64, is_nan x = false -> is_finite y = true -> bx y <= bx x ->
  is_nan (Bminus mode_NE x y) = false /\ 0 <= bx (Bminus mode_NE x y).
Proof.
  intros x y Nx Fy H. pose proof (bpow_gt_0 radix2 emax) as P. pose proof (bx_bound y Fy).
  destruct (is_finite x) eqn:Fx.
  - destruct (bminus_bx x y Fx Fy) as [N [E|[[E _]|[E [H1 H2]]]]]; split; auto; rewrite E.
    + rewrite <- rnd_0. apply rnd_le. rewrite !bx_finite in H by auto. lra.
    + lra.
    + exfalso. (* x <= 0 <= y <= x, so both are 0 and nothing overflows *)
      rewrite !bx_finite in H by auto.
      pose proof (Bminus_correct prec emax _ _ mode_NE x y Fx Fy) as Q.
      change (round radix2 (SpecFloat.fexp prec emax) (round_mode mode_NE)) with rnd in Q.
      replace (B2R x - B2R y) with 0 in Q by lra. rewrite rnd_0, Rabs_R0, Rlt_bool_true in Q by auto.
      destruct Q as [Q1 [Q2 _]]. rewrite bx_finite in E by auto. lra.
  - destruct (inf_case x Nx Fx) as [->| ->]; cbn [bx] in *; [|lra].
    destruct y as [s|s| |s m e Hy]; try discriminate; cbn; fold emax; split; auto; lra.
Qed.

(** the same with the operands the other way: lo - x for x <= lo *)
Lemma minus_ge0' : forall x y : b64, is_nan x = false -> is_finite y = true -> bx x <= bx y ->
  is_nan (Bminus mode_NE y x) = false /\ 0 <= bx (Bminus mode_NE y x).
Proof.
  intros x y Nx Fy H. pose proof (bpow_gt_0 radix2 emax) as P. pose proof (bx_bound y Fy).
  destruct (is_finite x) eqn:Fx.
  - apply minus_ge0; auto. destruct y; try discriminate; auto.
  - destruct (inf_case x Nx Fx) as [->| ->]; cbn [bx] in *; [lra|].
    destruct y as [s|s| |s m e Hy]; try discriminate; cbn; fold emax; split; auto; lra.
Qed.

Lemma minus_le : forall hi d : b64, is_finite hi = true -> is_nan d = false -> 0 <= bx d ->
  is_nan (Bminus mode_NE hi d) = false /\ bx (Bminus mode_NE hi d) <= bx hi.
Proof.
  intros hi d Fh Nd H. pose proof (bpow_gt_0 radix2 emax) as P. pose proof (bx_bound hi Fh).
  destruct (is_finite d) eqn:Fd.
  - rewrite (bx_finite d) in H by auto.
    destruct (bminus_bx hi d Fh Fd) as [N [E|[[E [H1 H2]]|[E [H1 H2]]]]]; split; auto; rewrite E.
    + rewrite bx_finite by auto. apply rnd_le_fmt; [apply fmt_B2R|lra].
    + exfalso. pose proof (Bminus_correct prec emax _ _ mode_NE hi d Fh Fd) as Q.
      change (round radix2 (SpecFloat.fexp prec emax) (round_mode mode_NE)) with rnd in Q.
      replace (B2R hi - B2R d) with (B2R hi) in Q by lra. rewrite rnd_id in Q by apply fmt_B2R.
      rewrite Rlt_bool_true in Q by apply abs_B2R_lt_emax.
      destruct Q as [Q1 [Q2 _]]. rewrite !bx_finite in * by auto. lra.
    + lra.
  - destruct (inf_case d Nd Fd) as [->| ->]; cbn [bx] in *; [|lra].
    assert (E : Bminus mode_NE hi (B754_infinity false) = B754_infinity true)
      by (destruct hi; try discriminate; reflexivity).
    rewrite E. cbn [bx]. split; auto; lra.
Qed.

Lemma plus_ge : forall lo d : b64, is_finite lo = true -> is_nan d = false -> 0 <= bx d ->
  is_nan (Bplus mode_NE lo d) = false /\ bx lo <= bx (Bplus mode_NE lo d).
Proof.
  intros lo d Fh Nd H. pose proof (bpow_gt_0 radix2 emax) as P. pose proof (bx_bound lo Fh).
  destruct (is_finite d) eqn:Fd.
  - rewrite (bx_finite d) in H by auto.
    destruct (bplus_bx lo d Fh Fd) as [N [E|[[E [H1 H2]]|[E [H1 H2]]]]]; split; auto; rewrite E.
    + rewrite bx_finite by auto. apply rnd_ge_fmt; [apply fmt_B2R|lra].
    + lra.
    + exfalso. pose proof (Bplus_correct prec emax _ _ mode_NE lo d Fh Fd) as Q.
      change (round radix2 (SpecFloat.fexp prec emax) (round_mode mode_NE)) with rnd in Q.
      replace (B2R lo + B2R d) with (B2R lo) in Q by lra. rewrite rnd_id in Q by apply fmt_B2R.
      rewrite Rlt_bool_true in Q by apply abs_B2R_lt_emax.
      destruct Q as [Q1 [Q2 _]]. rewrite !bx_finite in * by auto. lra.
  - destruct (inf_case d Nd Fd) as [->| ->]; cbn [bx] in *; [|lra].
    assert (E : Bplus mode_NE lo (B754_infinity false) = B754_infinity false)
      by (destruct lo; try discriminate; reflexivity).
    rewrite E. cbn [bx]. split; auto; lra.
Qed.

Section B.
Variable L : Libm.
Notation bounce := (bounce_inside (A := B64 L)).

Theorem bounce_in_box : forall x lo hi : b64,
  is_finite lo = true -> is_finite hi = true -> B2R lo <= B2R hi -> is_nan x = false ->
  is_finite (bounce x lo hi) = true /\ B2R lo <= B2R (bounce x lo hi) <= B2R hi.
Proof.
  intros x lo hi Fl Fh Hlh Nx.
  assert (Nl : is_nan lo = false) by (destruct lo; auto; discriminate).
  assert (Nh : is_nan hi = false) by (destruct hi; auto; discriminate).
  rewrite <- (bx_finite lo), <- (bx_finite hi) in Hlh by auto.
  unfold bounce_inside. cbn [nltb nsub nadd B64].
  destruct (Bltb hi x) eqn:Gt.
  - apply bltb_bx in Gt; auto.
    destruct (minus_ge0 x hi Nx Fh ltac:(lra)) as [N1 P1].
    destruct (minus_le hi _ Fh N1 P1) as [N2 P2].
    destruct (fmax_bx L (Bminus mode_NE hi (Bminus mode_NE x hi)) lo Nl) as [N3 [P3 [_ Q3]]].
    set (r := nfmax (A := B64 L) (Bminus mode_NE hi (Bminus mode_NE x hi)) lo) in *.
    assert (P4 : bx r <= bx hi) by (destruct Q3 as [Q3|Q3]; rewrite Q3; auto).
    replace (Bltb r lo) with false.
    + apply between_is_finite; auto.
    + symmetry. apply not_true_is_false. intros H. apply bltb_bx in H; auto. lra.
  - assert (Hx : bx x <= bx hi).
    { destruct (Rle_or_lt (bx x) (bx hi)) as [|H]; auto. apply bltb_bx in H; auto; congruence. }
    destruct (Bltb x lo) eqn:Lt.
    + apply bltb_bx in Lt; auto.
      destruct (minus_ge0' x lo Nx Fl ltac:(lra)) as [N1 P1].
      destruct (plus_ge lo _ Fl N1 P1) as [N2 P2].
      destruct (fmin_bx L (Bplus mode_NE lo (Bminus mode_NE lo x)) hi Nh) as [N3 [P3 [_ Q3]]].
      set (r := nfmin (A := B64 L) (Bplus mode_NE lo (Bminus mode_NE lo x)) hi) in *.
      assert (P4 : bx lo <= bx r) by (destruct Q3 as [Q3|Q3]; rewrite Q3; auto).
      apply between_is_finite; auto.
    + assert (Hl : bx lo <= bx x).
      { destruct (Rle_or_lt (bx lo) (bx x)) as [|H]; auto. apply bltb_bx in H; auto; congruence. }
      apply between_is_finite; auto.
Qed.

Theorem bounce_nan : forall lo hi : b64, bounce B754_nan lo hi = B754_nan.
Proof.
  intros. unfold bounce_inside. cbn [nltb B64]. rewrite bltb_nan_r, bltb_nan_l. auto.
Qed.

Theorem bounce_id : forall x lo hi : b64,
  is_finite x = true -> is_finite lo = true -> is_finite hi = true -> B2R lo <= B2R x <= B2R hi ->
  bounce x lo hi = x.
Proof.
  intros x lo hi Fx Fl Fh H. unfold bounce_inside. cbn [nltb B64].
  rewrite (Bltb_correct prec emax hi x Fh Fx), Rlt_bool_false by lra.
  rewrite (Bltb_correct prec emax x lo Fx Fl), Rlt_bool_false by lra. auto.
Qed.
End B.

(** ** The list version *)
Section Lists.
Context {A : Arith}.
Implicit Types (box : list (num A * num A)) (x y : list (num A)).

Lemma para_boundary_length : forall box x, length (para_boundary box x) = length x.
Proof. induction box as [|[lo hi] b IH]; intros x; simpl; auto. destruct x; simpl; auto. Qed.

Lemma para_boundary_nth : forall box x i d p, (i < length box)%nat -> (i < length x)%nat ->
  nth i (para_boundary box x) d = bounce_inside (nth i x d) (fst (nth i box p)) (snd (nth i box p)).
Proof.
  induction box as [|[lo hi] b IH]; intros x i d p Hb Hx; simpl in Hb; [lia|].
  destruct x as [|v t]; simpl in Hx; [lia|]. destruct i; simpl; auto. apply IH; lia.
Qed.

Lemma para_boundary_beyond : forall box x i d, (length box <= i)%nat ->
  nth i (para_boundary box x) d = nth i x d.
Proof.
  induction box as [|[lo hi] b IH]; intros x i d H; simpl in *; auto.
  destruct x as [|v t]; auto. destruct i; [lia|]. simpl. apply IH. lia.
Qed.
End Lists.

(** ** Over the reals *)
Notation Rbounce := (bounce_inside (A := RArith)).

Lemma Rbounce_eq : forall x lo hi, lo <= hi ->
  Rbounce x lo hi = if Rlt_dec hi x then Rmax (2 * hi - x) lo else
                    if Rlt_dec x lo then Rmin (2 * lo - x) hi else x.
Proof.
  intros x lo hi H. unfold bounce_inside. cbn [nltb nsub nadd RArith].
  rewrite nfmax_R, nfmin_R. unfold Rltb.
  replace (hi - (x - hi)) with (2 * hi - x) by ring.
  replace (lo + (lo - x)) with (2 * lo - x) by ring.
  destruct (Rlt_dec hi x); destruct (Rlt_dec x lo); auto; try lra.
  - pose proof (Rmax_r (2 * hi - x) lo). destruct (Rlt_dec (Rmax (2 * hi - x) lo) lo); auto; lra.
  - f_equal. change (lo + (lo - (x : R)) = 2 * lo - x). ring.
Qed.

(** the steps that carry x to an interior point y are exactly three, for any x in the box *)
Theorem bounce_steps : forall lo hi x y s, lo <= x <= hi -> lo < y < hi ->
  (Rbounce (x + s) lo hi = y <-> s = y - x \/ s = 2 * hi - y - x \/ s = 2 * lo - y - x).
Proof.
  intros lo hi x y s Hx Hy. rewrite Rbounce_eq by lra. unfold Rmax, Rmin.
  destruct (Rlt_dec hi (x + s)).
  - destruct (Rle_dec (2 * hi - (x + s)) lo); split; intros; lra.
  - destruct (Rlt_dec (x + s) lo).
    + destruct (Rle_dec (2 * lo - (x + s)) hi); split; intros; lra.
    + split; intros; lra.
Qed.

(** ** Coordinates of a vector *)
Lemma boundary_lands : forall (L : Libm) (box : list (b64 * b64)) (x : list b64) (i : nat) d p,
  (i < length box)%nat -> (i < length x)%nat ->
  is_finite (fst (nth i box p)) = true -> is_finite (snd (nth i box p)) = true ->
  B2R (fst (nth i box p)) <= B2R (snd (nth i box p)) ->
  (is_nan (nth i x d) = false ->
     is_finite (nth i (para_boundary (A := B64 L) box x) d) = true /\
     B2R (fst (nth i box p)) <= B2R (nth i (para_boundary (A := B64 L) box x) d) <= B2R (snd (nth i box p))) /\
  (is_nan (nth i x d) = true -> is_nan (nth i (para_boundary (A := B64 L) box x) d) = true).
Proof.
  intros L box x i d p Hb Hx Fl Fh Hlh.
  rewrite (para_boundary_nth (A := B64 L) box x i d p Hb Hx). split; intros H.
  - apply bounce_in_box; auto.
  - change (@nth (num (B64 L)) i x d) with (@nth b64 i x d). rewrite (nan_only _ H). rewrite bounce_nan. reflexivity.
Qed.

Lemma boundary_id : forall (L : Libm) (box : list (b64 * b64)) (x : list b64) (i : nat) d p,
  (i < length box)%nat -> (i < length x)%nat ->
  is_finite (nth i x d) = true -> is_finite (fst (nth i box p)) = true -> is_finite (snd (nth i box p)) = true ->
  B2R (fst (nth i box p)) <= B2R (nth i x d) <= B2R (snd (nth i box p)) ->
  nth i (para_boundary (A := B64 L) box x) d = nth i x d.
Proof.
  intros. rewrite (para_boundary_nth (A := B64 L) box x i d p) by auto. apply bounce_id; auto.
Qed.

Lemma boundary_indep : forall A (box : list (num A * num A)) (x y : list (num A)) i d,
  length x = length y -> nth i x d = nth i y d ->
  nth i (para_boundary box x) d = nth i (para_boundary box y) d.
Proof.
  intros A box x y i d Hl He.
  destruct (Nat.lt_ge_cases i (length x)) as [Hx|Hx].
  - destruct (Nat.lt_ge_cases i (length box)) as [Hb|Hb].
    + rewrite !(para_boundary_nth box _ i d (d, d)) by (auto; lia). rewrite He. auto.
    + rewrite !para_boundary_beyond by auto. auto.
  - rewrite !nth_overflow; auto; rewrite para_boundary_length; lia.
Qed.
