(** The density of the bounded Gaussian proposal over the reals (C10). *)
From Coq Require Import ZArith List Bool Reals Lia Lra Psatz.
From Coquelicot Require Import Coquelicot.
From Verif Require Import Base Arith UserModels Boundary.
Import ListNotations.
Open Scope R_scope.

(** steps that carry x into [c,d], an interval away from the walls *)
Lemma bounce_interval : forall lo hi x c d s, lo <= x <= hi -> lo < c <= d -> d < hi ->
  (c <= Rbounce (x + s) lo hi <= d <->
   (c - x <= s <= d - x) \/ (2 * hi - d - x <= s <= 2 * hi - c - x) \/ (2 * lo - d - x <= s <= 2 * lo - c - x)).
Proof.
  intros lo hi x c d s Hx Hc Hd. rewrite Rbounce_eq by lra. unfold Rmax, Rmin.
  destruct (Rlt_dec hi (x + s)).
  - destruct (Rle_dec (2 * hi - (x + s)) lo); split; intros; lra.
  - destruct (Rlt_dec (x + s) lo).
    + destruct (Rle_dec (2 * lo - (x + s)) hi); split; intros; lra.
    + split; intros; lra.
Qed.

(** the density at y of the point reached from x, for a step density phi *)
Definition bdens (phi : R -> R) (lo hi x y : R) : R :=
  phi (y - x) + phi (2 * hi - y - x) + phi (2 * lo - y - x).

Lemma bdens_sym : forall phi lo hi x y, (forall s, phi (- s) = phi s) ->
  bdens phi lo hi x y = bdens phi lo hi y x.
Proof.
  intros phi lo hi x y He. unfold bdens. rewrite <- (He (y - x)).
  replace (- (y - x)) with (x - y) by ring.
  replace (2 * hi - y - x) with (2 * hi - x - y) by ring.
  replace (2 * lo - y - x) with (2 * lo - x - y) by ring. auto.
Qed.

Lemma ex_RInt_cont : forall (f : R -> R) a b, (forall s, continuous f s) -> ex_RInt f a b.
Proof. intros. apply (ex_RInt_continuous (V := R_CompleteNormedModule)). auto. Qed.

Lemma RInt_shift : forall (f : R -> R) v a b, (forall s, continuous f s) ->
  RInt (fun y => f (y + v)) a b = RInt f (a + v) (b + v).
Proof.
  intros f v a b Hf.
  pose proof (RInt_comp_lin (V := R_CompleteNormedModule) f 1 v a b (ex_RInt_cont f _ _ Hf)) as P.
  replace (1 * a + v) with (a + v) in P by ring. replace (1 * b + v) with (b + v) in P by ring.
  rewrite <- P. apply RInt_ext.
  intros y _. unfold scal. simpl. unfold mult. simpl. rewrite !Rmult_1_l. auto.
Qed.

Lemma RInt_reflect : forall (f : R -> R) v a b, (forall s, continuous f s) ->
  RInt (fun y => f (v - y)) a b = RInt f (v - b) (v - a).
Proof.
  intros f v a b Hf.
  pose proof (RInt_comp_lin (V := R_CompleteNormedModule) f (-1) v a b (ex_RInt_cont f _ _ Hf)) as P.
  replace (-1 * a + v) with (v - a) in P by ring. replace (-1 * b + v) with (v - b) in P by ring.
  rewrite <- (opp_RInt_swap (V := R_CompleteNormedModule) f (v - a) (v - b)) by (apply ex_RInt_cont; auto).
  rewrite <- P. rewrite <- (RInt_opp (V := R_CompleteNormedModule)).
  - apply RInt_ext. intros y _. unfold scal, opp. simpl. unfold mult. simpl.
    replace (-1 * y + v) with (v - y) by ring. ring.
  - apply (ex_RInt_comp_lin (V := R_NormedModule)). apply ex_RInt_cont; auto.
Qed.

Lemma continuous_lin : forall (f : R -> R) a v y, (forall s, continuous f s) ->
  continuous (fun y => f (a * y + v)) y.
Proof.
  intros f a v y Hf. apply (continuous_comp (fun y => a * y + v) f); auto.
  apply (ex_derive_continuous (fun y => a * y + v)). auto_derive. auto.
Qed.

Theorem bounce_measure : forall (phi : R -> R) lo hi x c d,
  (forall s, continuous phi s) -> lo <= x <= hi -> lo < c <= d -> d < hi ->
  RInt phi (c - x) (d - x) + RInt phi (2 * hi - d - x) (2 * hi - c - x)
    + RInt phi (2 * lo - d - x) (2 * lo - c - x)
  = RInt (bdens phi lo hi x) c d.
Proof.
  intros phi lo hi x c d Hf Hx Hc Hd.
  pose proof (RInt_shift phi (- x) c d Hf) as E1.
  pose proof (RInt_reflect phi (2 * hi - x) c d Hf) as E2.
  pose proof (RInt_reflect phi (2 * lo - x) c d Hf) as E3.
  replace (2 * hi - d - x) with (2 * hi - x - d) by ring.
  replace (2 * hi - c - x) with (2 * hi - x - c) by ring.
  replace (2 * lo - d - x) with (2 * lo - x - d) by ring.
  replace (2 * lo - c - x) with (2 * lo - x - c) by ring.
  rewrite <- E2, <- E3. change (c - x) with (c + - x). change (d - x) with (d + - x). rewrite <- E1.
  assert (X1 : ex_RInt (fun y => phi (y + - x)) c d).
  { apply ex_RInt_cont. intros s. apply (continuous_ext (fun y => phi (1 * y + - x))).
    - intros. f_equal. ring.
    - apply continuous_lin; auto. }
  assert (XR : forall v, ex_RInt (fun y => phi (v - y)) c d).
  { intros v. apply ex_RInt_cont. intros s. apply (continuous_ext (fun y => phi (-1 * y + v))).
    - intros. f_equal. ring.
    - apply continuous_lin; auto. }
  pose proof (RInt_plus (V := R_CompleteNormedModule) _ _ c d X1 (XR (2 * hi - x))) as P1.
  pose proof (RInt_plus (V := R_CompleteNormedModule) _ _ c d
    (ex_RInt_plus (V := R_NormedModule) _ _ c d X1 (XR (2 * hi - x))) (XR (2 * lo - x))) as P2.
  unfold plus in P1, P2; simpl in P1, P2. rewrite P1 in P2.
  rewrite <- P2. apply RInt_ext. intros y _. unfold bdens.
  f_equal; [f_equal|]; f_equal; ring.
Qed.

(** at a wall the proposal has an atom: every step beyond a bound lands exactly on the wall *)
Lemma wall_atom : forall lo hi x s, lo < x < hi -> 2 * hi - lo - x <= s -> Rbounce (x + s) lo hi = lo.
Proof.
  intros lo hi x s Hx Hs. rewrite Rbounce_eq by lra. unfold Rmax, Rmin.
  destruct (Rlt_dec hi (x + s)); [|lra].
  destruct (Rle_dec (2 * hi - (x + s)) lo); lra.
Qed.

Lemma wall_asym :
  exists lo hi x y, lo <= x <= hi /\ lo <= y <= hi /\
    (forall s, 2 <= s -> Rbounce (x + s) lo hi = y) /\
    exists l : list R, (length l <= 3)%nat /\ forall s, Rbounce (y + s) lo hi = x -> In s l.
Proof.
  exists 0, 1, (/ 2), 0. split; [lra|]. split; [lra|]. split.
  - intros s Hs. apply wall_atom; lra.
  - exists [/ 2 - 0; 2 * 1 - / 2 - 0; 2 * 0 - / 2 - 0]. split; [simpl; lia|].
    intros s H. apply bounce_steps in H; [|lra|lra]. simpl. intuition auto.
Qed.
