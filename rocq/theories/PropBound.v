(** Properties C08-C10: the boundary map. *)
From Coq Require Import ZArith Arith List Bool Reals Lia Lra.
From Coquelicot Require Import Coquelicot.
From Flocq Require Import Core IEEE754.BinarySingleNaN.
From Verif Require Import Base Arith B64 Mh B64Facts UserModels Boundary BounceDensity Demo.
Import ListNotations.
Open Scope R_scope.

(** C08.  [para_boundary box x] is the boundary map with the ranges [box].  Whatever the double
    (infinities included), a coordinate that is not NaN ends inside its range; NaN stays NaN. *)
Theorem C08_lands_in_box : forall (L : Libm) (box : list (b64 * b64)) (x : list b64) (i : nat) d p,
  (i < length box)%nat -> (i < length x)%nat ->
  is_finite (fst (nth i box p)) = true -> is_finite (snd (nth i box p)) = true ->
  B2R (fst (nth i box p)) <= B2R (snd (nth i box p)) ->
  (is_nan (nth i x d) = false ->
     is_finite (nth i (para_boundary (A := B64 L) box x) d) = true /\
     B2R (fst (nth i box p)) <= B2R (nth i (para_boundary (A := B64 L) box x) d) <= B2R (snd (nth i box p))) /\
  (is_nan (nth i x d) = true -> is_nan (nth i (para_boundary (A := B64 L) box x) d) = true).
Proof. exact boundary_lands. Qed.
Print Assumptions C08_lands_in_box.
Example C08_case : is_finite (bof (-20)) = true /\ is_finite (bof 20) = true /\ B2R (bof (-20)) <= B2R (bof 20) /\
  is_nan (B754_infinity false : b64) = false.
Proof.
  split; [reflexivity|]. split; [reflexivity|]. split; [|reflexivity].
  destruct (bof_ok (-20) ltac:(simpl; lia)) as [-> _]. destruct (bof_ok 20 ltac:(simpl; lia)) as [-> _]. lra.
Qed.
(** the shipped models all use this map, each with its own ranges *)
Theorem C08_shipped_models : forall A nd ra rb rd gp smin smax rc re,
  u_bound (reg_user (A := A) nd ra rb rd gp smin smax) = para_boundary [ra; rb; rd] /\
  u_bound (ras_user (A := A) ra rb rc rd re gp smin smax) = para_boundary [ra; rb; rc; rd; re] /\
  u_bound (egg_user (A := A) ra rb gp smin smax) = para_boundary [ra; rb] /\
  u_bound (curved_user (A := A) ra rb gp smin smax) = para_boundary [ra; rb] /\
  u_bound (multi_user (A := A) ra rb gp smin smax) = para_boundary [ra; rb].
Proof. intros. repeat split. Qed.
Print Assumptions C08_shipped_models.

(** C09.  A coordinate inside its range is returned bit for bit ... *)
Theorem C09_inside_unchanged : forall (L : Libm) (box : list (b64 * b64)) (x : list b64) (i : nat) d p,
  (i < length box)%nat -> (i < length x)%nat ->
  is_finite (nth i x d) = true -> is_finite (fst (nth i box p)) = true -> is_finite (snd (nth i box p)) = true ->
  B2R (fst (nth i box p)) <= B2R (nth i x d) <= B2R (snd (nth i box p)) ->
  nth i (para_boundary (A := B64 L) box x) d = nth i x d.
Proof. exact boundary_id. Qed.
Print Assumptions C09_inside_unchanged.
Example C09_case : is_finite (bof 3) = true /\ B2R (bof (-20)) <= B2R (bof 3) <= B2R (bof 20).
Proof.
  split; [reflexivity|]. destruct (bof_ok (-20) ltac:(simpl; lia)) as [-> _]. destruct (bof_ok 20 ltac:(simpl; lia)) as [-> _].
  destruct (bof_ok 3 ltac:(simpl; lia)) as [-> _]. lra.
Qed.

(** ... and coordinate i of the result depends on coordinate i of the argument only. *)
Theorem C09_coordinates_independent : forall A (box : list (num A * num A)) (x y : list (num A)) i d,
  length x = length y -> nth i x d = nth i y d ->
  nth i (para_boundary box x) d = nth i (para_boundary box y) d.
Proof. exact boundary_indep. Qed.
Print Assumptions C09_coordinates_independent.
Example C09_case2 : length [1; 2; 3] = length [1; 5; 6] /\ nth 0 [1; 2; 3] 0 = nth 0 [1; 5; 6] 0.
Proof. split; reflexivity. Qed.

(** C10.  Let phi be the density of the step (continuous and even, e.g. a Gaussian).  From a point x
    of [lo,hi], the steps that end in an interval [c,d] away from the walls are three disjoint
    intervals, and their total probability is the integral over [c,d] of the density
    [bdens phi lo hi x y = phi(y-x) + phi(2hi-y-x) + phi(2lo-y-x)], which is symmetric in x and y. *)
Theorem C10_steps : forall lo hi x c d s, lo <= x <= hi -> lo < c <= d -> d < hi ->
  (c <= bounce_inside (A := RArith) (x + s) lo hi <= d <->
   (c - x <= s <= d - x) \/ (2 * hi - d - x <= s <= 2 * hi - c - x) \/ (2 * lo - d - x <= s <= 2 * lo - c - x))
  /\ 2 * lo - c - x < c - x /\ d - x < 2 * hi - d - x.
Proof. intros. split; [apply bounce_interval; auto|lra]. Qed.
Print Assumptions C10_steps.
Theorem C10_density : forall (phi : R -> R) lo hi x c d,
  (forall s, continuous phi s) -> lo <= x <= hi -> lo < c <= d -> d < hi ->
  RInt phi (c - x) (d - x) + RInt phi (2 * hi - d - x) (2 * hi - c - x)
    + RInt phi (2 * lo - d - x) (2 * lo - c - x)
  = RInt (fun y => phi (y - x) + phi (2 * hi - y - x) + phi (2 * lo - y - x)) c d.
Proof. exact bounce_measure. Qed.
Print Assumptions C10_density.
Theorem C10_density_symmetric : forall (phi : R -> R) lo hi x y, (forall s, phi (- s) = phi s) ->
  phi (y - x) + phi (2 * hi - y - x) + phi (2 * lo - y - x) =
  phi (x - y) + phi (2 * hi - x - y) + phi (2 * lo - x - y).
Proof. exact bdens_sym. Qed.
Print Assumptions C10_density_symmetric.
(** the Gaussian density meets the hypotheses on phi *)
Example C10_case : forall sd : R, 0 < sd ->
  (forall s, continuous (fun s => exp (- (s / sd) ^ 2 / 2)) s) /\
  (forall s, exp (- (- s / sd) ^ 2 / 2) = exp (- (s / sd) ^ 2 / 2)).
Proof.
  intros sd Hs. split.
  - intros s. apply (ex_derive_continuous (fun s => exp (- (s / sd) ^ 2 / 2))). auto_derive. auto.
  - intros s. f_equal. field. lra.
Qed.

(** At the walls the symmetry fails: in the box [0,1], every step of at least 2 carries 1/2 to the
    wall 0, while at most three steps carry 0 to 1/2. *)
Theorem C10_wall_symmetry_refuted :
  exists lo hi x y, lo <= x <= hi /\ lo <= y <= hi /\
    (forall s, 2 <= s -> bounce_inside (A := RArith) (x + s) lo hi = y) /\
    exists l : list R, (length l <= 3)%nat /\ forall s, bounce_inside (A := RArith) (y + s) lo hi = x -> In s l.
Proof. exact wall_asym. Qed.
Print Assumptions C10_wall_symmetry_refuted.
