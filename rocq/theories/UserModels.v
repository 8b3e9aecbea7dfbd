(** The shipped models (models/*/user_prior.c, models/*/user_logll.c).

    The parameter ranges are globals filled by read_parm_range from input.ini; here they are the
    list [box] of (min, max) pairs, in the order of the parameters.  A model with k parameters
    reads and writes the first k entries of its argument; with N_parm < k that is outside the
    arrays, so the models are only meaningful with N_parm >= k (all shipped input.ini files have
    N_parm = k). *)
From Coq Require Import ZArith List Bool Lia.
From Verif Require Import Base Arith Rand Mh.
Import ListNotations.
Open Scope Z_scope.

Section Models.
Context {A : Arith}.
Notation num := (num A).

(** fit_orbit/user_prior.c:60-75.  The same two ifs are written out for each parameter in
    regression/user_prior.c:204-247, rastrigin/user_prior.c:253-323, hier_R/user_prior.c:337-420,
    and in the user_prior.c of eggbox, curved_likelihood and multi_gaussian, 169-196; there the
    coordinate is stored only when one of the ifs is taken, which gives the same array. *)
Definition bounce_inside (para para_min para_max : num) : num :=
  let para := if nltb para_max para
              then nfmax (nsub para_max (nsub para para_max)) para_min else para in
  if nltb para para_min
  then nfmin (nadd para_min (nsub para_min para)) para_max else para.

(** para_boundary: fit_orbit/user_prior.c:619-715, regression 188-256, rastrigin 234-348,
    eggbox / curved_likelihood / multi_gaussian 156-208, hier_R 315-437 *)
Fixpoint para_boundary (box : list (num * num)) (x : list num) : list num :=
  match box, x with
  | (lo, hi) :: b, v :: t => bounce_inside v lo hi :: para_boundary b t
  | _, _ => x
  end.

(** how init_parm_set draws one parameter *)
Inductive draw : Type := DUnif | DLogUnif | DNormal (mean sd : num).

(** init_parm_set: srand48(seed), then one draw per parameter, in order.
    regression/user_prior.c:86-107, rastrigin 106-131, eggbox / curved_likelihood /
    multi_gaussian 77-96, fit_orbit 424-456, hier_R 194-216 *)
Fixpoint init_draws (ds : list draw) (box : list (num * num)) (g : Z) : list num * Z :=
  match ds, box with
  | d :: ds, (lo, hi) :: b =>
      let (v, g1) := match d with
                     | DUnif => r8_unif_ab lo hi g
                     | DLogUnif => r8_logunif_ab lo hi g
                     | DNormal m s => r8_normal_ab m s g
                     end in
      let (t, g2) := init_draws ds b g1 in (v :: t, g2)
  | _, _ => ([], g)
  end.
Definition init_parm_set (ds : list draw) (box : list (num * num)) (seed : Z) : list num * Z :=
  init_draws ds box (srand48 seed).

(** init_gaussian_proposal: regression/user_prior.c:111-128, rastrigin 135-159, eggbox 100-115,
    fit_orbit 552-604, hier_R 278-305 *)
Definition init_gaussian_proposal (box : list (num * num)) (ratio : num) : list num :=
  map (fun p => nmul (nsub (snd p) (fst p)) ratio) box.

(** calc_sigma_scale_boundary, called with sigma_scale_min and sigma_scale_max:
    regression/user_prior.c:297-309, rastrigin 389-405, eggbox 249-259, fit_orbit 469-505.
    The return value (a count of bad entries) is ignored by every caller.
    hier_R/user_prior.c:231,238 uses gamma_sd in place of the width of the first range. *)
Definition calc_sigma_scale (scale : num) (box : list (num * num)) : list num :=
  map (fun p => nmul scale (nsub (snd p) (fst p))) box.

(** 1/(max-min), e.g. regression/user_prior.c:134-143 *)
Definition prior_unif (p : num * num) : num := ndiv (nof 1) (nsub (snd p) (fst p)).
(** 1/(x*log(max/min)), e.g. regression/user_prior.c:148-151 *)
Definition prior_jeff (x : num) (p : num * num) : num :=
  ndiv (nof 1) (nmul x (nlog (ndiv (snd p) (fst p)))).

Definition two : num := nof 2.
Definition sq (x : num) : num := npow x two.
Definition PI15 : num := nlit 3141592653589793 15.
Notation "a +. b" := (nadd a b) (at level 50, left associativity).
Notation "a -. b" := (nsub a b) (at level 50, left associativity).
Notation "a *. b" := (nmul a b) (at level 40, left associativity).
Notation "a /. b" := (ndiv a b) (at level 40, left associativity).
Definition xi (x : list num) (i : nat) : num := nth i x (nof 0).
Definition half : num := nlit 5 1.

(** ** regression: y = a x + b + N(0, d) *)

(** regression/user_logll.c:13-50; [nd] is the global ndim_data.  The data index i*nd+1 is inside
    the array when nd >= 2. *)
Definition reg_term (x : list num) (nd : Z) (data : list num) (i : Z) : num :=
  let a := xi x 0 in let b := xi x 1 in let d := xi x 2 in
  let sig_power := sq d in
  nopp half *. nlog (nof 2 *. PI15) -. half *. nlog sig_power
  -. sq (nth (Z.to_nat (i * nd + 0)) data (nof 0) *. a +. b -. nth (Z.to_nat (i * nd + 1)) data (nof 0))
     /. two /. sig_power.
Definition reg_sum (x : list num) (nd nline : Z) (data : list num) : num :=
  fold_left (fun s i => s +. reg_term x nd data (Z.of_nat i)) (seq 0 (Z.to_nat nline)) (nof 0).
Definition reg_logll (nd : Z) (x : list num) (nline : Z) (data : list num) (beta : num) : num :=
  reg_sum x nd nline data *. beta.

(** regression/user_prior.c:154-182 *)
Definition reg_log_prior (ra rb rd : num * num) (x : list num) : num :=
  nlog (prior_unif ra) +. nlog (prior_unif rb) +. nlog (prior_jeff (xi x 2) rd).

Definition reg_user (nd : Z) (ra rb rd : num * num) (gp smin smax : num) : User A :=
  let box := [ra; rb; rd] in
  mkUser A (reg_logll nd) (reg_log_prior ra rb rd) (para_boundary box)
         (init_parm_set [DUnif; DUnif; DLogUnif] box) (init_gaussian_proposal box gp)
         (calc_sigma_scale smin box) (calc_sigma_scale smax box).

(** ** rastrigin *)

(** rastrigin/user_logll.c:45-52 *)
Definition ras_value (a b c d e : num) : num :=
  let cs x := ncos (two *. PI15 *. x) in
  nlog (sq a -. nof 10 *. cs a +. sq b -. nof 10 *. cs b +. sq c -. nof 10 *. cs c
        +. sq d -. nof 10 *. cs d +. sq e -. nof 10 *. cs e +. nof 50).
(** rastrigin/user_logll.c:13-41 *)
Definition ras_logll (x : list num) (nline : Z) (data : list num) (beta : num) : num :=
  ras_value (xi x 0) (xi x 1) (xi x 2) (xi x 3) (xi x 4) *. beta.
(** rastrigin/user_prior.c:191-229 *)
Definition ras_log_prior (ra rb rc rd rf : num * num) (x : list num) : num :=
  nlog (prior_unif ra) +. nlog (prior_unif rb) +. nlog (prior_unif rc) +. nlog (prior_unif rd)
  +. nlog (prior_unif rf).
Definition ras_user (ra rb rc rd rf : num * num) (gp smin smax : num) : User A :=
  let box := [ra; rb; rc; rd; rf] in
  mkUser A ras_logll (ras_log_prior ra rb rc rd rf) (para_boundary box)
         (init_parm_set [DUnif; DUnif; DUnif; DUnif; DUnif] box) (init_gaussian_proposal box gp)
         (calc_sigma_scale smin box) (calc_sigma_scale smax box).

(** ** The three two-parameter models *)

(** eggbox/user_logll.c:36-39 *)
Definition egg_value (a b : num) : num := nsin (b /. two) *. ncos (a /. two) +. two.
(** curved_likelihood/user_logll.c:35-41 *)
Definition curved_value (a b : num) : num :=
  nlog (nexp (nopp (sq a) -. sq (nof 9 +. nof 4 *. sq a +. nof 9 *. b))
        +. half *. nexp (nopp (nof 8) *. sq a -. nof 8 *. sq (b -. two))).
(** multi_gaussian/user_logll.c:38-56: the value is the density itself, no logarithm is taken *)
Definition multi_value (a b : num) : num :=
  let r := nof 1 in
  let gauss mx my := nexp (nopp (sq (a -. mx) /. two /. sq r +. sq (b -. my) /. two /. sq r)) in
  gauss (nof 10) (nof 10) +. gauss (nopp (nof 10)) (nopp (nof 10)).

(** logll_beta: eggbox/user_logll.c:13-32, curved_likelihood/user_logll.c:12-31,
    multi_gaussian/user_logll.c:15-33 *)
Definition val_logll (v : num -> num -> num) (x : list num) (nline : Z) (data : list num) (beta : num) : num :=
  v (xi x 0) (xi x 1) *. beta.
(** log_prior returns a constant: eggbox/user_prior.c:148 (1), curved_likelihood and
    multi_gaussian/user_prior.c:148 (0) *)
Definition val_user (v : num -> num -> num) (lp : num) (ra rb : num * num) (gp smin smax : num) : User A :=
  let box := [ra; rb] in
  mkUser A (val_logll v) (fun _ => lp) (para_boundary box)
         (init_parm_set [DUnif; DUnif] box) (init_gaussian_proposal box gp)
         (calc_sigma_scale smin box) (calc_sigma_scale smax box).
Definition egg_user := val_user egg_value (nof 1).
Definition curved_user := val_user curved_value (nof 0).
Definition multi_user := val_user multi_value (nof 0).

(** ** fit_orbit (its user_logll.c has the interface of release 1.0.0 and does not match the
    calls of the present mpi_*.c; the functions below are the ones of its files) *)

(** fit_orbit/user_prior.c:846-905: Jeffreys priors for parameters 5, 6, 7, 13, 14 *)
Definition orb_jeff (i : nat) : bool :=
  match i with 5 | 6 | 7 | 13 | 14 => true | _ => false end%nat.
Definition orb_prior1 (box : list (num * num)) (x : list num) (i : nat) : num :=
  let p := nth i box (nof 0, nof 0) in
  nlog (if orb_jeff i then prior_jeff (xi x i) p else prior_unif p).
Definition orb_log_prior (box : list (num * num)) (x : list num) : num :=
  fold_left (fun s i => s +. orb_prior1 box x i) (seq 1 14) (orb_prior1 box x 0).

(** One step of the loop of newton_solver, fit_orbit/user_logll.c:216-222 *)
Definition newton_step (M e EE : num) : num :=
  EE -. (EE -. e *. nsin EE -. M) /. (nof 1 -. e *. ncos EE).
(** fit_orbit/user_logll.c:210-225; the loop has no bound in C, here it has fuel and [None] says
    the fuel ran out.  The first test fabs(1) > tolerance is true, so the body runs first. *)
Fixpoint newton_loop (fuel : nat) (tol M e EE : num) : option num :=
  match fuel with
  | O => None
  | S f => let E1 := newton_step M e EE in
           if nltb tol (nabs (E1 -. EE)) then newton_loop f tol M e E1 else Some E1
  end.
Definition newton_solver (fuel : nat) (EE e : num) : option num :=
  newton_loop fuel (nlit 1 8) EE e EE.

End Models.
