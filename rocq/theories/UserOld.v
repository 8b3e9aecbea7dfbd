(** The likelihoods of fit_orbit and hier_R and the prior of hier_R.

    Both user_logll.c files are written for release 1.0.0: the data come as double ** (one block, with a table of row pointers), and
    the inverse temperature is Beta_Values[i_rank], here the argument [beta].  [data] is the block, row after row; every read of the
    block or of the row table is checked. *)
From Coq Require Import ZArith List Bool Lia.
From Verif Require Import Base Arith Rand Mh UserModels.
Import ListNotations.
Open Scope Z_scope.

Section Old.
Context {A : Arith}.
Notation num := (num A).
Local Notation "a +. b" := (nadd a b) (at level 50, left associativity).
Local Notation "a -. b" := (nsub a b) (at level 50, left associativity).
Local Notation "a *. b" := (nmul a b) (at level 40, left associativity).
Local Notation "a /. b" := (ndiv a b) (at level 40, left associativity).

(** data_NlineNdim[i][j] of an nline x 2 table: the row pointer must exist *)
Definition row_get (nline : Z) (data : list num) (i j : Z) : res num :=
  if (0 <=? i) && (i <? nline) then zget data (i * 2 + j) else Stop OutOfBounds.
(** ** fit_orbit *)

(** fit_orbit/user_logll.c:181, 233 *)
Definition PI11 : num := nlit 314159265358 11.
(** fit_orbit/user_logll.c:175-194.  The constants 6.67259e-8 and 1.9891e33, 1.4959787e13: each is one division or product of
    integers here, which is the correctly rounded literal except for 1.9891e33 (10^29 is not a binary64 number); the reals are exact. *)
Definition GG : num := nlit 667259 13.
Definition MSUN : num := nof (19891 * 10 ^ 29).
Definition AU2CM : num := nof (14959787 * 10 ^ 6).
Definition period_to_au (period_days ms_Msun : num) : num :=
  let period_second := period_days *. nof 24 *. nof 3600 in
  let a := period_second /. nof 2 /. PI11 in
  let b := GG *. MSUN *. ms_Msun in
  let r := npow a (nof 2) *. b in
  npow r (nof 1 /. nof 3) /. AU2CM.
(** fit_orbit/user_logll.c:199-206 *)
Definition calc_osi (mp ms a_AU d_pc : num) : num :=
  nof 3 *. mp *. npow ms (nof (-1)) *. a_AU *. npow d_pc (nof (-1)).

(** fit_orbit/user_logll.c:228-272: the right ascension and declination at one time; [OutOfFuel] when newton_solver did not stop
    within [fuel] turns *)
Definition DEG2RAD : num := nlit 174532925 10.
Definition radec (fuel : nat) (ecc osi cosi OmegaO M0 omega per t : num) : res (num * num) :=
  let omega := omega *. DEG2RAD in
  let M0 := M0 *. DEG2RAD in
  let OmegaO := OmegaO *. DEG2RAD in
  let coso := ncos omega in
  let sino := nsin omega in
  let cosOg := ncos OmegaO in
  let sinOg := nsin OmegaO in
  let A0 := osi *. (coso *. cosOg -. sino *. sinOg *. cosi) in
  let B0 := osi *. (coso *. sinOg +. sino *. cosOg *. cosi) in
  let F0 := osi *. (nopp sino *. cosOg -. coso *. sinOg *. cosi) in
  let G0 := osi *. (nopp sino *. sinOg +. coso *. cosOg *. cosi) in
  match newton_solver fuel ((nof 2 *. PI11) /. per *. t -. M0) ecc with
  | None => Stop OutOfFuel
  | Some EE =>
      let X := ncos EE -. ecc in
      let Y := nsqrt (nof 1 -. npow ecc (nof 2)) *. nsin EE in
      OK (B0 *. X +. G0 *. Y, A0 *. X +. F0 *. Y)
  end.
Fixpoint map_res {X Y} (f : X -> res Y) (l : list X) : res (list Y) :=
  match l with
  | [] => OK []
  | x :: t => let* y := f x in let* r := map_res f t in OK (y :: r)
  end.
(** the loop of func_as over the times *)
Definition func_as (fuel : nat) (times : list num) (ecc osi cosi OmegaO M0 omega per : num) : res (list (num * num)) :=
  map_res (radec fuel ecc osi cosi OmegaO M0 omega per) times.

(** fit_orbit/user_logll.c:275-302 *)
Definition PI2_11 : num := nlit 628318530716 11.
Definition orb_log_likelihood (model data : list (num * num)) (var_uk : num) : num :=
  let sig_power := var_uk *. var_uk in
  let mhalf := nopp (nlit 5 1) in
  let AC_twice := nof 2 *. nlog (npow PI2_11 mhalf) +. nof 2 *. nlog (npow sig_power mhalf) in
  fold_left (fun s (p : (num * num) * (num * num)) =>
    let (m, d) := p in
    let ra_once := nopp (npow (fst d -. fst m) (nof 2)) /. nof 2 /. sig_power in
    let dec_once := nopp (npow (snd d -. snd m) (nof 2)) /. nof 2 /. sig_power in
    s +. ra_once +. dec_once +. AC_twice) (combine model data) (nof 0).

(** fit_orbit/user_logll.c:124-129: time, ra and dec of observation i *)
Definition orb_obs (nline : Z) (data : list num) (i : nat) : res (num * (num * num)) :=
  let i := Z.of_nat i in
  let* t := row_get nline data (i * 2) 0 in
  let* ra := row_get nline data (i * 2) 1 in
  let* dec := row_get nline data (i * 2 + 1) 1 in
  OK (t, (ra, dec)).
(** fit_orbit/user_logll.c:40-168, without the final product with Beta_Values *)
Definition orb_value (fuel : nat) (x : list num) (nline : Z) (data : list num) : res num :=
  let ms := nof 1 in
  let d_pc := nof 3 in
  let* obs := map_res (orb_obs nline data) (seq 0 (Z.to_nat (Z.quot nline 2))) in
  let times := map fst obs in
  let osi1 := calc_osi (xi x 5) ms (period_to_au (xi x 7) ms) d_pc in
  let osi2 := calc_osi (xi x 13) ms (period_to_au (xi x 14) ms) d_pc in
  let* r1 := func_as fuel times (xi x 1) osi1 (xi x 0) (xi x 2) (xi x 4) (xi x 3) (xi x 7) in
  let* r2 := func_as fuel times (xi x 9) osi2 (xi x 8) (xi x 10) (xi x 12) (xi x 11) (xi x 14) in
  let model := map (fun p : (num * num) * (num * num) => let (a, b) := p in (fst a +. fst b, snd a +. snd b)) (combine r1 r2) in
  OK (orb_log_likelihood model (map snd obs) (xi x 6)).
Definition orb_logll (fuel : nat) (x : list num) (nline : Z) (data : list num) (beta : num) : res num :=
  let* v := orb_value fuel x nline data in OK (v *. beta).

(** ** hier_R *)

(** hier_R/user_logll.c:50-64; 0.9189385332046727 *)
Definition half_log_2pi : num := nlit 9189385332046727 16.
Definition ll_V (Vdevi V lambda : num) : num :=
  let lambda_square := lambda *. lambda in
  let half_log_lambSQ := nlit 5 1 *. nlog lambda_square in
  let err := Vdevi -. V in
  nopp half_log_2pi -. half_log_lambSQ -. err *. err /. nof 2 /. lambda_square.
(** hier_R/user_logll.c:66-82 *)
Definition ll_V_plusgamma (Vdevi V lambda gamma_lambda_Y : num) : num :=
  ll_V Vdevi V (lambda *. npow V gamma_lambda_Y).
(** hier_R/user_logll.c:85-106 *)
Definition ll_oneMeasure (gamma_power logC Yobs Ytr Xobs Xtr lambda_Yobs lambda_Y lambda_Xobs gamma_lambda_Y : num) : num :=
  let ll_Yobs_Ytr := ll_V Yobs Ytr lambda_Yobs in
  let Ymu := nexp logC *. npow Xtr gamma_power in
  let ll_Ytr_YmuXtr := ll_V_plusgamma Ytr Ymu lambda_Y gamma_lambda_Y in
  let ll_Xobs_Xtr := ll_V Xobs Xtr lambda_Xobs in
  ll_Yobs_Ytr +. ll_Ytr_YmuXtr +. ll_Xobs_Xtr.
(** hier_R/user_logll.c:242-250; the reads start at the row [line] and stay in the block *)
Definition calc_mean (data : list num) (line n i_dim : Z) : res num :=
  let* s := for_from (Z.to_nat n) 0 (fun i s => let* v := zget data (line * 2 + i * 2 + i_dim) in OK (s +. v)) (nof 0) in
  OK (s /. nof n).
(** hier_R/user_logll.c:111-160 *)
Definition ll_one_planet (x : list num) (data : list num) (line n : Z) (Xmu Ymu : num) : res num :=
  let one Xobs Yobs := ll_oneMeasure (xi x 0) (xi x 1) Yobs Ymu Xobs Xmu (nexp (xi x 3)) (nexp (xi x 2)) (nexp (xi x 4)) (xi x 5) in
  if n =? 1 then let* Yobs := zget data (line * 2 + 1) in OK (one Xmu Yobs)
  else for_from (Z.to_nat n) 0 (fun i s =>
         let* Xobs := zget data (line * 2 + i * 2) in
         let* Yobs := zget data (line * 2 + i * 2 + 1) in
         OK (s +. one Xobs Yobs)) (nof 0).
(** the statements at hier_R/user_logll.c:199-207 and 218-226 for planet i: &data_NlineNdim[dealing_line][0] reads the row table *)
Definition planet (x : list num) (nline : Z) (data : list num) (i : Z) (logll : num) : res num :=
  let* vn := row_get nline data i 1 in
  let* n := n2i vn in
  let* vl := row_get nline data i 0 in
  let* line := n2i vl in
  if (0 <=? line) && (line <? nline) then
    let* Xmu := calc_mean data line n 0 in
    let* Ymu := calc_mean data line n 1 in
    let* one := ll_one_planet x data line n Xmu Ymu in
    OK (logll +. one)
  else Stop OutOfBounds.
(** the guard, hier_R/user_logll.c:214-215 *)
Definition table_goes_on (nline : Z) (data : list num) (i : Z) : res bool :=
  let* v0 := row_get nline data i 0 in
  let* z0 := n2i v0 in
  let* v1 := row_get nline data i 1 in
  let* z1 := n2i v1 in
  let* s := i32 (z0 + z1) in
  if s <=? nline then
    let* p := row_get nline data (i - 1) 0 in
    let* zp := n2i p in
    OK (zp <? z0)
  else OK false.
(** the loop, hier_R/user_logll.c:214-229.  The index is the number of planets used when the loop ends.  Each turn reads row i and
    needs i < nline, so nline turns of fuel are enough ([planet_loop_fuel]). *)
Fixpoint planet_loop (fuel : nat) (x : list num) (nline : Z) (data : list num) (i : Z) (logll : num) : res (num * Z) :=
  match fuel with
  | O => Stop OutOfFuel
  | S f => let* go := table_goes_on nline data i in
           if go then let* l := planet x nline data i logll in planet_loop f x nline data (i + 1) l
           else OK (logll, i)
  end.
(** hier_R/user_logll.c:166-235: the sum before tempering and the number of planets *)
Definition hier_value (x : list num) (nline : Z) (data : list num) : res (num * Z) :=
  let* l := planet x nline data 0 (nof 0) in
  planet_loop (S (Z.to_nat nline)) x nline data 1 l.
Definition hier_logll (x : list num) (nline : Z) (data : list num) (beta : num) : res num :=
  let* v := hier_value x nline data in OK (fst v *. beta).

(** 1/(sqrt|l| * log(exp(exp max)/exp(exp min))), hier_R/user_prior.c:458-477 *)
Definition prior_lambda (l : num) (p : num * num) : num :=
  let lmin := nexp (fst p) in
  let lmax := nexp (snd p) in
  nof 1 /. (nsqrt (nabs l) *. nlog (nexp lmax /. nexp lmin)).
(** log_prior, hier_R/user_prior.c:484-530; [box] in the order of the parameters: gamma_power, logC, log_lambda_Y, log_lambda_Yobs,
    log_lambda_Xobs, gamma_lambda_Y.  The range of gamma_power is not used by log_prior. *)
Definition hier_log_prior (gmean gsd : num) (box : list (num * num)) (x : list num) : num :=
  let p i := nth i box (nof 0, nof 0) in
  nlog (normal_pdf (xi x 0) gmean gsd) +. nlog (prior_unif (p 1%nat)) +. nlog (prior_lambda (nexp (xi x 2)) (p 2%nat))
  +. nlog (prior_lambda (nexp (xi x 3)) (p 3%nat)) +. nlog (prior_lambda (nexp (xi x 4)) (p 4%nat)) +. nlog (prior_unif (p 5%nat)).
(** init_parm_set, hier_R/user_prior.c:194-210 *)
Definition hier_init (gmean gsd : num) (box : list (num * num)) (seed : Z) : list num * Z :=
  init_parm_set [DNormal gmean gsd; DUnif; DUnif; DUnif; DUnif; DUnif] box seed.
End Old.
