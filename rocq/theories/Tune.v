(** Tuning of the proposal widths of one rank, the root-only parts of mpi_tune.c. *)
From Coq Require Import ZArith List Bool Lia.
From Verif Require Import Base Arith Rand Mh.
Import ListNotations.
Open Scope Z_scope.

Section Tune.
Context {A : Arith}.
Variable C : Cfg A.
Variable U : User A.
Variable n : Z.          (* n_ranks *)
Notation row := (list (num A)).

(** create_logspace_array, mpi_tune.c:529-546: all n_points cells are written *)
Definition create_logspace_array (base half : num A) (npoints : Z) : row :=
  let log_min := nlog (ndiv base half) in
  let log_max := nlog (nmul base half) in
  let interval := ndiv (nsub log_max log_min) (nof (npoints - 1)) in
  map (fun i : nat => nexp (nadd log_min (nmul interval (nof (Z.of_nat i))))) (seq 0 (Z.to_nat npoints)).

(** check_bounceInside_sigma_boundary, mpi_tune.c:549-569 *)
Definition check_bounce (arr : row) (ip : Z) : res row :=
  let* smin := zget (u_sigmin U) ip in
  let* smax := zget (u_sigmax U) ip in
  let half := nsqrt (sigma_jumpin_ratio C) in
  let* a0 := zget arr 0 in
  let arr1 := if nltb a0 smin then create_logspace_array (nmul smin half) half n else arr in
  let* al := zget arr1 (n - 1) in
  OK (if nltb smax al then create_logspace_array (ndiv smax half) half n else arr1).

(** gen_sigma_alltune, mpi_tune.c:572-594: row i of the N_parm x n_ranks matrix, in order *)
Definition gen_sigma_alltune (sigt : list row) (rk : Z) : res (list row) :=
  for_from (Z.to_nat (N_parm C)) 0
    (fun i out =>
       let* sr := zget sigt rk in
       let* s := zget sr i in
       let* arr := check_bounce (create_logspace_array s (sigma_scale_half_ratio C) n) i in
       OK (out ++ [arr])) [].

(** replicate_OneSigmaOrigin_Nvaried then tune_oneparm_Nvaried, mpi_tune.c:496-526 *)
Definition tune_matrix (sigt : list row) (rk : Z) (alltune : list row) (jp : Z) : res (list row) :=
  for_from (Z.to_nat n) 0
    (fun i out =>
       let* origin := zget sigt rk in
       let* ar := zget alltune jp in
       let* v := zget ar i in
       let* r := zset origin jp v in
       OK (out ++ [r])) [].

(** argmin / argmax, mpi_tune.c:816-856 *)
Definition argmin (arr : row) (na : Z) : res Z :=
  let* v0 := zget arr 0 in
  let* (i, _) := for_from (Z.to_nat (na - 1)) 1
    (fun i '(im, vm) => let* v := zget arr i in
       OK (if nltb v vm then (i, v) else (im, vm))) (0, v0) in
  OK i.

Definition argmax (arr : row) (na : Z) : res Z :=
  let* v0 := zget arr 0 in
  let* (i, _) := for_from (Z.to_nat (na - 1)) 1
    (fun i '(im, vm) => let* v := zget arr i in
       OK (if nltb vm v then (i, v) else (im, vm))) (0, v0) in
  OK i.

(** fabs(ar[i][j] - ar_best) *)
Definition ar_err (ar : list row) (i j : Z) : res (num A) :=
  let* r := zget ar i in
  let* v := zget r j in
  OK (nabs (nsub v (ar_best C))).

(** calc_closest_ar_oneparm, mpi_tune.c:770-787: the value and the (initially 0) index *)
Definition closest_oneparm (ar : list row) (ip : Z) : res (num A * Z) :=
  let* v0 := ar_err ar ip 0 in
  for_from (Z.to_nat n) 0
    (fun j '(cv, cj) => let* e := ar_err ar ip j in
       OK (if nltb e cv then (e, j) else (cv, cj))) (v0, 0).

(** calc_closest_ar, mpi_tune.c:791-813 *)
Definition closest_all (ar : list row) : res (num A * Z * Z) :=
  let* v0 := ar_err ar 0 0 in
  for_from (Z.to_nat (N_parm C)) 0
    (fun i s =>
       for_from (Z.to_nat n) 0
         (fun j '(cv, ci, cj) => let* e := ar_err ar i j in
            OK (if nltb e cv then (e, i, j) else (cv, ci, cj))) s)
    (v0, 0, 0).

(** calc_SD_allParm, mpi_tune.c:860-889 *)
Definition calc_SD_allParm (ar : list row) : res row :=
  for_from (Z.to_nat (N_parm C)) 0
    (fun i out =>
       let* r := zget ar i in
       let* sum := for_from (Z.to_nat n) 0
         (fun j s => let* v := zget r j in OK (nadd s v)) (nof 0) in
       let mean := ndiv sum (nof n) in
       let* var := for_from (Z.to_nat n) 0
         (fun j s => let* v := zget r j in OK (nadd s (npow (nsub v mean) (nof 2)))) (nof 0) in
       OK (out ++ [nsqrt (ndiv var (nof n))])) [].

(** decide_sigma_to_change, mpi_tune.c:669-766: (iparm_change, irank_change, generator) *)
Definition decide_sigma_to_change (ar : list row) (g : Z) : res (Z * Z * Z) :=
  let* sd := calc_SD_allParm ar in
  let* ip1 := argmax sd (N_parm C) in
  let* (v1, ir1) := closest_oneparm ar ip1 in
  let* (v2, ip2, ir2) := closest_all ar in
  if nltb v1 (ar_accept_diff C) then
    if nltb v2 (ar_accept_diff C) then
      let (u, g') := drand48 g in
      if nltb (nlit 5 1) (u : num A) then OK (ip1, ir1, g') else OK (ip2, ir2, g')
    else OK (ip1, ir1, g)
  else if nltb v2 (ar_accept_diff C) then OK (ip2, ir2, g)
  else
    let (u, g') := drand48 g in
    if nltb (nlit 5 1) (u : num A) then OK (-1, 0, g') else OK (-1, -1, g').

(** race_all_parm, mpi_tune.c:642-666 *)
Definition race_all_parm (alltune ar : list row) : res row :=
  for_from (Z.to_nat (N_parm C)) 0
    (fun i out =>
       let* errs := for_from (Z.to_nat n) 0
         (fun j es => let* e := ar_err ar i j in OK (es ++ [e])) [] in
       let* jm := argmin errs n in
       let* r := zget alltune i in
       let* v := zget r jm in
       OK (out ++ [v])) [].

(** modify_sigma_prop_rankintune, mpi_tune.c:597-638 *)
Definition modify_sigma_prop (rk ip ir : Z) (sigt alltune ar : list row) : res (list row) :=
  if 0 <=? ip then
    let* r := zget sigt rk in
    let* a := zget alltune ip in
    let* v := zget a ir in
    let* r' := zset r ip v in
    zset sigt rk r'
  else
    let* new := if 0 <=? ir then OK (u_gp U) else race_all_parm alltune ar in
    zset sigt rk new.

End Tune.
