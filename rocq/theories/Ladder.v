(** Tuning of the temperature ladder, mpi_ladder.c. *)
From Coq Require Import ZArith List Bool Lia.
From Verif Require Import Base Arith Rand Mh.
Import ListNotations.
Open Scope Z_scope.

Section Ladder.
Context {A : Arith}.
Variables (scale zs : num A).      (* scale_tune_ladder, zero_stretch *)

Definition one : num A := nof 1.

(** T_ladder[i] = 1/running_Beta_Values[i], mpi_ladder.c:109-116 *)
Definition ladder_T (n : Z) (beta : list (num A)) : res (list (num A)) :=
  for_from (Z.to_nat n) 0
    (fun i T => let* b := zget beta i in OK (T ++ [ndiv one b])) [].

(** swap_ar_i_ip1[i] = Nswaps[i]/Nprops[i], mpi_ladder.c:119-129 *)
Definition ladder_ar (n : Z) (nsw npr : list (num A)) : res (list (num A)) :=
  for_from (Z.to_nat (n - 1)) 0
    (fun i ar => let* s := zget nsw i in let* p := zget npr i in OK (ar ++ [ndiv s p])) [].

(** pow((1/beta[i-1]) / (1/beta[i+1]), 0.5), and T[i] = T[i-1] / that: mpi_ladder.c:189-194, 235-240 *)
Definition ladder_geom (i : Z) (beta T : list (num A)) : res (list (num A)) :=
  let* bm := zget beta (i - 1) in
  let* bp := zget beta (i + 1) in
  let total := ndiv (ndiv one bm) (ndiv one bp) in
  let each := npow total (nlit 5 1) in
  let* tm := zget T (i - 1) in
  zset T i (ndiv tm each).

(** one turn of the loop, mpi_ladder.c:137-257 *)
Definition ladder_body (n : Z) (beta ar : list (num A)) (i : Z) (T : list (num A)) : res (list (num A)) :=
  let* am := zget ar (i - 1) in
  let* ai := zget ar i in
  let* T1 :=
    if nltb (nof 0) (nadd am ai) then
      let devi := ndiv (nsub ai am) (nadd ai am) in
      if nltb (nof 0) devi then
        let* bm := zget beta (i - 1) in
        let* bi := zget beta i in
        let tdiff := nsub (ndiv one bm) (ndiv one bi) in
        let inc := if neqb devi (nof 1) then nmul tdiff (nsub one zs)
                   else nmul (nmul tdiff devi) scale in
        let* ti := zget T i in
        zset T i (nfmin (nadd ti inc) (nmul (ndiv one bm) (nsub one (nlit 1 2))))
      else if neqb devi (nof 0) then ladder_geom i beta T
      else
        let* bi := zget beta i in
        let* bp := zget beta (i + 1) in
        let tdiff := nsub (ndiv one bi) (ndiv one bp) in
        let dec := if neqb devi (nof (-1)) then nmul tdiff (nsub one zs)
                   else nmul (nmul tdiff (nopp devi)) scale in
        let* ti := zget T i in
        zset T i (nfmax (nsub ti dec) (nmul (ndiv one bp) (nadd one (nlit 1 2))))
    else ladder_geom i beta T in
  (* specifically tune T[1] and T[n-2]: mpi_ladder.c:244-255, inside the loop *)
  let* a0 := zget ar 0 in
  let* T2 :=
    if nltb a0 (nlit 1 2) then
      let* t0 := zget T1 0 in
      let* t2 := zget T1 2 in
      zset T1 1 (nsub t0 (nmul (nsub t0 t2) zs))
    else OK T1 in
  let* an := zget ar (n - 2) in
  if nltb an (nlit 1 2) then
    let* t3 := zget T2 (n - 3) in
    let* t1 := zget T2 (n - 1) in
    zset T2 (n - 2) (nsub t3 (nmul (nsub t3 t1) (nsub one zs)))
  else OK T2.

(** tune_ladder_use_3_neighb, mpi_ladder.c:102-275 (printing omitted). *)
Definition tune_ladder (n : Z) (nsw npr beta : list (num A)) : res (list (num A)) :=
  let* T0 := ladder_T n beta in
  let* ar := ladder_ar n nsw npr in
  let* T := for_from (Z.to_nat (n - 2)) 1 (ladder_body n beta ar) T0 in
  for_from (Z.to_nat (n - 2)) 1
    (fun i b => let* t := zget T i in zset b i (ndiv one t)) beta.

End Ladder.
