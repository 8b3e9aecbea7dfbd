(** The MPI program: one [proc] per rank, transcribed from main.c, data_loader.c, mpi_init.c,
    mpi_flow.c, mpi_stack.c, mpi_batch.c, mpi_tune.c and mpi_ladder.c.

    Conventions.  [me] is my_rank, [n] is n_ranks, root_rank is 0 (main.c:86).  [plift] runs a
    local computation.  Reading a root-only array in another rank is out of bounds (those
    ranks hold NULL, main.c:151-159).  printf, free and the disabled debug branches are
    omitted. *)
From Coq Require Import ZArith List Bool Lia.
From Verif Require Import Base Arith Rand Mh Ladder Tune Mpi.
Import ListNotations.
Open Scope Z_scope.

(** MPI_INT / MPI_UNSIGNED / MPI_DOUBLE messages *)
Inductive msg (A : Arith) : Type :=
| MI (l : list Z) | MU (z : Z) | MD (l : list (num A)).
Arguments MI {A}. Arguments MU {A}. Arguments MD {A}.

(** Everything the program writes below results_dir, and the creation of that directory. *)
Inductive event (A : Arith) : Type :=
| EvDir                                        (* mkdir(results_dir), readin.c:390-404 *)
| EvSeed (rank : nat) (seed : Z)               (* line of init.randseed, mpi_init.c:214-238 *)
| EvInit (rows : list (list (num A)))          (* init.parm, mpi_init.c:242-275 *)
| EvRow (rank : nat) (row : crow A)            (* line of chain<rank>.dat, mpi_init.c:279-318, mpi_batch.c:428-470 *)
| EvSigma (rank : nat) (l : list (num A))      (* line of gaussian_prop.chain<rank>, mpi_flow.c:336-365 *)
| EvBeta (l : list (num A)).                   (* line of Beta_Values_in_stack.dat, mpi_stack.c:463-495 *)
Arguments EvDir {A}. Arguments EvSeed {A}. Arguments EvInit {A}. Arguments EvRow {A}.
Arguments EvSigma {A}. Arguments EvBeta {A}.

Notation "x <- p ;; q" := (pbind p (fun x => q))
  (at level 61, p at next level, right associativity).
Notation "' x <- p ;; q" := (pbind p (fun x => q))
  (at level 61, x strict pattern, p at next level, right associativity).

Section Prog.
Context {A : Arith}.
Variable C : Cfg A.
Variable U : User A.
Variable n : nat.                         (* MPI_Comm_size *)
Notation num := (num A).
Notation row := (list num).
Notation proc := (proc (msg A) (event A)).

(** What root finds in the data file: get_nlines_of_file, and read_data for a given
    nline_data (data_loader.c); and the clock, time(NULL). *)
Record Env : Type := mkEnv {
  e_nlines : res Z;
  e_data : Z -> res (list num);
  e_time : Z
}.
Variable E : Env.

Definition root : nat := 0.
Definition is_root (me : nat) : bool := Nat.eqb me root.
(** the indices visited by [for (i_rank = 0; i_rank < n_ranks; i_rank++) if (i_rank != root_rank)] *)
Definition slaves : list nat := filter (fun r => negb (Nat.eqb r root)) (seq 0 n).
Definition zr (r : nat) : Z := Z.of_nat r.
Definition zn : Z := Z.of_nat n.

(** Typed receive buffers. *)
Definition as_int (m : msg A) : res Z :=
  match m with MI [z] => OK z | _ => Stop MsgMismatch end.
Definition as_ints (k : Z) (m : msg A) : res (list Z) :=
  match m with MI l => if Z.of_nat (length l) =? k then OK l else Stop MsgMismatch | _ => Stop MsgMismatch end.
Definition as_uns (m : msg A) : res Z :=
  match m with MU z => OK z | _ => Stop MsgMismatch end.
Definition as_dbl (m : msg A) : res num :=
  match m with MD [x] => OK x | _ => Stop MsgMismatch end.
Definition as_dbls (k : Z) (m : msg A) : res row :=
  match m with MD l => if Z.of_nat (length l) =? k then OK l else Stop MsgMismatch | _ => Stop MsgMismatch end.

(** Per-rank variables of main that live through mpi_entire_flow. *)
Record loc : Type := mkLoc {
  l_g : Z;               (* drand48 state of the process *)
  l_sig : row;           (* *ptr_sigma_prop *)
  l_it : Z;              (* i_accumul *)
  l_acc : Z;             (* i_accumul_accept *)
  l_beta : row           (* running_Beta_Values *)
}.
(** Root-only arrays. *)
Record rootd : Type := mkRoot {
  transit : list row;    (* transit_BetaParm_root *)
  lps : row;             (* logpost_all_ranks *)
  sigt : list row        (* sigma_RanksParm_root *)
}.
Definition noroot : rootd := mkRoot [] [] [].
Record st : Type := mkSt { lo : loc; ro : rootd }.

Definition set_g (s : st) (g : Z) : st :=
  mkSt (mkLoc g (l_sig (lo s)) (l_it (lo s)) (l_acc (lo s)) (l_beta (lo s))) (ro s).
Definition set_sig (s : st) (x : row) : st :=
  mkSt (mkLoc (l_g (lo s)) x (l_it (lo s)) (l_acc (lo s)) (l_beta (lo s))) (ro s).
Definition set_beta (s : st) (b : row) : st :=
  mkSt (mkLoc (l_g (lo s)) (l_sig (lo s)) (l_it (lo s)) (l_acc (lo s)) b) (ro s).
Definition set_ro (s : st) (r : rootd) : st := mkSt (lo s) r.
Definition set_sigt (s : st) (t : list row) : st :=
  set_ro s (mkRoot (transit (ro s)) (lps (ro s)) t).
Definition set_trlp (s : st) (t : list row) (l : row) : st :=
  set_ro s (mkRoot t l (sigt (ro s))).
Definition after_batch (s : st) (b : batch_out (A := A)) : st :=
  mkSt (mkLoc (b_g b) (l_sig (lo s)) (b_it b) (b_acc b) (l_beta (lo s))) (ro s).

(** mpi_get_nlines, data_loader.c:79-92; nline_data is a global, initially 0 *)
Definition mpi_get_nlines (me : nat) : proc Z :=
  own <- (if is_root me then plift (e_nlines E) else Ret 0);;
  Bcast root (MI [own]) (fun m => plift (as_int m)).

(** mpi_data_loader, data_loader.c:13-24.  The other ranks broadcast into an uninitialised
    buffer of the same length: their own value plays no part. *)
Definition mpi_data_loader (me : nat) (nl ndim : Z) : proc (list num) :=
  own <- (if is_root me then plift (e_data E nl) else Ret []);;
  Bcast root (MD own) (fun m => plift (as_dbls (nl * ndim) m)).

(** mpi_gen_init_parm, mpi_init.c:32-115.  Returns transit_BetaParm_root and the generator state. *)
Definition mpi_gen_init_parm (me : nat) (seed : Z) : proc (list row * Z) :=
  if is_root me then
    seed' <- pfor slaves (fun i sd =>
       Send i 100 (MI [N_parm C])
         (let sd' := u32 (sd + 1) in
          Send i 101 (MU sd') (Ret sd'))) seed;;
    let seed'' := u32 (seed' + 1) in
    Out (EvSeed me (u2i seed''))
      (let (x0, g) := u_init U seed'' in
       t0 <- plift (zset (fresh zn) (zr root) (Some x0));;
       t <- pfor slaves (fun i t =>
              Recv i 200 (fun m =>
                x <- plift (as_dbls (N_parm C) m);;
                plift (zset t (zr i) (Some x)))) t0;;
       tr <- plift (all_cells t);;
       Out (EvInit tr) (Ret (tr, g)))
  else
    Recv root 100 (fun m1 =>
      npar <- plift (as_int m1);;
      Recv root 101 (fun m2 =>
        sd <- plift (as_uns m2);;
        Out (EvSeed me (u2i sd))
          (let (x, g) := u_init U sd in
           Send root 200 (MD x) (Ret ([], g))))).

(** mpi_init_calc_logllpp, mpi_init.c:119-207.  Returns logpost_all_ranks. *)
Definition mpi_init_calc_logllpp (me : nat) (D : Data A) (tr : list row) : proc row :=
  if is_root me then
    _ <- pfor slaves (fun i _ =>
       x <- plift (zget tr (zr i));; Send i 100 (MD x) (Ret tt)) tt;;
    x0 <- plift (zget tr (zr root));;
    beta <- plift (zget (Beta_Values C) (zr root));;
    let lp := nadd (u_logll U x0 (d_nline D) (d_arr D) beta) (u_logprior U x0) in
    lp0 <- plift (zset (fresh zn) (zr root) (Some lp));;
    Out (EvRow me (mkRow x0 lp 0 0))
      (l <- pfor slaves (fun i l =>
           Recv i 200 (fun m => v <- plift (as_dbl m);; plift (zset l (zr i) (Some v)))) lp0;;
       plift (all_cells l))
  else
    Recv root 100 (fun m =>
      x <- plift (as_dbls (N_parm C) m);;
      beta <- plift (zget (Beta_Values C) (zr me));;
      let lp := nadd (u_logll U x (d_nline D) (d_arr D) beta) (u_logprior U x) in
      Out (EvRow me (mkRow x lp 0 0))
        (Send root 200 (MD [lp]) (Ret []))).

(** mpi_gather_sigma_prop_root, mpi_flow.c:206-250.  Returns sigma_RanksParm_root. *)
Definition mpi_gather_sigma (me : nat) (sig : row) : proc (list row) :=
  if is_root me then
    t0 <- plift (zset (fresh zn) (zr root) (Some sig));;
    t <- pfor slaves (fun i t =>
           Recv i 200 (fun m => x <- plift (as_dbls (N_parm C) m);;
                                plift (zset t (zr i) (Some x)))) t0;;
    plift (all_cells t)
  else Send root 200 (MD sig) (Ret []).

(** mpi_distribute_sigma_prop_root, mpi_flow.c:256-297, with the matrix [t] held by root.
    Returns the new *ptr_sigma_prop. *)
Definition mpi_distribute_sigma (me : nat) (t : list row) : proc row :=
  if is_root me then
    own <- plift (zget t (zr root));;
    _ <- pfor slaves (fun i _ => x <- plift (zget t (zr i));; Send i 100 (MD x) (Ret tt)) tt;;
    Ret own
  else Recv root 100 (fun m => plift (as_dbls (N_parm C) m)).

(** mpi_run_a_batch, mpi_batch.c:48-131 *)
Definition mpi_run_a_batch (D : Data A) (me : nat) (s : st) (nb : Z) : proc st :=
  if is_root me then
    _ <- pfor slaves (fun i _ =>
       x <- plift (zget (transit (ro s)) (zr i));;
       Send i 102 (MD x)
        (l <- plift (zget (lps (ro s)) (zr i));;
         Send i 103 (MD [l]) (Ret tt))) tt;;
    x0 <- plift (zget (transit (ro s)) (zr root));;
    lp <- plift (zget (lps (ro s)) (zr root));;
    beta <- plift (zget (l_beta (lo s)) (zr me));;
    b <- plift (iter_batch_mh U D (N_parm C) x0 (l_sig (lo s)) nb beta (l_g (lo s))
                 (l_it (lo s)) (l_acc (lo s)) (i_save_begin C) lp);;
    pouts (map (EvRow me) (b_saved b))
     (lps1 <- plift (zset (lps (ro s)) (zr root) (b_lp b));;
      tr1 <- plift (zset (transit (ro s)) (zr root) (b_last b));;
      '(tr, lp') <- pfor slaves (fun i '(tr, l) =>
          Recv i 200 (fun m1 =>
            x <- plift (as_dbls (N_parm C) m1);;
            tr' <- plift (zset tr (zr i) x);;
            Recv i 201 (fun m2 =>
              v <- plift (as_dbl m2);;
              l' <- plift (zset l (zr i) v);;
              Ret (tr', l')))) (tr1, lps1);;
      Ret (set_trlp (after_batch s b) tr lp'))
  else
    Recv root 102 (fun m1 =>
      x0 <- plift (as_dbls (N_parm C) m1);;
      Recv root 103 (fun m2 =>
        lp <- plift (as_dbl m2);;
        beta <- plift (zget (l_beta (lo s)) (zr me));;
        b <- plift (iter_batch_mh U D (N_parm C) x0 (l_sig (lo s)) nb beta (l_g (lo s))
                     (l_it (lo s)) (l_acc (lo s)) (i_save_begin C) lp);;
        pouts (map (EvRow me) (b_saved b))
          (Send root 200 (MD (b_last b))
            (Send root 201 (MD [b_lp b])
              (Ret (after_batch s b)))))).

(** the partner chosen by root, mpi_stack.c:238-249; j_swap is 0 on entry (mpi_stack.c:71) *)
Definition choose_j (i g : Z) : res (Z * Z) :=
  let j0 := 0 in
  let j1 := if Swapmode C =? 0 then i + 1 else j0 in
  if Swapmode C =? 1 then
    let* (j, g') := i4_unif_0a (A := A) (zn - 1) g in
    OK (if i <=? j then j + 1 else j, g')
  else OK (j1, g).

(** mpi_judge_and_swap, mpi_stack.c:221-366.  slave_rank is 1 - min(1, root_rank) = 1.
    Returns do_swap. *)
Definition slave_rank : nat := 1.
Definition mpi_judge_and_swap (D : Data A) (me : nat) (s : st) (i : Z) : proc (st * Z) :=
  if is_root me then
    '(j, g1) <- plift (choose_j i (l_g (lo s)));;
    xi <- plift (zget (transit (ro s)) i);;
    xj <- plift (zget (transit (ro s)) j);;
    ii <- plift (zget (lps (ro s)) i);;
    jj <- plift (zget (lps (ro s)) j);;
    Send slave_rank 101 (MD xj)
     (Send slave_rank 102 (MI [i])
       (bj <- plift (zget (l_beta (lo s)) j);;
        let ij := nadd (u_logll U xi (d_nline D) (d_arr D) bj) (u_logprior U xi) in
        Recv slave_rank 200 (fun m =>
          ji <- plift (as_dbl m);;
          let sum := nsub (nsub (nadd ij ji) ii) jj in
          let '(doswap, g2) :=
            if nltb (nof 0) sum then (true, g1)
            else let (u, g2) := drand48 g1 in (nltb u (nexp sum), g2) in
          if doswap then
            (* swap_two_chains, mpi_stack.c:388-398, then lines 318-319 *)
            t1 <- plift (zset (transit (ro s)) i xj);;
            t2 <- plift (zset t1 j xi);;
            l1 <- plift (zset (lps (ro s)) i ji);;
            l2 <- plift (zset l1 j ij);;
            Ret (set_trlp (set_g s g2) t2 l2, 1)
          else Ret (set_g s g2, 0))))
  else if Nat.eqb me slave_rank then
    Recv root 101 (fun m1 =>
      x <- plift (as_dbls (N_parm C) m1);;
      Recv root 102 (fun m2 =>
        iv <- plift (as_int m2);;
        bi <- plift (zget (l_beta (lo s)) iv);;
        Send root 200 (MD [nadd (u_logll U x (d_nline D) (d_arr D) bi) (u_logprior U x)]) (Ret (s, 0))))
  else Ret (s, 0).

(** mpi_adjust_ladder, mpi_ladder.c:26-98 *)
Definition mpi_adjust_ladder (me : nat) (s : st) (nsw npr : row) : proc st :=
  if is_root me then
    b <- plift (tune_ladder (scale_tune_ladder C) (zero_stretch C) zn nsw npr (l_beta (lo s)));;
    _ <- pfor slaves (fun i _ => Send i 100 (MD b) (Ret tt)) tt;;
    Ret (set_beta s b)
  else
    Recv root 100 (fun m => b <- plift (as_dbls zn m);; Ret (set_beta s b)).

(** the swaps between two batches, mpi_stack.c:158-193 *)
Definition swap_round (D : Data A) (me : nat) (i_sw : Z) (x : st * Z * row * row)
    : proc (st * Z * row * row) :=
  let '(s, i_swap, nsw, npr) := x in
  '(s1, i1) <- (if is_root me then
                 '(i, g) <- plift (i4_unif_0a (A := A) (zn - 1) (l_g (lo s)));;
                 Ret (set_g s g, i)
               else Ret (s, i_swap));;
  '(s2, dsw) <- mpi_judge_and_swap D me s1 i1;;
  if (0 <? Tune_Ladder C) && is_root me then
    p <- plift (zget npr i1);;
    npr' <- plift (zset npr i1 (nadd p (nof 1)));;
    w <- plift (zget nsw i1);;
    nsw' <- plift (zset nsw i1 (nadd w (nof dsw)));;
    Ret (s2, i1, nsw', npr')
  else Ret (s2, i1, nsw, npr).

(** the indices of [for (int i=0; i<N; i++)] *)
Definition zseq (k : Z) : list Z := map Z.of_nat (seq 0 (Z.to_nat k)).

(** while loop of mpi_static_sigma_stack, mpi_stack.c:99-201 *)
Fixpoint stack_loop (D : Data A) (me : nat) (len : Z) (fuel : nat)
    (s : st) (i_tmp i_next : Z) (i_swap : Z) (nsw npr : row) : proc (st * row * row) :=
  if i_next <? len then
    match fuel with
    | O => Fail OutOfFuel
    | S fuel' =>
      '(s1, i_next', nb) <-
        (if is_root me then
           lo_r <- plift (i32 (- n_iter_a_batch_rand C));;
           '(adj, g) <- plift (i4_unif_ab (A := A) lo_r (n_iter_a_batch_rand C) (l_g (lo s)));;
           nb0 <- plift (i32 (n_iter_a_batch_base C + adj));;
           nx0 <- plift (i32 (i_tmp + nb0));;
           let nb := if len <? nx0 then len - i_tmp else nb0 in
           let nx := if len <? nx0 then len else nx0 in
           _ <- pfor slaves (fun i _ =>
                  Send i 100 (MI [nx]) (Send i 101 (MI [nb]) (Ret tt))) tt;;
           Ret (set_g s g, nx, nb)
         else
           Recv root 100 (fun m1 =>
             nx <- plift (as_int m1);;
             Recv root 101 (fun m2 =>
               nb <- plift (as_int m2);;
               Ret (s, nx, nb))));;
      Barrier
       (s2 <- mpi_run_a_batch D me s1 nb;;
        Barrier
         ('(s3, isw, nsw', npr') <-
            pfor (zseq (N_swap C)) (swap_round D me) (s2, i_swap, nsw, npr);;
          Barrier
           (stack_loop D me len fuel' s3 i_next' i_next' isw nsw' npr')))
    end
  else Ret (s, nsw, npr).

(** mpi_static_sigma_stack, mpi_stack.c:53-216.  The counting arrays are only initialised, and
    only used, by root when Tune_Ladder > 0. *)
Definition mpi_static_sigma_stack (D : Data A) (me : nat) (s : st) (len : Z) : proc st :=
  let cnt := if (0 <? Tune_Ladder C) && is_root me then repeat (nof 0) n else [] in
  _ <- (if is_root me then Out (EvBeta (l_beta (lo s))) (Ret tt) else Ret tt);;
  '(s1, nsw, npr) <- stack_loop D me len (Z.to_nat len) s 0 0 0 cnt cnt;;
  if (u2i (l_it (lo s1)) <? N_stopTuneLadder C) && (0 <? Tune_Ladder C)
  then mpi_adjust_ladder me s1 nsw npr
  else Ret s1.

(** one rank's own decision, mpi_flow.c:150-157 and 180-187 *)
Definition tune_flag (rate : num) : Z :=
  if nltb rate (ar_ok_upper C) && nltb (ar_ok_lower C) rate then 0 else 1.

(** mpi_find_ranks2tune, mpi_flow.c:145-201 *)
Definition mpi_find_ranks2tune (me : nat) (rate : num) : proc (list Z) :=
  own <- (if is_root me then
     t0 <- plift (zset (fresh zn) (zr root) (Some (tune_flag rate)));;
     t <- pfor slaves (fun i t =>
            Recv i 200 (fun m => v <- plift (as_int m);; plift (zset t (zr i) (Some v)))) t0;;
     plift (all_cells t)
   else Send root 200 (MI [tune_flag rate]) (Ret []));;
  Bcast root (MI own) (fun m => plift (as_ints zn m)).

(** mpi_tune_sigma_iparmNrank, mpi_tune.c:267-346.  Returns the row of acceptance rates. *)
Definition mpi_tune_iparmNrank (D : Data A) (me : nat) (s : st) (x0 : row) (lp : num) (rk : Z)
    : proc (st * row) :=
  beta <- plift (zget (l_beta (lo s)) rk);;
  '(ar, g) <- plift (iter_batch_mh_tune U D (N_parm C) x0 (l_sig (lo s)) (n_iter_in_tune C) beta
                       (l_g (lo s)) lp);;
  if is_root me then
    t0 <- plift (zset (fresh zn) (zr root) (Some ar));;
    t <- pfor slaves (fun i t =>
           Recv i 200 (fun m => v <- plift (as_dbl m);; plift (zset t (zr i) (Some v)))) t0;;
    l <- plift (all_cells t);;
    Ret (set_g s g, l)
  else Send root 200 (MD [ar]) (Ret (set_g s g, [])).

(** LOOP B of mpi_tune_sigma_irank, mpi_tune.c:178-221: one turn *)
Definition tune_parm (D : Data A) (me : nat) (rk : Z) (alltune : list row) (x0 : row) (lp : num)
    (jp : Z) (x : st * list row) : proc (st * list row) :=
  let '(s, ars) := x in
  mat <- (if is_root me then plift (tune_matrix zn (sigt (ro s)) rk alltune jp) else Ret []);;
  sig <- mpi_distribute_sigma me mat;;
  Barrier
   ('(s1, ar) <- mpi_tune_iparmNrank D me (set_sig s sig) x0 lp rk;;
    Barrier (Ret (s1, ars ++ [ar]))).

(** mpi_tune_sigma_irank, mpi_tune.c:112-260 *)
Definition mpi_tune_irank (D : Data A) (me : nat) (s : st) (rk : Z) : proc st :=
  '(alltune, x0, lp0) <-
     (if is_root me then
        al <- plift (gen_sigma_alltune C U zn (sigt (ro s)) rk);;
        lp <- plift (zget (lps (ro s)) rk);;
        x <- plift (zget (transit (ro s)) rk);;
        Ret (al, x, lp)
      else Ret ([], [], nof 0));;
  Bcast root (MD x0) (fun m1 =>
    x <- plift (as_dbls (N_parm C) m1);;
    Bcast root (MD [lp0]) (fun m2 =>
      lp <- plift (as_dbl m2);;
      Barrier
       ('(s1, ars) <- pfor (zseq (N_parm C)) (tune_parm D me rk alltune x lp) (s, []);;
        s2 <- (if is_root me then
                 '(ip, ir, g) <- plift (decide_sigma_to_change C zn ars (l_g (lo s1)));;
                 t <- plift (modify_sigma_prop C U zn rk ip ir (sigt (ro s1)) alltune ars);;
                 Ret (set_sigt (set_g s1 g) t)
               else Ret s1);;
        Barrier (Ret s2)))).

(** LOOP A, mpi_flow.c:108-126 *)
Definition tune_all (D : Data A) (me : nat) (flags : list Z) (s : st) : proc st :=
  pfor (zseq zn) (fun r s =>
    f <- plift (zget flags r);;
    s' <- (if f =? 1 then mpi_tune_irank D me s r else Ret s);;
    Barrier (Ret s')) s.

(** while loop of mpi_entire_flow, mpi_flow.c:57-134 *)
Fixpoint flow_loop (D : Data A) (me : nat) (fuel : nat) (s : st) (len i_tmp i_next : Z) : proc st :=
  if i_next <? N_iter C then
    match fuel with
    | O => Fail OutOfFuel
    | S fuel' =>
      nx0 <- plift (i32 (i_tmp + len));;
      let len' := if N_iter C <? nx0 then N_iter C - i_tmp else len in
      let nx := if N_iter C <? nx0 then N_iter C else nx0 in
      sig <- mpi_distribute_sigma me (sigt (ro s));;
      let s1 := set_sig s sig in
      Barrier
       (let old := l_acc (lo s1) in
        Out (EvSigma me (l_sig (lo s1)))
         (s2 <- mpi_static_sigma_stack D me s1 len';;
          let rate := ndiv (nof (u32 (l_acc (lo s2) - old))) (nof len') in
          Barrier
           (s3 <- (if (N_begintune C <? nx) && (nx <? N_stoptune C) && (nx <? N_iter C) then
                     flags <- mpi_find_ranks2tune me rate;;
                     Barrier (tune_all D me flags s2)
                   else Ret s2);;
            flow_loop D me fuel' s3 len' nx nx)))
    end
  else Ret s.

(** mpi_entire_flow, mpi_flow.c:40-141 *)
Definition mpi_entire_flow (D : Data A) (me : nat) (s : st) : proc st :=
  flow_loop D me (Z.to_nat (N_iter C)) s (n_iter_a_stack C) 0 0.

(** running_Beta_Values[i] = Beta_Values[i], main.c:196-199 *)
Definition copy_betas : res row :=
  for_from n 0 (fun i b => let* v := zget (Beta_Values C) i in OK (b ++ [v])) [].

(** rolling_seed, main.c:107-118: init_rand_seed is unsigned, so [<= 0] means [== 0] *)
Definition first_seed : Z := if init_rand_seed C <=? 0 then u32 (e_time E) else init_rand_seed C.

(** main, main.c:64-249, after read_input_ini.  [ndim] is ndim_data. *)
Definition main (ndim : Z) (me : nat) : proc st :=
  _ <- (if is_root me then Out EvDir (Ret tt) else Ret tt);;
  nl <- mpi_get_nlines me;;
  sz <- plift (i32 (nl * ndim));;
  arr <- mpi_data_loader me nl ndim;;
  let D := mkData nl arr in
  '(tr, g) <- mpi_gen_init_parm me first_seed;;
  lp <- mpi_init_calc_logllpp me D tr;;
  Barrier
   (let sig := u_gp U in
    Out (EvSigma me sig)
     (t <- mpi_gather_sigma me sig;;
      betas <- plift copy_betas;;
      let s := mkSt (mkLoc g sig 0 0 betas)
                    (if is_root me then mkRoot tr lp t else noroot) in
      s' <- mpi_entire_flow D me s;;
      Barrier (Ret s'))).

End Prog.
