(** Run-time configuration, user model, and the Metropolis-Hastings batch (mpi_batch.c,
    and its copy in mpi_tune.c). *)
From Coq Require Import ZArith List Bool Lia.
From Verif Require Import Base Arith Rand.
Import ListNotations.
Open Scope Z_scope.

(** Read every cell of an array; [Uninit] if one was never written. *)
Fixpoint all_cells {X} (l : list (option X)) : res (list X) :=
  match l with
  | [] => OK []
  | o :: t => let* x := cell o in let* r := all_cells t in OK (x :: r)
  end.

(** The global parameters set by read_input_ini (readin.c:306-386), as the values they hold
    after reading.  Doubles are [num], ints and unsigneds are [Z]. *)
Record Cfg (A : Arith) : Type := mkCfgP {
  N_parm : Z;                 (* int *)
  N_iter : Z;                 (* int *)
  n_iter_a_stack : Z;         (* int *)
  n_iter_a_batch_base : Z;    (* int *)
  n_iter_a_batch_rand : Z;    (* int *)
  N_swap : Z;                 (* int *)
  Swapmode : Z;               (* int *)
  N_begintune : Z;            (* int *)
  N_stoptune : Z;             (* int *)
  n_iter_in_tune : Z;         (* int *)
  Tune_Ladder : Z;            (* int *)
  N_stopTuneLadder : Z;       (* int *)
  i_save_begin : Z;           (* unsigned *)
  init_rand_seed : Z;         (* unsigned *)
  ar_ok_lower : num A;
  ar_ok_upper : num A;
  ar_best : num A;
  ar_accept_diff : num A;
  sigma_scale_half_ratio : num A;
  sigma_jumpin_ratio : num A;
  scale_tune_ladder : num A;
  zero_stretch : num A;
  Beta_Values : list (num A)
}.
Arguments N_parm {A}. Arguments N_iter {A}. Arguments n_iter_a_stack {A}.
Arguments n_iter_a_batch_base {A}. Arguments n_iter_a_batch_rand {A}. Arguments N_swap {A}.
Arguments Swapmode {A}. Arguments N_begintune {A}. Arguments N_stoptune {A}.
Arguments n_iter_in_tune {A}. Arguments Tune_Ladder {A}. Arguments N_stopTuneLadder {A}.
Arguments i_save_begin {A}. Arguments init_rand_seed {A}. Arguments ar_ok_lower {A}.
Arguments ar_ok_upper {A}. Arguments ar_best {A}. Arguments ar_accept_diff {A}.
Arguments sigma_scale_half_ratio {A}. Arguments sigma_jumpin_ratio {A}.
Arguments scale_tune_ladder {A}. Arguments zero_stretch {A}. Arguments Beta_Values {A}.

(** What the user supplies (user_logll.c, user_prior.c of a model directory).  The functions
    are taken to be pure functions of their arguments, as all shipped ones are once
    init_parm_set has read the ranges. *)
Record User (A : Arith) : Type := mkUser {
  (* logll_beta(chain, nline, data, beta) *)
  u_logll : list (num A) -> Z -> list (num A) -> num A -> num A;   (* chain, nline, data, beta *)
  (* log_prior(chain) *)
  u_logprior : list (num A) -> num A;
  (* para_boundary(chain), in place in C *)
  u_bound : list (num A) -> list (num A);
  (* init_parm_set(seed): the parameter set, and the generator state it leaves *)
  u_init : Z -> list (num A) * Z;
  (* init_gaussian_proposal(., init_gp_ratio) *)
  u_gp : list (num A);
  (* sigma_parm_min / sigma_parm_max, filled by calc_sigma_scale_boundary *)
  u_sigmin : list (num A);
  u_sigmax : list (num A)
}.
Arguments u_logll {A}. Arguments u_logprior {A}. Arguments u_bound {A}. Arguments u_init {A}.
Arguments u_gp {A}. Arguments u_sigmin {A}. Arguments u_sigmax {A}.

(** The observed data held by every rank: nline_data and the flat array. *)
Record Data (A : Arith) : Type := mkData { d_nline : Z; d_arr : list (num A) }.
Arguments d_nline {A}. Arguments d_arr {A}. Arguments mkData {A}.

(** One line of a chain file: parameters, log posterior, iteration, accepted count. *)
Record crow (A : Arith) : Type := mkRow {
  r_parm : list (num A); r_lp : num A; r_it : Z; r_acc : Z }.
Arguments mkRow {A}. Arguments r_parm {A}. Arguments r_lp {A}. Arguments r_it {A}. Arguments r_acc {A}.

Section Mh.
Context {A : Arith}.
Variable U : User A.
Variable D : Data A.
Variable np : Z.     (* N_parm *)

(** The tempered log posterior that the statements are about: log-likelihood at beta plus log-prior.  The model does not use it;
    it writes the sum out at each place where the code does: mpi_batch.c:201-203 (and mpi_tune.c:411-413), mpi_init.c:156-158
    and 191-193, mpi_stack.c:285-288 and 352-354. *)
Definition logpost_at (x : list (num A)) (beta : num A) : num A :=
  nadd (u_logll U x (d_nline D) (d_arr D) beta) (u_logprior U x).

(** mpi_batch.c:298-346.  The new set is written from index 0 upwards, modelled by appending.
    Returns the proposal, q_factor, and the generator state. *)
Definition do_gaussian_propose (old sigma : list (num A)) (g : Z) : res (list (num A) * num A * Z) :=
  let* (new, g') :=
    for_from (Z.to_nat np) 0
      (fun i '(new, g) =>
         let* x := zget old i in
         let* s := zget sigma i in
         let (r, g1) := r8_normal_01 g in
         let dx := nmul r s in
         OK (new ++ [nadd x dx], g1))
      ([], g) in
  OK (new, nof 1, g').

(** State of the loop of iter_batch_mh (mpi_batch.c:138-293).  chain_IterParm rows are copied
    whole: each row has exactly N_parm cells and every copy loop runs over all of them. *)
Record mhs : Type := mkMhs {
  m_chain : list (option (list (num A)));
  m_lp : list (option (num A));
  m_g : Z;
  m_acc : Z                      (* the accept counter, unsigned *)
}.

(** Body of the while loop, mpi_batch.c:178-247 (the same text is in mpi_tune.c:388-457).
    [lp_in] is the argument logpost_old, used while i = 0. *)
Definition mh_body (sigma : list (num A)) (beta lp_in : num A) (i : Z) (s : mhs) : res mhs :=
  let* lp_old := if 0 <? i then (let* c := zget (m_lp s) (i - 1) in cell c) else OK lp_in in
  let* old := (let* c := zget (m_chain s) (if 0 <? i then i - 1 else 0) in cell c) in
  let* (new0, q, g1) := do_gaussian_propose old sigma (m_g s) in
  let new := u_bound U new0 in
  let lp_new := nadd (u_logll U new (d_nline D) (d_arr D) beta) (u_logprior U new) in
  let accept g :=
      let* ch := zset (m_chain s) i (Some new) in
      let* lp := zset (m_lp s) i (Some lp_new) in
      OK (mkMhs ch lp g (u32 (m_acc s + 1))) in
  if nltb (nlog (ndiv (nof 1) q)) (nsub lp_new lp_old) then accept g1
  else
    let H := nmul (nexp (nsub lp_new lp_old)) q in
    let (u, g2) := drand48 g1 in
    if nltb u H then accept g2
    else if 0 <? i then
      (* the rejected iteration repeats row i-1 *)
      let* prev := (let* c := zget (m_chain s) (i - 1) in cell c) in
      let* ch := zset (m_chain s) i (Some prev) in
      let* lp := zset (m_lp s) i (Some lp_old) in
      OK (mkMhs ch lp g2 (m_acc s))
    else OK (mkMhs (m_chain s) (m_lp s) g2 (m_acc s)).

(** chain_IterParm as prepared by the callers: n rows, row 0 written (mpi_batch.c:67-73, 110-111;
    mpi_tune.c:275-281, 315-321). *)
Definition chain_start (n : Z) (x0 : list (num A)) : res (list (option (list (num A)))) :=
  zset (fresh n) 0 (Some x0).

Record batch_out : Type := mkBatch {
  b_last : list (num A);        (* row n-1 *)
  b_lp : num A;                 (* logpost_final *)
  b_g : Z;
  b_it : Z;                     (* *ptr_i_accumul *)
  b_acc : Z;                    (* *ptr_i_accumul_accept *)
  b_saved : list (crow A)       (* rows appended to the chain file *)
}.

(** save_the_batch, mpi_batch.c:428-470: one line per iteration. *)
Fixpoint batch_rows (ch : list (list (num A))) (lp : list (num A)) (it ac : list Z) : list (crow A) :=
  match ch, lp, it, ac with
  | x :: ch', l :: lp', i :: it', a :: ac' => mkRow x l i a :: batch_rows ch' lp' it' ac'
  | _, _, _, _ => []
  end.

(** iter_batch_mh, mpi_batch.c:138-293, called on a chain whose row 0 is [x0]. *)
Definition iter_batch_mh (x0 sigma : list (num A)) (n : Z) (beta : num A)
    (g it acc : Z) (save_begin : Z) (lp_in : num A) : res batch_out :=
  let* ch0 := chain_start n x0 in
  let* lp0 := zset (fresh n) 0 (Some lp_in) in                        (* 173 *)
  let* (s, it', its, acs) :=
    for_from (Z.to_nat n) 0
      (fun i '(s, it, its, acs) =>
         let* s' := mh_body sigma beta lp_in i s in
         let it' := u32 (it + 1) in                                   (* 258 *)
         let* its' := zset its i (Some (u2i it')) in                  (* 259 *)
         let* acs' := zset acs i (Some (u2i (m_acc s'))) in           (* 261 *)
         OK (s', it', its', acs'))
      (mkMhs ch0 lp0 g acc, it, fresh n, fresh n) in
  let* saved :=
    if save_begin <=? it' then                                        (* 268, unsigned comparison *)
      let* rows := all_cells (m_chain s) in
      let* lps := all_cells (m_lp s) in
      let* ii := all_cells its in
      let* aa := all_cells acs in
      OK (batch_rows rows lps ii aa)
    else OK [] in
  let* lpf := (let* c := zget (m_lp s) (n - 1) in cell c) in          (* 276 *)
  let* last := (let* c := zget (m_chain s) (n - 1) in cell c) in      (* read by the callers: 85, 121 *)
  OK (mkBatch last lpf (m_g s) it' (m_acc s) saved).

(** iter_batch_mh_tune, mpi_tune.c:351-490.  Same loop, no counters, nothing saved;
    returns the acceptance rate and the generator state. *)
Definition iter_batch_mh_tune (x0 sigma : list (num A)) (n : Z) (beta : num A)
    (g : Z) (lp_in : num A) : res (num A * Z) :=
  let* ch0 := chain_start n x0 in
  let* lp0 := zset (fresh n) 0 (Some lp_in) in
  let* s := for_from (Z.to_nat n) 0 (mh_body sigma beta lp_in) (mkMhs ch0 lp0 g 0) in
  OK (ndiv (nof (m_acc s)) (nof n), m_g s).

End Mh.
