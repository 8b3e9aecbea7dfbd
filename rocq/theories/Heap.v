(** The heap blocks and open files of one rank: which blocks the code allocates, reads, writes and frees, in which order. *)
From Coq Require Import ZArith List Bool Lia.
Import ListNotations.
Open Scope Z_scope.

(** pointer variables that hold a block of the heap.  Every variable of the code that is assigned from malloc has its own name here; the
    redundant pointers of the code (ptr_sigma_prop, ptr_one_chain_old, ptr_ichain, ...) stand for the block they point into. *)
Inductive pv :=
| para_line | line_buf | FoutPre | FoutSuf | results_dir | Data_file | Delimiter | Beta_Values            (* readin.c *)
| line                                                                                                  (* data_loader.c *)
| sigma_parm_min | sigma_parm_max                                                                       (* models/regression/user_prior.c *)
| data_NlineNdim | transit_BetaParm_root | logpost_all_ranks | sigma_RanksParm_root | sigma_gaussian_prop | running_Beta_Values  (* main.c *)
| chain_Parm_slave | chain_Parm_root                                                                    (* mpi_init.c *)
| tune_ranks                                                                                            (* mpi_flow.c *)
| doubleInt_Nswaps | doubleInt_Nprops | chain_Parm_ichain | chain_Parm_jchain                            (* mpi_stack.c *)
| chain_IterParm_root | chain_IterParm_slave | accumul_accept | accumul | logpost | ptr_one_chain_new    (* mpi_batch.c *)
| chain_single_tune | ar_ParmNvaried | sigma_alltune_ParmNvaried | sigma_tune1parm_NvariedParm | chain_IterParm
| logpost_tune | ptr_one_chain_new_tune | scaled_arr | sigma_gaussian_prop_rankintune | oneparm_arerr_Nvaried | std_Parm  (* mpi_tune.c *)
| T_ladder | swap_ar_i_ip1.                                                                             (* mpi_ladder.c *)
Definition pv_eq : forall a b : pv, {a = b} + {a <> b}.
Proof. decide equality. Defined.
Definition all_pv : list pv :=
  [para_line; line_buf; FoutPre; FoutSuf; results_dir; Data_file; Delimiter; Beta_Values; line; sigma_parm_min; sigma_parm_max;
   data_NlineNdim; transit_BetaParm_root; logpost_all_ranks; sigma_RanksParm_root; sigma_gaussian_prop; running_Beta_Values;
   chain_Parm_slave; chain_Parm_root; tune_ranks; doubleInt_Nswaps; doubleInt_Nprops; chain_Parm_ichain; chain_Parm_jchain;
   chain_IterParm_root; chain_IterParm_slave; accumul_accept; accumul; logpost; ptr_one_chain_new;
   chain_single_tune; ar_ParmNvaried; sigma_alltune_ParmNvaried; sigma_tune1parm_NvariedParm; chain_IterParm;
   logpost_tune; ptr_one_chain_new_tune; scaled_arr; sigma_gaussian_prop_rankintune; oneparm_arerr_Nvaried; std_Parm; T_ladder; swap_ar_i_ip1].

(** what a variable points to: nothing yet, NULL or a string constant, a block that was freed, or a live block of n1 rows of n2 cells (one
    cell per row for one-dimensional arrays) with the cells that were written since malloc, in row-major order *)
Inductive cell := Undef | Null | Freed | Live (n1 n2 : Z) (ini : Z -> bool).
(** lost: blocks that no variable points to any more and that were not freed, with the variable that held them and their size *)
Record hst := mkH { var : pv -> cell; lost : list (pv * Z); files : Z }.
Definition hset (s : hst) (v : pv) (c : cell) : hst := mkH (fun w => if pv_eq v w then c else var s w) (lost s) (files s).
Definition hlose (s : hst) (v : pv) : hst :=
  match var s v with Live n1 n2 _ => mkH (var s) ((v, n1 * n2) :: lost s) (files s) | _ => s end.

Inductive ev :=
| Malloc (v : pv) (n1 n2 : Z)   (* alloc_1d_* (n2 = 1), alloc_2d_* (alloc.c:15-100), malloc *)
| Free (v : pv)                 (* free, free_1d_* (alloc.c:24-40) *)
| Free2 (v : pv)                (* free_2d_double: free(dd[0]); free(dd) (alloc.c:102-106) *)
| SetNull (v : pv)              (* v = NULL, or v = " " for Delimiter *)
| Rd (v : pv) (i j : Z)         (* a cell is read, printed or sent *)
| Wr (v : pv) (i j : Z)         (* a cell is assigned or received *)
| Open | Close.                 (* fopen, fclose *)

(** None: undefined behaviour of C (use of a block that is not there, twice freed, out of bounds) or use of a cell that nothing wrote *)
Definition hstep (s : hst) (e : ev) : option hst :=
  match e with
  | Malloc v n1 n2 => if (0 <=? n1) && (0 <=? n2) then Some (hset (hlose s v) v (Live n1 n2 (fun _ => false))) else None
  | Free v => match var s v with Live _ _ _ => Some (hset s v Freed) | Null => Some s | _ => None end
  | Free2 v => match var s v with Live n1 _ _ => if 1 <=? n1 then Some (hset s v Freed) else None | _ => None end
  | SetNull v => Some (hset (hlose s v) v Null)
  | Rd v i j => match var s v with
      | Live n1 n2 ini => if (0 <=? i) && (i <? n1) && (0 <=? j) && (j <? n2) && ini (i * n2 + j) then Some s else None
      | _ => None end
  | Wr v i j => match var s v with
      | Live n1 n2 ini => if (0 <=? i) && (i <? n1) && (0 <=? j) && (j <? n2)
          then Some (hset s v (Live n1 n2 (fun p => (p =? i * n2 + j) || ini p))) else None
      | _ => None end
  | Open => Some (mkH (var s) (lost s) (files s + 1))
  | Close => if 1 <=? files s then Some (mkH (var s) (lost s) (files s - 1)) else None
  end.
Fixpoint hrun (s : hst) (t : list ev) : option hst :=
  match t with [] => Some s | e :: t' => match hstep s e with Some s' => hrun s' t' | None => None end end.

(** *** commands: the control flow of the code, with everything that depends on data left open *)
Inductive cmd :=
| Nop
| Do (e : ev)
| Then (a b : cmd)
| Or (a b : cmd)                         (* a branch on data *)
| For (lo hi : Z) (f : Z -> cmd)         (* for (i = lo; i < hi; i++) *)
| Many (c : cmd)                         (* a loop that runs any number of times *)
| Pick (P : Z -> Prop) (f : Z -> cmd).   (* with some number for which P *)
Inductive tr : cmd -> list ev -> Prop :=
| tr_nop : tr Nop []
| tr_do : forall e, tr (Do e) [e]
| tr_then : forall a b t u, tr a t -> tr b u -> tr (Then a b) (t ++ u)
| tr_orl : forall a b t, tr a t -> tr (Or a b) t
| tr_orr : forall a b t, tr b t -> tr (Or a b) t
| tr_fend : forall lo hi f, hi <= lo -> tr (For lo hi f) []
| tr_for : forall lo hi f t u, lo < hi -> tr (f lo) t -> tr (For (lo + 1) hi f) u -> tr (For lo hi f) (t ++ u)
| tr_stop : forall c, tr (Many c) []
| tr_more : forall c t u, tr c t -> tr (Many c) u -> tr (Many c) (t ++ u)
| tr_pick : forall (P : Z -> Prop) f z t, P z -> tr (f z) t -> tr (Pick P f) t.

Declare Scope hcmd.
Delimit Scope hcmd with hcmd.
Notation "a ;; b" := (Then a b) (at level 55, right associativity) : hcmd.
Open Scope hcmd.
Definition rd v i := Do (Rd v i 0).
Definition wr v i := Do (Wr v i 0).
Definition rdrow v i n := For 0 n (fun j => Do (Rd v i j)).
Definition wrrow v i n := For 0 n (fun j => Do (Wr v i j)).
Definition rdvec v n := For 0 n (fun i => rd v i).
Definition wrvec v n := For 0 n (fun i => wr v i).
Definition when (b : bool) (c : cmd) := if b then c else Nop.
Definition below (n : Z) := fun z => 0 <= z < n.

(** *** the code *)
Definition DEST : Z := 100.    (* DEST_SIZE, readin.c:8 *)

Section Readin.
Variable LL : Z.              (* the length of the longest line of the input file and of the data file *)
(** readin.c:87-135: read_onepara finds the line in the file (any number of other lines before and after; getline, which may move its buffer,
    is taken to do so every time) and the caller's sscanf reads it.  len is the length of the line found, without the final 0.
    The new block replaces the one of the previous call in the caller's para_line.  A missing or repeated entry is not in the model here (C46). *)
Definition get_line (l : Z) := Do (Free line_buf);; Do (Malloc line_buf (l + 1) 1);; wrvec line_buf (l + 1);; rdvec line_buf (l + 1).
Definition read_onepara : cmd :=
  Do Open;; Do (Malloc para_line DEST 1);; Do (Malloc line_buf 1 1);;
  Many (Pick (fun l => 0 <= l <= LL) get_line);;
  Pick (below DEST) (fun len =>
    get_line len;; For 0 (len + 1) (fun k => rd line_buf k;; wr para_line k);;
    Many (Pick (fun l => 0 <= l <= LL) get_line);;
    Do Close;; Do (Free line_buf);; Do (SetNull line_buf);;
    rdvec para_line (len + 1)).
Fixpoint calls (k : nat) : cmd := match k with O => Nop | S k' => read_onepara;; calls k' end.
(** sscanf("%[^:]:%s", dummy, v) *)
Definition scan_str v := read_onepara;; Pick (below DEST) (fun l => wrvec v (l + 1)).
Definition drop_para := Do (Free para_line);; Do (SetNull para_line).
Definition read_chains_grid := calls 9;; drop_para.                                                                  (* readin.c:141-190 *)
Definition read_chain_out_name := Do (Malloc FoutPre DEST 1);; Do (Malloc FoutSuf DEST 1);; Do (Malloc results_dir DEST 1);;   (* :192-224 *)
  read_onepara;; scan_str FoutPre;; scan_str FoutSuf;; scan_str results_dir;; drop_para.
Definition read_beta_values (Nb : Z) := Do (Malloc Beta_Values Nb 1);; read_onepara;; wrvec Beta_Values Nb;; drop_para.        (* :263-303; found = N_beta *)
Definition read_data_desc (blank : bool) := Do (Malloc Data_file DEST 1);; Do (Malloc Delimiter DEST 1);;                      (* :230-261 *)
  scan_str Data_file;; read_onepara;; scan_str Delimiter;; when blank (Do (SetNull Delimiter));; drop_para.
Definition read_sampling_para := calls 17;; drop_para.                                                               (* :306-386 *)
Definition read_input_ini (Nb : Z) (blank : bool) :=                                                                 (* :408-421 *)
  read_chains_grid;; read_chain_out_name;; read_beta_values Nb;; read_data_desc blank;; read_sampling_para.
End Readin.

Section Rank.
Variables LL n N K nl nd kd Nb Tn LM Nswap : Z.   (* longest line, ranks, N_parm, parameters of the user functions, lines, columns, columns used, N_beta, n_iter_in_tune, longest batch, N_swap *)
Variables (tl blank : bool).                    (* Tune_Ladder > 0, Delimiter "blank" *)
Variable r : Z.                                 (* my_rank; the root is rank 0 (main.c:85) *)
Definition root := r =? 0.
Definition ife (b : bool) (x y : cmd) := if b then x else y.

(** a result file is opened, c is printed, the file is closed (save_* in all files).  When fopen fails the rank exits (C71). *)
Definition saved (c : cmd) := Do Open;; c;; Do Close.

(** data_loader.c:28-74: every line has nd numbers and there are nl lines *)
Definition read_data :=
  Do Open;; Do (Malloc line 1 1);;
  For 0 nl (fun i => Pick (fun l => 0 <= l <= LL) (fun l => Do (Free line);; Do (Malloc line (l + 1) 1);; wrvec line (l + 1);; rdvec line (l + 1));;
    For 0 nd (fun j => Do (Wr data_NlineNdim i j)));;
  Do Close;; Do (Free line).
Definition all_data (f : Z -> Z -> ev) := For 0 nl (fun i => For 0 nd (fun j => Do (f i j))).
Definition mpi_data_loader := ife root (read_data;; all_data (Rd data_NlineNdim)) (all_data (Wr data_NlineNdim)).             (* :10-24, MPI_Bcast *)
Definition mpi_get_nlines := when root (Do Open;; Do Close).                                                                  (* :80-121 *)

(** the user functions of a model with K parameters that uses kd columns of the data: models/regression *)
Definition logll_beta x := rdvec x K;; For 0 nl (fun i => For 0 kd (fun j => Do (Rd data_NlineNdim i j))).     (* user_logll.c:12-46 *)
Definition log_prior x := rdvec x K.                                                                           (* user_prior.c:163-191 *)
Definition para_boundary x := rdvec x K;; For 0 K (fun i => Or Nop (wr x i);; Or Nop (wr x i)).                (* :197-262 *)
Definition init_gaussian_proposal x := wrvec x K.                                                              (* :114-133 *)
Definition calc_sigma_scale_boundary := wrvec sigma_parm_min K;; wrvec sigma_parm_max K;;                      (* :297-341 *)
  For 0 N (fun i => rd sigma_parm_min i;; rd sigma_parm_max i).
Definition read_parm_range := calls LL (Z.to_nat (2 * K));; drop_para.                                           (* :44-84: two entries for each parameter *)
Definition init_parm_set (f : Z -> ev) :=                                                                      (* :89-110; f i: chain_parm[i] *)
  read_parm_range;; For 0 K (fun i => Do (f i));;
  Do (Malloc sigma_parm_min N 1);; Do (Malloc sigma_parm_max N 1);; calc_sigma_scale_boundary.

(** mpi_init.c:32-115 *)
Definition mpi_gen_init_parm :=
  ife root
    (saved Nop;; init_parm_set (fun i => Wr transit_BetaParm_root 0 i);;
     For 1 n (fun i => wrrow transit_BetaParm_root i N);;
     saved (For 0 n (fun i => rdrow transit_BetaParm_root i N)))
    (saved Nop;; Do (Malloc chain_Parm_slave N 1);; init_parm_set (fun i => Wr chain_Parm_slave i 0);;
     rdvec chain_Parm_slave N;; Do (Free chain_Parm_slave);; Do (SetNull chain_Parm_slave)).
(** mpi_init.c:119-207 *)
Definition mpi_init_calc_logllpp :=
  ife root
    (For 1 n (fun i => rdrow transit_BetaParm_root i N);;
     Do (Malloc chain_Parm_root N 1);; For 0 N (fun i => Do (Rd transit_BetaParm_root 0 i);; wr chain_Parm_root i);;
     rd Beta_Values 0;; logll_beta chain_Parm_root;; log_prior chain_Parm_root;; wr logpost_all_ranks 0;;
     saved (rdvec chain_Parm_root N);; For 1 n (fun i => wr logpost_all_ranks i);;
     Do (Free chain_Parm_root);; Do (SetNull chain_Parm_root))
    (Do (Malloc chain_Parm_slave N 1);; wrvec chain_Parm_slave N;;
     rd Beta_Values r;; logll_beta chain_Parm_slave;; log_prior chain_Parm_slave;;
     saved (rdvec chain_Parm_slave N);; Do (Free chain_Parm_slave);; Do (SetNull chain_Parm_slave)).

(** mpi_flow.c:338-366, :196-240, :246-290 *)
Definition save_sigma_gauss_prop := saved (rdvec sigma_gaussian_prop N).
Definition mpi_gather_sigma_prop_root :=
  ife root (For 0 N (fun j => rd sigma_gaussian_prop j;; Do (Wr sigma_RanksParm_root 0 j));; For 1 n (fun i => wrrow sigma_RanksParm_root i N))
    (rdvec sigma_gaussian_prop N).
Definition mpi_distribute_sigma_prop_root (m : pv) :=
  ife root (For 0 N (fun j => Do (Rd m 0 j);; wr sigma_gaussian_prop j);; For 1 n (fun i => rdrow m i N)) (wrvec sigma_gaussian_prop N).

(** mpi_batch.c:296-345: the step from row o of c to ptr_one_chain_new *)
Definition do_gaussian_propose (c : pv) (o : Z) (new : pv) := For 0 N (fun j => Do (Rd c o j);; rd sigma_gaussian_prop j;; wr new j).
(** the loop of mpi_batch.c:176-260 and of mpi_tune.c:386-470; b: the entry of the ladder that is used *)
Definition mh_iteration (c lp new : pv) (b i : Z) :=
  when (0 <? i) (rd lp (i - 1));;
  do_gaussian_propose c (if 0 <? i then i - 1 else 0) new;; para_boundary new;;
  rd running_Beta_Values b;; logll_beta new;; log_prior new;;
  Or (For 0 N (fun j => rd new j;; Do (Wr c i j));; wr lp i)
     (when (0 <? i) (For 0 N (fun j => Do (Rd c (i - 1) j);; Do (Wr c i j));; wr lp i)).
(** mpi_batch.c:136-292, :426-471 *)
Definition iter_batch_mh (c : pv) (m : Z) :=
  Do (Malloc accumul_accept m 1);; Do (Malloc accumul m 1);; Do (Malloc logpost m 1);; Do (Malloc ptr_one_chain_new N 1);;
  wr logpost 0;;
  For 0 m (fun i => mh_iteration c logpost ptr_one_chain_new r i;; wr accumul i;; wr accumul_accept i);;
  Or Nop (saved (For 0 m (fun i => rdrow c i N;; rd logpost i;; rd accumul i;; rd accumul_accept i)));;
  rd logpost (m - 1);;
  Do (Free ptr_one_chain_new);; Do (SetNull ptr_one_chain_new);; Do (Free logpost);; Do (SetNull logpost);;
  Do (Free accumul_accept);; Do (SetNull accumul_accept);; Do (Free accumul);; Do (SetNull accumul_accept).
(** mpi_batch.c:48-131 *)
Definition mpi_run_a_batch (m : Z) :=
  ife root
    (For 1 n (fun i => rdrow transit_BetaParm_root i N;; rd logpost_all_ranks i);;
     Do (Malloc chain_IterParm_root m N);;
     For 0 N (fun j => Do (Rd transit_BetaParm_root 0 j);; Do (Wr chain_IterParm_root 0 j));; rd logpost_all_ranks 0;;
     iter_batch_mh chain_IterParm_root m;; wr logpost_all_ranks 0;;
     For 0 N (fun j => Do (Rd chain_IterParm_root (m - 1) j);; Do (Wr transit_BetaParm_root 0 j));;
     For 1 n (fun i => wrrow transit_BetaParm_root i N;; wr logpost_all_ranks i);;
     Do (Free2 chain_IterParm_root);; Do (SetNull chain_IterParm_root))
    (Do (Malloc chain_IterParm_slave m N);; wrrow chain_IterParm_slave 0 N;;
     iter_batch_mh chain_IterParm_slave m;; rdrow chain_IterParm_slave (m - 1) N;;
     Do (Free2 chain_IterParm_slave);; Do (SetNull chain_IterParm_slave)).

(** mpi_stack.c:219-366; i, j: the pair (C25) *)
Definition mpi_judge_and_swap (i : Z) :=
  ife root
    (Pick (below n) (fun j =>
       rd logpost_all_ranks i;; rd logpost_all_ranks j;; rdrow transit_BetaParm_root j N;;
       Do (Malloc chain_Parm_ichain N 1);; For 0 N (fun k => Do (Rd transit_BetaParm_root i k);; wr chain_Parm_ichain k);;
       rd running_Beta_Values j;; logll_beta chain_Parm_ichain;; log_prior chain_Parm_ichain;;
       Or Nop (For 0 N (fun k => Do (Rd transit_BetaParm_root i k);; Do (Rd transit_BetaParm_root j k);;
                 Do (Wr transit_BetaParm_root i k);; Do (Wr transit_BetaParm_root j k));;
               wr logpost_all_ranks i;; wr logpost_all_ranks j);;
       Do (Free chain_Parm_ichain);; Do (SetNull chain_Parm_ichain)))
    (when (r =? 1)
       (Do (Malloc chain_Parm_jchain N 1);; wrvec chain_Parm_jchain N;; rd running_Beta_Values i;;
        logll_beta chain_Parm_jchain;; log_prior chain_Parm_jchain;; Do (Free chain_Parm_jchain);; Do (SetNull chain_Parm_jchain))).

(** mpi_ladder.c:100-277; the branches of one step read beta[i-1], beta[i], beta[i+1] and T[i] or T[i-1] *)
Definition ladder_step (i : Z) :=
  rd swap_ar_i_ip1 (i - 1);; rd swap_ar_i_ip1 i;;
  Or (rd running_Beta_Values (i - 1);; rd running_Beta_Values i;; rd T_ladder i;; wr T_ladder i)
     (Or (rd running_Beta_Values (i - 1);; rd running_Beta_Values (i + 1);; rd T_ladder (i - 1);; wr T_ladder i)
         (rd running_Beta_Values i;; rd running_Beta_Values (i + 1);; rd T_ladder i;; wr T_ladder i));;
  rd swap_ar_i_ip1 0;; Or Nop (rd T_ladder 0;; rd T_ladder 2;; wr T_ladder 1);;
  rd swap_ar_i_ip1 (n - 2);; Or Nop (rd T_ladder (n - 3);; rd T_ladder (n - 1);; wr T_ladder (n - 2)).
Definition tune_ladder_use_3_neighb :=
  Do (Malloc T_ladder n 1);; For 0 n (fun i => rd running_Beta_Values i;; wr T_ladder i);;
  Do (Malloc swap_ar_i_ip1 (n - 1) 1);; For 0 (n - 1) (fun i => rd doubleInt_Nswaps i;; rd doubleInt_Nprops i;; wr swap_ar_i_ip1 i);;
  For 1 (n - 1) ladder_step;; For 1 (n - 1) (fun i => rd T_ladder i;; wr running_Beta_Values i);;
  Do (Free swap_ar_i_ip1);; Do (SetNull swap_ar_i_ip1);; Do (Free T_ladder);; Do (SetNull T_ladder).
(** mpi_ladder.c:20-95 *)
Definition mpi_adjust_ladder :=
  when root tune_ladder_use_3_neighb;;
  ife root (For 1 n (fun _ => rdvec running_Beta_Values n)) (wrvec running_Beta_Values n).

(** mpi_stack.c:50-216 *)
Definition mpi_static_sigma_stack :=
  Do (Malloc doubleInt_Nswaps n 1);; Do (Malloc doubleInt_Nprops n 1);;
  when (tl && root) (For 0 n (fun i => wr doubleInt_Nswaps i;; wr doubleInt_Nprops i));;
  when root (saved (rdvec running_Beta_Values n));;
  Many (Pick (fun m => 1 <= m <= LM) mpi_run_a_batch;;
        For 0 Nswap (fun _ => Pick (below (n - 1)) (fun i => mpi_judge_and_swap i;;
          when (tl && root) (rd doubleInt_Nprops i;; wr doubleInt_Nprops i;; rd doubleInt_Nswaps i;; wr doubleInt_Nswaps i))));;
  when tl (Or Nop mpi_adjust_ladder);;
  Do (Free doubleInt_Nswaps);; Do (SetNull doubleInt_Nswaps);; Do (Free doubleInt_Nprops);; Do (SetNull doubleInt_Nprops).

(** mpi_tune.c:540-596: create_logspace_array and check_bounceInside_sigma_boundary inside gen_sigma_alltune; q: rank_in_tune *)
Definition gen_sigma_alltune (q : Z) :=
  Do (Malloc scaled_arr n 1);;
  For 0 N (fun i => Do (Rd sigma_RanksParm_root q i);; wrvec scaled_arr n;;
    rd scaled_arr 0;; rd sigma_parm_min i;; Or Nop (rd sigma_parm_min i;; wrvec scaled_arr n);;
    rd scaled_arr (n - 1);; rd sigma_parm_max i;; Or Nop (rd sigma_parm_max i;; wrvec scaled_arr n);;
    For 0 n (fun j => rd scaled_arr j;; Do (Wr sigma_alltune_ParmNvaried i j)));;
  Do (Free scaled_arr);; Do (SetNull scaled_arr).
(** mpi_tune.c:491-521 *)
Definition replicate_OneSigmaOrigin_Nvaried (q : Z) :=
  For 0 n (fun i => For 0 N (fun j => Do (Rd sigma_RanksParm_root q j);; Do (Wr sigma_tune1parm_NvariedParm i j))).
Definition tune_oneparm_Nvaried (p : Z) := For 0 n (fun i => Do (Rd sigma_alltune_ParmNvaried p i);; Do (Wr sigma_tune1parm_NvariedParm i p)).
(** mpi_tune.c:351-488 *)
Definition iter_batch_mh_tune (q : Z) :=
  Do (Malloc logpost_tune Tn 1);; Do (Malloc ptr_one_chain_new_tune N 1);; wr logpost_tune 0;;
  For 0 Tn (mh_iteration chain_IterParm logpost_tune ptr_one_chain_new_tune q);;
  Do (Free ptr_one_chain_new_tune);; Do (SetNull ptr_one_chain_new_tune);; Do (Free logpost_tune);; Do (SetNull logpost_tune).
(** mpi_tune.c:267-346; p: j_parm *)
Definition mpi_tune_sigma_iparmNrank (q p : Z) :=
  Do (Malloc chain_IterParm Tn N);; For 0 N (fun j => rd chain_single_tune j;; Do (Wr chain_IterParm 0 j));;
  iter_batch_mh_tune q;;
  when root (Do (Wr ar_ParmNvaried p 0);; For 1 n (fun i => Do (Wr ar_ParmNvaried p i)));;
  Do (Free2 chain_IterParm);; Do (SetNull chain_IterParm).
(** mpi_tune.c:768-866 *)
Definition argvec v m := rd v 0;; For 1 m (fun i => rd v i;; Or Nop (rd v i)).
Definition calc_SD_allParm := For 0 N (fun i => rdrow ar_ParmNvaried i n;; rdrow ar_ParmNvaried i n;; wr std_Parm i).
Definition calc_closest_ar_oneparm (p : Z) := Do (Rd ar_ParmNvaried p 0);; rdrow ar_ParmNvaried p n.
Definition calc_closest_ar := Do (Rd ar_ParmNvaried 0 0);; For 0 N (fun i => rdrow ar_ParmNvaried i n).
(** mpi_tune.c:669-765 *)
Definition decide_sigma_to_change :=
  Do (Malloc std_Parm N 1);; calc_SD_allParm;; argvec std_Parm N;; Pick (below N) calc_closest_ar_oneparm;; calc_closest_ar;;
  Do (Free std_Parm);; Do (SetNull std_Parm).
(** mpi_tune.c:642-666 *)
Definition race_all_parm :=
  Do (Malloc oneparm_arerr_Nvaried n 1);;
  For 0 N (fun i => For 0 n (fun j => Do (Rd ar_ParmNvaried i j);; wr oneparm_arerr_Nvaried j);; argvec oneparm_arerr_Nvaried n;;
    Pick (below n) (fun k => Do (Rd sigma_alltune_ParmNvaried i k);; wr sigma_gaussian_prop_rankintune i));;
  Do (Free oneparm_arerr_Nvaried);; Do (SetNull oneparm_arerr_Nvaried).
(** mpi_tune.c:599-638 *)
Definition modify_sigma_prop_rankintune (q : Z) :=
  Or (Pick (below N) (fun p => Pick (below n) (fun k => Do (Rd sigma_alltune_ParmNvaried p k);; Do (Wr sigma_RanksParm_root q p))))
     (Do (Malloc sigma_gaussian_prop_rankintune N 1);;
      Or (init_gaussian_proposal sigma_gaussian_prop_rankintune) race_all_parm;;
      For 0 N (fun i => rd sigma_gaussian_prop_rankintune i;; Do (Wr sigma_RanksParm_root q i));;
      Do (Free sigma_gaussian_prop_rankintune);; Do (SetNull sigma_gaussian_prop_rankintune)).
(** mpi_tune.c:112-262 *)
Definition mpi_tune_sigma_irank (q : Z) :=
  Do (Malloc chain_single_tune N 1);; Do (Malloc ar_ParmNvaried N n);; Do (Malloc sigma_alltune_ParmNvaried N n);;
  when (negb root) (Do (Free2 ar_ParmNvaried);; Do (SetNull ar_ParmNvaried);; Do (Free2 sigma_alltune_ParmNvaried);; Do (SetNull sigma_alltune_ParmNvaried));;
  when root (gen_sigma_alltune q);;
  when root (rd logpost_all_ranks q;; For 0 N (fun j => Do (Rd transit_BetaParm_root q j);; wr chain_single_tune j));;
  ife root (rdvec chain_single_tune N) (wrvec chain_single_tune N);;
  For 0 N (fun p =>
    Do (Malloc sigma_tune1parm_NvariedParm n N);;
    when (negb root) (Do (Free2 sigma_tune1parm_NvariedParm);; Do (SetNull sigma_tune1parm_NvariedParm));;
    when root (replicate_OneSigmaOrigin_Nvaried q;; tune_oneparm_Nvaried p);;
    mpi_distribute_sigma_prop_root sigma_tune1parm_NvariedParm;;
    mpi_tune_sigma_iparmNrank q p;;
    when root (Do (Free2 sigma_tune1parm_NvariedParm);; Do (SetNull sigma_tune1parm_NvariedParm)));;
  Do (Free chain_single_tune);; Do (SetNull chain_single_tune);;
  when root (decide_sigma_to_change;; modify_sigma_prop_rankintune q);;
  when root (Do (Free2 ar_ParmNvaried);; Do (SetNull ar_ParmNvaried);; Do (Free2 sigma_alltune_ParmNvaried);; Do (SetNull sigma_alltune_ParmNvaried)).

(** mpi_flow.c:144-192 *)
Definition mpi_find_ranks2tune :=
  ife root (wr tune_ranks 0;; For 1 n (fun i => wr tune_ranks i);; rdvec tune_ranks n) (wrvec tune_ranks n).
(** mpi_flow.c:40-141 *)
Definition mpi_entire_flow :=
  Do (Malloc tune_ranks n 1);;
  Many (mpi_distribute_sigma_prop_root sigma_RanksParm_root;; save_sigma_gauss_prop;; mpi_static_sigma_stack;;
        Or Nop (mpi_find_ranks2tune;; For 0 n (fun i => rd tune_ranks i;; Or Nop (mpi_tune_sigma_irank i))));;
  Do (Free tune_ranks);; Do (SetNull tune_ranks).

(** main.c:63-257 *)
Definition main_heap :=
  read_input_ini LL Nb blank;; mpi_get_nlines;;
  Do (Malloc data_NlineNdim nl nd);; mpi_data_loader;;
  Do (Malloc transit_BetaParm_root n N);; mpi_gen_init_parm;;
  Do (Malloc logpost_all_ranks n 1);; mpi_init_calc_logllpp;;
  Do (Malloc sigma_RanksParm_root n N);;
  when (negb root) (Do (Free2 transit_BetaParm_root);; Do (SetNull transit_BetaParm_root);; Do (Free logpost_all_ranks);; Do (SetNull logpost_all_ranks);;
                    Do (Free2 sigma_RanksParm_root);; Do (SetNull sigma_RanksParm_root));;
  Do (Malloc sigma_gaussian_prop N 1);; init_gaussian_proposal sigma_gaussian_prop;; save_sigma_gauss_prop;; mpi_gather_sigma_prop_root;;
  Do (Malloc running_Beta_Values n 1);; For 0 n (fun i => rd Beta_Values i;; wr running_Beta_Values i);;
  mpi_entire_flow;;
  when root (Do (Free2 transit_BetaParm_root);; Do (SetNull transit_BetaParm_root);; Do (Free2 sigma_RanksParm_root);; Do (SetNull sigma_RanksParm_root));;
  Do (Free data_NlineNdim);; Do (SetNull data_NlineNdim);; Do (Free sigma_gaussian_prop);; Do (SetNull sigma_gaussian_prop);;
  Do (Free running_Beta_Values);; Do (SetNull running_Beta_Values).
End Rank.

(** at the start nothing is allocated *)
Definition h0 : hst := mkH (fun _ => Undef) [] 0.
Definition live (s : hst) (v : pv) : Prop := match var s v with Live _ _ _ => True | _ => False end.
(** cells of all blocks that were allocated and not freed *)
Definition held (s : hst) : Z :=
  fold_right (fun v a => match var s v with Live n1 n2 _ => n1 * n2 + a | _ => a end) 0 all_pv + fold_right (fun x a => snd x + a) 0 (lost s).
