(** readin.c: the configuration file.

    A file is its bytes; [None] is a file that cannot be opened.  The conversion of decimal text to double
    (sscanf's %lf and atof) is a parameter: [scan_lf t] is what %lf stores when it is applied to t ([None]: matching
    failure, nothing stored), [atof t] the value of atof.  Memory is assumed available (malloc does not return NULL).
    Globals start at 0. *)
From Coq Require Import ZArith Ascii String List Bool Lia.
From Verif Require Import Base Arith Bytes Mh.
Import ListNotations.
Open Scope Z_scope.

Definition file_t : Type := option bytes.

(** read_onepara, readin.c:87-136: the loop over the lines, with the buffer para_line and [found] *)
Fixpoint scan_lines (ls : list bytes) (name : bytes) (buf : bytes) (found : Z) : res (bytes * Z) :=
  match ls with
  | [] => OK (buf, found)
  | l :: t => if strstr (cstr l) name
              then (if fits (cstr l) then scan_lines t name (cstr l) (found + 1) else Stop OutOfBounds)  (* 111 *)
              else scan_lines t name buf found
  end.
(** [inl m]: the message m is written to stderr and NULL is returned (116-125); [inr l]: para_line.
    A file that cannot be opened: getline(.., NULL), 107. *)
Inductive message : Type := Duplicate (name : bytes) | NotFound (name : bytes).
Definition read_onepara (f : file_t) (name : bytes) : res (message + bytes) :=
  match f with
  | None => Stop NullPtr
  | Some b =>
      let* (buf, found) := scan_lines (lines b) name [] 0 in
      OK (if 1 <? found then inl (Duplicate name) else if found =? 0 then inl (NotFound name) else inr buf)
  end.

(** para_line = read_onepara(path, para_name); sscanf(para_line, "%[^:]:%d", dummy, &v), e.g. readin.c:151-153.
    A value outside int is undefined (C11 7.21.6.2p10).  v is a global read once, so it was 0. *)
Definition to_scan (f : file_t) (name : string) : res (option bytes) :=
  let* o := read_onepara f (lit name) in
  match o with inl _ => Stop NullPtr | inr line => after_colon line end.
Definition read_d (f : file_t) (name : string) : res Z :=
  let* o := to_scan f name in
  match o with
  | None => OK 0
  | Some t => match scan_int t with None => OK 0 | Some v => i32 v end
  end.
(** the same with %u and an unsigned variable (readin.c:320-326): strtoul negates in the unsigned type *)
Definition read_u (f : file_t) (name : string) : res Z :=
  let* o := to_scan f name in
  match o with
  | None => OK 0
  | Some t => match scan_int t with
              | None => OK 0
              | Some v => if (- UINT_MOD <? v) && (v <? UINT_MOD) then OK (u32 v) else Stop IntOverflow
              end
  end.
(** the same with %s and a buffer of DEST_SIZE bytes from malloc (readin.c:210-220, 243-253): [None] when nothing is stored *)
Definition read_s (f : file_t) (name : string) : res (option bytes) :=
  let* o := to_scan f name in
  match o with
  | None => OK None
  | Some t => match scan_word t with
              | None => OK None
              | Some w => if fits w then OK (Some w) else Stop OutOfBounds
              end
  end.

Section Read.
Context {A : Arith}.
Notation num := (num A).
Variable scan_lf : bytes -> option num.
Variable atof : bytes -> num.

(** the same with %lf *)
Definition read_f (f : file_t) (name : string) : res num :=
  let* o := to_scan f name in
  match o with
  | None => OK (nof 0)
  | Some t => OK (match scan_lf t with None => nof 0 | Some v => v end)
  end.

(** read_beta_values, readin.c:265-303, the loop 284-288 over the tokens separated by commas *)
Fixpoint beta_loop (fuel : nat) (rest : bytes) (arr : list (option num)) (found : Z) : res (list (option num) * Z) :=
  match fuel with
  | O => Stop OutOfFuel
  | S k =>
      match strtok (ch ","%char) rest with
      | None => OK (arr, found)
      | Some (tok, rest') => let* arr' := zset arr found (Some (atof tok)) in beta_loop k rest' arr' (found + 1)
      end
  end.
(** [OK None]: Beta_Values = NULL.  With N_beta < 0 the size given to malloc is larger than any object, so malloc fails
    and the first store is through NULL; without any token nothing is stored. *)
Definition read_beta_values (f : file_t) (N_beta : Z) : res (option (list num)) :=
  let* o := read_onepara f (lit "Beta_Values") in
  match o with
  | inl _ => Stop NullPtr      (* strtok(NULL, ":") *)
  | inr line =>
      let rest := match strtok (ch COLON) line with None => [] | Some (_, r) => r end in
      let* (arr, found) := beta_loop (S (List.length rest)) rest (fresh N_beta) 0 in
      if found =? N_beta then let* v := all_cells arr in OK (Some v) else OK None
  end.

(** the globals of readin.c after read_input_ini *)
Record ini : Type := mkIni {
  i_N_parm : Z; i_N_iter : Z; i_N_stoptune : Z; i_N_begintune : Z; i_Tune_Ladder : Z; i_N_stopTuneLadder : Z;
  i_scale_tune_ladder : num; i_zero_stretch : num; i_N_beta : Z;
  i_Fout_Len : Z; i_FoutPre : option bytes; i_FoutSuf : option bytes; i_results_dir : option bytes;
  i_Beta_Values : option (list num);
  i_Data_file : option bytes; i_ndim_data : Z; i_Delimiter : bytes;
  i_init_gp_ratio : num; i_init_rand_seed : Z; i_i_save_begin : Z;
  i_n_iter_a_stack : Z; i_n_iter_a_batch_base : Z; i_n_iter_a_batch_rand : Z; i_n_iter_in_tune : Z;
  i_ar_ok_lower : num; i_ar_ok_upper : num; i_ar_best : num; i_ar_accept_diff : num;
  i_sigma_scale_half_ratio : num; i_sigma_scale_min : num; i_sigma_scale_max : num; i_sigma_jumpin_ratio : num;
  i_N_swap : Z; i_Swapmode : Z }.

(** read_data_desc, readin.c:251-257: strcmp reads the buffer *)
Definition read_delim (f : file_t) : res bytes :=
  let* o := read_s f "Delimiter" in
  match o with
  | None => Stop Uninit
  | Some w => OK (if (prefix w (lit "blank")) && (Nat.eqb (List.length w) 5) then lit " " else w)
  end.

(** read_input_ini, readin.c:408-420, with read_chains_grid (141-190), read_chain_out_name (192-224), read_beta_values,
    read_data_desc (230-261) and read_sampling_para (306-386), in this order *)
Definition read_input_ini (f : file_t) : res ini :=
  let* N_parm := read_d f "N_parm" in
  let* N_iter := read_d f "N_iter" in
  let* N_stoptune := read_d f "N_stoptune" in
  let* N_begintune := read_d f "N_begintune" in
  let* Tune_Ladder := read_d f "Tune_Ladder" in
  let* N_stopTuneLadder := read_d f "N_stopTuneLadder" in
  let* scale_tune_ladder := read_f f "scale_tune_ladder" in
  let* zero_stretch := read_f f "zero_stretch" in
  let* N_beta := read_d f "N_beta" in
  let* Fout_Len := read_d f "Fout_Len" in
  let* FoutPre := read_s f "FoutPre" in
  let* FoutSuf := read_s f "FoutSuf" in
  let* results_dir := read_s f "results_dir" in
  let* Beta_Values := read_beta_values f N_beta in
  let* Data_file := read_s f "Data_file" in
  let* ndim_data := read_d f "ndim_data" in
  let* Delimiter := read_delim f in
  let* init_gp_ratio := read_f f "init_gp_ratio" in
  let* init_rand_seed := read_u f "init_rand_seed" in
  let* i_save_begin := read_u f "i_save_begin" in
  let* n_iter_a_stack := read_d f "n_iter_a_stack" in
  let* n_iter_a_batch_base := read_d f "n_iter_a_batch_base" in
  let* n_iter_a_batch_rand := read_d f "n_iter_a_batch_rand" in
  let* n_iter_in_tune := read_d f "n_iter_in_tune" in
  let* ar_ok_lower := read_f f "ar_ok_lower" in
  let* ar_ok_upper := read_f f "ar_ok_upper" in
  let* ar_best := read_f f "ar_best" in
  let* ar_accept_diff := read_f f "ar_accept_diff" in
  let* sigma_scale_half_ratio := read_f f "sigma_scale_half_ratio" in
  let* sigma_scale_min := read_f f "sigma_scale_min" in
  let* sigma_scale_max := read_f f "sigma_scale_max" in
  let* sigma_jumpin_ratio := read_f f "sigma_jumpin_ratio" in
  let* N_swap := read_d f "N_swap" in
  let* Swapmode := read_d f "Swapmode" in
  OK (mkIni N_parm N_iter N_stoptune N_begintune Tune_Ladder N_stopTuneLadder scale_tune_ladder zero_stretch N_beta
        Fout_Len FoutPre FoutSuf results_dir Beta_Values Data_file ndim_data Delimiter init_gp_ratio init_rand_seed
        i_save_begin n_iter_a_stack n_iter_a_batch_base n_iter_a_batch_rand n_iter_in_tune ar_ok_lower ar_ok_upper
        ar_best ar_accept_diff sigma_scale_half_ratio sigma_scale_min sigma_scale_max sigma_jumpin_ratio N_swap Swapmode).

(** the configuration used by the sampler; a NULL Beta_Values has no entries (main.c:196-199 reads it with
    n_ranks >= 1) *)
Definition ini_cfg (i : ini) : Cfg A :=
  mkCfgP A (i_N_parm i) (i_N_iter i) (i_n_iter_a_stack i) (i_n_iter_a_batch_base i) (i_n_iter_a_batch_rand i)
    (i_N_swap i) (i_Swapmode i) (i_N_begintune i) (i_N_stoptune i) (i_n_iter_in_tune i) (i_Tune_Ladder i)
    (i_N_stopTuneLadder i) (i_i_save_begin i) (i_init_rand_seed i) (i_ar_ok_lower i) (i_ar_ok_upper i) (i_ar_best i)
    (i_ar_accept_diff i) (i_sigma_scale_half_ratio i) (i_sigma_jumpin_ratio i) (i_scale_tune_ladder i)
    (i_zero_stretch i) (match i_Beta_Values i with None => [] | Some l => l end).

(** read_parm_range: pairs of keys, e.g. models/regression/user_prior.c:45-81 with (a_min, a_max), (b_min, b_max),
    (d_min, d_max); called by mpi_init.c through the user's code for every rank *)
Fixpoint read_parm_range (f : file_t) (keys : list (string * string)) : res (list (num * num)) :=
  match keys with
  | [] => OK []
  | (kmin, kmax) :: t =>
      let* lo := read_f f kmin in
      let* hi := read_f f kmax in
      let* r := read_parm_range f t in OK ((lo, hi) :: r)
  end.
End Read.
