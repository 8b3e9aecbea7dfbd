(** The shipped configurations joined to their models: from the bytes of input.ini and of the data file to the run. *)
From Coq Require Import ZArith String List Ascii Bool Lia.
From Verif Require Import Base Arith Bytes Rand Mh Prog Readin Loader Inputs MhSpec SeqWf SeqTotal Runs UserModels Boundary Demo Shipped BoxRuns.
Import ListNotations.
Open Scope Z_scope.
Open Scope list_scope.

(** a text that is one plain decimal number: spaces, sign, digits, point and digits, spaces *)
Definition blank_only (l : bytes) : bool := match skip_space l with [] => true | _ => false end.
Definition plain_abs (l : bytes) : bool :=
  match unsigned_part l with
  | None => false
  | Some _ => match skip_digits l with
              | c :: t => if ch c "."%char then blank_only (skip_digits t) else blank_only (c :: t)
              | [] => true
              end
  end.
Definition plain (l : bytes) : bool :=
  match skip_space l with
  | c :: t => if ch c "-"%char then plain_abs t else if ch c "+"%char then plain_abs t else plain_abs (c :: t)
  | [] => false
  end.
(** sscanf's %lf and atof give such a text its value, correctly rounded for binary64 (see [nlit]); nothing is
    said about other texts *)
Definition Decimals {A : Arith} (scan_lf : bytes -> option (num A)) (atof : bytes -> num A) : Prop :=
  (forall l, plain l = true -> scan_lf l = dec_lf l) /\ (forall l, plain l = true -> atof l = dec_atof l).
Lemma dec_decimals : forall A, Decimals (A := A) dec_lf dec_atof.
Proof. intros A. split; intros; reflexivity. Qed.

(** the configurations that can be used (C55) *)
Inductive ship : Type := SReg | SCurved | SMulti | SRas1 | SRas2 | SRas3 | SRas4.
Definition ship_file (s : ship) : bytes :=
  match s with
  | SReg => ini_regression | SCurved => ini_curved | SMulti => ini_multi_gaussian
  | SRas1 => ini_rastrigin_TLTB | SRas2 => ini_rastrigin | SRas3 => ini_rastrigin_noL | SRas4 => ini_rastrigin_no
  end.
Definition ship_ranks (s : ship) : nat := match s with SMulti => 5 | _ => 4 end.

(** the keys read by read_parm_range: regression/user_prior.c:45-81, rastrigin/user_prior.c:49-101 (the fifth parameter
    is called f), curved_likelihood and multi_gaussian/user_prior.c:43-72 *)
Definition range_keys (s : ship) : list (string * string) :=
  match s with
  | SReg => [("a_min", "a_max"); ("b_min", "b_max"); ("d_min", "d_max")]
  | SCurved | SMulti => [("a_min", "a_max"); ("b_min", "b_max")]
  | _ => [("a_min", "a_max"); ("b_min", "b_max"); ("c_min", "c_max"); ("d_min", "d_max"); ("f_min", "f_max")]
  end%string.

Section Start.
Context {A : Arith}.
Variable scan_lf : bytes -> option (num A).
Variable atof : bytes -> num A.

(** the user's functions, with the globals they use *)
Definition model_user (s : ship) (i : ini (A := A)) (box : list (num A * num A)) : User A :=
  let p k := nth k box (nof 0, nof 0) in
  let gp := i_init_gp_ratio i in let smin := i_sigma_scale_min i in let smax := i_sigma_scale_max i in
  match s with
  | SReg => reg_user (i_ndim_data i) (p 0%nat) (p 1%nat) (p 2%nat) gp smin smax
  | SCurved => curved_user (p 0%nat) (p 1%nat) gp smin smax
  | SMulti => multi_user (p 0%nat) (p 1%nat) gp smin smax
  | _ => ras_user (p 0%nat) (p 1%nat) (p 2%nat) (p 3%nat) (p 4%nat) gp smin smax
  end.
(** main.c:98-126 up to the loading of the data, on each rank: configuration [f], data file [d], n ranks, time.  The ranges are read
    inside init_parm_set (regression/user_prior.c:94, rastrigin 114, the others 85); here they are read with the configuration. *)
Definition launch (s : ship) (f d : bytes) (n : nat) (time : Z) : res (Setup A) :=
  let* i := read_input_ini scan_lf atof (Some f) in
  let* box := read_parm_range scan_lf (Some f) (range_keys s) in
  OK (mkSetup (ini_cfg i) (model_user s i box) n (file_env atof (i_Delimiter i) (Some d) (i_ndim_data i) time) (i_ndim_data i)).
End Start.

(** ** the values in the files *)
Section Values.
Context (A : Arith).
(** /repo/models/regression/input.ini *)
Definition reg_ini : ini (A := A) :=
  mkIni 3 400000 400000 300000 1 300000 (nlit 2 1) (nlit 1 1) 4 100 (Some (lit "chain")) (Some (lit ".dat")) (Some (lit "results082900")) (Some [nlit 1 3; nlit 1 2; nlit 1 1; nof 1]) (Some (lit "xy.dat")) 2 (lit " ") (nlit 1 1) 20 100000 5000 20 5 1000 (nlit 10 2) (nlit 45 2) (nlit 23 2) (nlit 1 1) (nof 20) (nlit 5 10) (nlit 2 1) (nof 300) 1 0.
Definition reg_box : list (num A * num A) := [((nof (-20)), (nof 20)); ((nof (-50)), (nof 50)); ((nlit 1 2), (nof 30))].
(** /repo/models/curved_likelihood/input.ini *)
Definition curved_ini : ini (A := A) :=
  mkIni 2 1000000 0 100000000 0 300000 (nlit 7 1) (nlit 2 1) 4 100 (Some (lit "chain")) (Some (lit ".dat")) (Some (lit "results082900")) (Some [nlit 3 2; nlit 1 1; nlit 3 1; nlit 10 1]) (Some (lit "xy.dat")) 2 (lit " ") (nlit 1 1) 20 10000 5000 20 5 1000 (nlit 10 2) (nlit 45 2) (nlit 23 2) (nlit 1 1) (nof 200) (nlit 5 10) (nlit 2 1) (nof 300) 1 0.
Definition curved_box : list (num A * num A) := [((nof (-10)), (nof 10)); ((nof (-10)), (nof 10))].
(** /repo/models/multi_gaussian/input.ini *)
Definition multi_ini : ini (A := A) :=
  mkIni 2 5000000 500000 300000 1 300000 (nlit 8 1) (nlit 3 1) 5 100 (Some (lit "chain")) (Some (lit ".dat")) (Some (lit "results082900")) (Some [nlit 1 4; nlit 1 3; nlit 1 2; nlit 1 1; nof 1]) (Some (lit "xy.dat")) 2 (lit " ") (nlit 1 1) 20 500000 5000 20 5 2000 (nlit 10 2) (nlit 45 2) (nlit 23 2) (nlit 1 1) (nof 20) (nlit 1 10) (nlit 2 1) (nof 300) 1 0.
Definition multi_box : list (num A * num A) := [((nof (-30)), (nof 30)); ((nof (-30)), (nof 30))].
(** /repo/models/rastrigin/input.ini_T_L_T_B.eg *)
Definition ras1_ini : ini (A := A) :=
  mkIni 5 2000000 1000000 300000 1 300000 (nlit 7 1) (nlit 2 1) 4 100 (Some (lit "chain")) (Some (lit ".dat")) (Some (lit "results082900")) (Some [nlit 1 3; nlit 2 3; nlit 999 3; nof 1]) (Some (lit "xy.dat")) 2 (lit " ") (nlit 1 3) 20 0 5000 20 5 3000 (nlit 10 2) (nlit 45 2) (nlit 23 2) (nlit 1 1) (nof 20) (nlit 5 10) (nlit 2 1) (nof 300) 1 0.
Definition ras1_box : list (num A * num A) := [((nlit (-512) 2), (nlit 512 2)); ((nlit (-5120) 3), (nlit 5120 3)); ((nlit (-5120) 3), (nlit 5120 3)); ((nlit (-5120) 3), (nlit 5120 3)); ((nlit (-5120) 3), (nlit 5120 3))].
(** /repo/models/rastrigin/input.ini_Tune_Ladder_Tune_Proporal *)
Definition ras2_ini : ini (A := A) :=
  mkIni 5 2000000 1000000 300000 1 300000 (nlit 9 1) (nlit 3 1) 4 100 (Some (lit "chain")) (Some (lit ".dat")) (Some (lit "results082900")) (Some [nlit 1 3; nlit 2 3; nlit 3 3; nof 1]) (Some (lit "xy.dat")) 2 (lit " ") (nlit 1 3) 20 0 5000 20 5 3000 (nlit 10 2) (nlit 45 2) (nlit 23 2) (nlit 1 1) (nof 20) (nlit 5 10) (nlit 2 1) (nof 300) 1 0.
Definition ras2_box : list (num A * num A) := [((nlit (-512) 2), (nlit 512 2)); ((nlit (-5120) 3), (nlit 5120 3)); ((nlit (-5120) 3), (nlit 5120 3)); ((nlit (-5120) 3), (nlit 5120 3)); ((nlit (-5120) 3), (nlit 5120 3))].
(** /repo/models/rastrigin/input.ini_noTune_Ladder_Tune_Proporal *)
Definition ras3_ini : ini (A := A) :=
  mkIni 5 2000000 1000000 300000 0 300000 (nlit 9 1) (nlit 3 1) 4 100 (Some (lit "chain")) (Some (lit ".dat")) (Some (lit "results082900")) (Some [nlit 1 3; nlit 2 3; nlit 3 3; nof 1]) (Some (lit "xy.dat")) 2 (lit " ") (nlit 1 3) 20 0 5000 20 5 3000 (nlit 10 2) (nlit 45 2) (nlit 23 2) (nlit 1 1) (nof 20) (nlit 5 10) (nlit 2 1) (nof 300) 1 0.
Definition ras3_box : list (num A * num A) := [((nlit (-512) 2), (nlit 512 2)); ((nlit (-5120) 3), (nlit 5120 3)); ((nlit (-5120) 3), (nlit 5120 3)); ((nlit (-5120) 3), (nlit 5120 3)); ((nlit (-5120) 3), (nlit 5120 3))].
(** /repo/models/rastrigin/input.ini_noTune_Ladder_noTune_Proporal *)
Definition ras4_ini : ini (A := A) :=
  mkIni 5 2000000 000000 500000 0 500000 (nlit 2 1) (nlit 1 1) 4 100 (Some (lit "chain")) (Some (lit ".dat")) (Some (lit "results082900")) (Some [nlit 1 3; nlit 2 3; nlit 3 3; nof 1]) (Some (lit "xy.dat")) 2 (lit " ") (nlit 1 3) 20 0 5000 20 5 3000 (nlit 10 2) (nlit 45 2) (nlit 23 2) (nlit 1 1) (nof 20) (nlit 5 10) (nlit 2 1) (nof 300) 1 0.
Definition ras4_box : list (num A * num A) := [((nlit (-512) 2), (nlit 512 2)); ((nlit (-5120) 3), (nlit 5120 3)); ((nlit (-5120) 3), (nlit 5120 3)); ((nlit (-5120) 3), (nlit 5120 3)); ((nlit (-5120) 3), (nlit 5120 3))].

Definition ship_ini (s : ship) : ini (A := A) :=
  match s with SReg => reg_ini | SCurved => curved_ini | SMulti => multi_ini | SRas1 => ras1_ini | SRas2 => ras2_ini | SRas3 => ras3_ini | SRas4 => ras4_ini end.
Definition ship_box (s : ship) : list (num A * num A) :=
  match s with SReg => reg_box | SCurved => curved_box | SMulti => multi_box | SRas1 => ras1_box | SRas2 => ras2_box | SRas3 => ras3_box | SRas4 => ras4_box end.
Definition ship_user (s : ship) : User A := model_user s (ship_ini s) (ship_box s).

Lemma ship_read : forall scan_lf atof, Decimals (A := A) scan_lf atof -> forall s,
  read_input_ini scan_lf atof (Some (ship_file s)) = OK (ship_ini s) /\
  read_parm_range scan_lf (Some (ship_file s)) (range_keys s) = OK (ship_box s).
Proof.
  intros scan_lf atof [H1 H2] s.
  assert (N1 : forall l, plain l = true -> scan_lf l = dec_lf l) by exact H1.
  destruct s; split; vm_compute;
    repeat match goal with |- context [scan_lf ?l] => rewrite (N1 l eq_refl) end;
    repeat match goal with |- context [atof ?l] => rewrite (H2 l eq_refl) end; reflexivity.
Qed.
Lemma ship_cfg_valid : forall s, ValidCfg (ini_cfg (ship_ini s)) (ship_ranks s).
Proof. intros s. destruct s; constructor; cbn; try (vm_compute; intuition discriminate); try lia. Qed.
Lemma box_valid : forall (C : Cfg A) U box ds gp smin smax, N_parm C = Z.of_nat (List.length box) -> List.length ds = List.length box ->
  u_bound U = para_boundary box -> u_init U = init_parm_set ds box -> u_gp U = init_gaussian_proposal box gp ->
  u_sigmin U = calc_sigma_scale smin box -> u_sigmax U = calc_sigma_scale smax box -> ValidUser C U.
Proof.
  intros C U box ds gp smin smax HN HD H1 H2 H3 H4 H5. constructor; [constructor| |].
  - intros x Hx. unfold haslen in *. rewrite H1, para_boundary_length. exact Hx.
  - intros sd. unfold haslen. rewrite H2. unfold init_parm_set. rewrite init_draws_length by exact HD. auto.
  - unfold haslen. rewrite H3. unfold init_gaussian_proposal. rewrite map_length. auto.
  - rewrite H4. unfold calc_sigma_scale. rewrite map_length. lia.
  - rewrite H5. unfold calc_sigma_scale. rewrite map_length. lia.
Qed.
Definition ship_draws (s : ship) : list (draw (A := A)) :=
  match s with SReg => [DUnif; DUnif; DLogUnif] | SCurved | SMulti => [DUnif; DUnif] | _ => [DUnif; DUnif; DUnif; DUnif; DUnif] end.
Lemma ship_user_valid : forall s, ValidUser (ini_cfg (ship_ini s)) (ship_user s).
Proof.
  intros s. apply (box_valid _ _ (ship_box s) (ship_draws s) (i_init_gp_ratio (ship_ini s)) (i_sigma_scale_min (ship_ini s)) (i_sigma_scale_max (ship_ini s)));
    destruct s; reflexivity.
Qed.
End Values.
