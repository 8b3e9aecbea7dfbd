(** Sequential reference: the same computation with all ranks in one state and no messages.
    [Refine.v] proves that every schedule of [Prog.main] computes exactly this.

    A log is a list of (rank, event); [proj r] is what rank r wrote, in its own order. *)
From Coq Require Import ZArith List Bool Lia.
From Verif Require Import Base Arith Rand Mh Ladder Tune Mpi Prog.
Import ListNotations.
Open Scope Z_scope.

Fixpoint mapM {X Y} (f : X -> res Y) (l : list X) : res (list Y) :=
  match l with
  | [] => OK []
  | x :: t => let* y := f x in let* r := mapM f t in OK (y :: r)
  end.

(** fold over a list of indices *)
Fixpoint foldM {S I} (l : list I) (body : I -> S -> res S) (s : S) : res S :=
  match l with
  | [] => OK s
  | i :: t => let* s' := body i s in foldM t body s'
  end.

Section Seq.
Context {A : Arith}.
Variable C : Cfg A.
Variable U : User A.
Variable n : nat.
Variable E : Env (A := A).
Notation num := (num A).
Notation row := (list num).
Notation loc := (loc (A := A)).
Notation rootd := (rootd (A := A)).

Definition glog := list (nat * event A).
Definition proj (r : nat) (l : glog) : list (event A) :=
  map snd (filter (fun x => Nat.eqb (fst x) r) l).

Record gst : Type := mkG { g_locs : list loc; g_ro : rootd }.

Definition ranks : list nat := seq 0 n.
Definition tab {X} (f : nat -> res X) : res (list X) := mapM f ranks.

Definition getloc (G : gst) (r : nat) : res loc := zget (g_locs G) (zr r).

Definition loc_g (l : loc) (g : Z) : loc := mkLoc g (l_sig l) (l_it l) (l_acc l) (l_beta l).
Definition loc_sig (l : loc) (x : row) : loc := mkLoc (l_g l) x (l_it l) (l_acc l) (l_beta l).
Definition loc_beta (l : loc) (b : row) : loc := mkLoc (l_g l) (l_sig l) (l_it l) (l_acc l) b.
Definition loc_batch (l : loc) (b : batch_out (A := A)) : loc :=
  mkLoc (b_g b) (l_sig l) (b_it b) (b_acc b) (l_beta l).

Definition with_g0 (G : gst) (g : Z) : res gst :=
  let* l := getloc G root in
  let* ls := zset (g_locs G) (zr root) (loc_g l g) in
  OK (mkG ls (g_ro G)).

(** all ranks run iter_batch_mh on the chain the root sends them *)
Definition batch_of (D : Data A) (G : gst) (nb : Z) (r : nat) : res (batch_out (A := A)) :=
  let* x := zget (transit (g_ro G)) (zr r) in
  let* lp := zget (lps (g_ro G)) (zr r) in
  let* l := getloc G r in
  let* beta := zget (l_beta l) (zr r) in
  iter_batch_mh U D (N_parm C) x (l_sig l) nb beta (l_g l) (l_it l) (l_acc l) (i_save_begin C) lp.

Fixpoint map2 {X Y Z} (f : X -> Y -> Z) (a : list X) (b : list Y) : list Z :=
  match a, b with x :: a', y :: b' => f x y :: map2 f a' b' | _, _ => [] end.

Definition rows_log (r : nat) (b : batch_out (A := A)) : glog :=
  map (fun x => (r, EvRow r x)) (b_saved b).

Definition seq_batch (D : Data A) (G : gst) (nb : Z) : res (gst * glog) :=
  let* bs := tab (batch_of D G nb) in
  OK (mkG (map2 loc_batch (g_locs G) bs)
          (mkRoot (map b_last bs) (map b_lp bs) (sigt (g_ro G))),
      concat (map2 rows_log ranks bs)).

(** one swap attempt between chain i and its partner *)
Definition seq_swap (D : Data A) (G : gst) (i : Z) : res (gst * Z) :=
  let* l0 := getloc G root in
  let* l1 := getloc G slave_rank in
  let T := transit (g_ro G) in
  let P := lps (g_ro G) in
  let* (j, g1) := choose_j C n i (l_g l0) in
  let* xi := zget T i in
  let* xj := zget T j in
  let* ii := zget P i in
  let* jj := zget P j in
  let* bj := zget (l_beta l0) j in
  let* bi := zget (l_beta l1) i in
  let ij := logpost_at U D xi bj in
  let ji := logpost_at U D xj bi in
  let sum := nsub (nsub (nadd ij ji) ii) jj in
  let '(doswap, g2) := if nltb (nof 0) sum then (true, g1)
                       else let (u, g2) := drand48 g1 in (nltb u (nexp sum), g2) in
  let* G1 := with_g0 G g2 in
  if doswap then
    let* t1 := zset T i xj in
    let* t2 := zset t1 j xi in
    let* p1 := zset P i ji in
    let* p2 := zset p1 j ij in
    OK (mkG (g_locs G1) (mkRoot t2 p2 (sigt (g_ro G))), 1)
  else OK (G1, 0).

Definition bump (l : row) (i d : Z) : res row :=
  let* v := zget l i in zset l i (nadd v (nof d)).

Definition seq_round (D : Data A) (_ : Z) (x : gst * Z * row * row) : res (gst * Z * row * row) :=
  let '(G, _, nsw, npr) := x in
  let* l0 := getloc G root in
  let* (i, g) := i4_unif_0a (A := A) (zn n - 1) (l_g l0) in
  let* G1 := with_g0 G g in
  let* (G2, dsw) := seq_swap D G1 i in
  if 0 <? Tune_Ladder C then
    let* npr' := bump npr i 1 in
    let* nsw' := bump nsw i dsw in
    OK (G2, i, nsw', npr')
  else OK (G2, i, nsw, npr).

(** length of the next batch, chosen by root: (i_next, n_iter_a_batch, generator) *)
Definition next_batch (len i_tmp g : Z) : res (Z * Z * Z) :=
  let* lo_r := i32 (- n_iter_a_batch_rand C) in
  let* (adj, g') := i4_unif_ab (A := A) lo_r (n_iter_a_batch_rand C) g in
  let* nb0 := i32 (n_iter_a_batch_base C + adj) in
  let* nx0 := i32 (i_tmp + nb0) in
  OK (if len <? nx0 then len else nx0, if len <? nx0 then len - i_tmp else nb0, g').

Fixpoint seq_stack_loop (D : Data A) (len : Z) (fuel : nat) (G : gst) (i_tmp i_next isw : Z)
    (nsw npr : row) : res (gst * row * row * glog) :=
  if i_next <? len then
    match fuel with
    | O => Stop OutOfFuel
    | S fuel' =>
      let* l0 := getloc G root in
      let* (nx, nb, g) := next_batch len i_tmp (l_g l0) in
      let* G1 := with_g0 G g in
      let* (G2, lg1) := seq_batch D G1 nb in
      let* (G3, isw', nsw', npr') := foldM (zseq (N_swap C)) (seq_round D) (G2, isw, nsw, npr) in
      let* (G4, nsw2, npr2, lg2) := seq_stack_loop D len fuel' G3 nx nx isw' nsw' npr' in
      OK (G4, nsw2, npr2, lg1 ++ lg2)
    end
  else OK (G, nsw, npr, []).

Definition seq_ladder (G : gst) (nsw npr : row) : res gst :=
  let* l0 := getloc G root in
  let* b := tune_ladder (scale_tune_ladder C) (zero_stretch C) (zn n) nsw npr (l_beta l0) in
  OK (mkG (map (fun l => loc_beta l b) (g_locs G)) (g_ro G)).

Definition seq_stack (D : Data A) (G : gst) (len : Z) : res (gst * glog) :=
  let cnt := if 0 <? Tune_Ladder C then repeat (nof 0) n else [] in
  let* l0 := getloc G root in
  let* (G1, nsw, npr, lg) := seq_stack_loop D len (Z.to_nat len) G 0 0 0 cnt cnt in
  let* l1 := getloc G1 root in
  let* G2 := if (u2i (l_it l1) <? N_stopTuneLadder C) && (0 <? Tune_Ladder C)
             then seq_ladder G1 nsw npr else OK G1 in
  OK (G2, (root, EvBeta (l_beta l0)) :: lg).

(** every rank takes its row of the matrix *)
Definition seq_distribute (G : gst) (t : list row) : gst :=
  mkG (map2 loc_sig (g_locs G) t) (g_ro G).

Definition tune_of (D : Data A) (G : gst) (x : row) (lp : num) (rk : Z) (r : nat) : res (num * Z) :=
  let* l := getloc G r in
  let* beta := zget (l_beta l) rk in
  iter_batch_mh_tune U D (N_parm C) x (l_sig l) (n_iter_in_tune C) beta (l_g l) lp.

Definition seq_tune_parm (D : Data A) (rk : Z) (alltune : list row) (x : row) (lp : num)
    (jp : Z) (s : gst * list row) : res (gst * list row) :=
  let '(G, ars) := s in
  let* mat := tune_matrix (zn n) (sigt (g_ro G)) rk alltune jp in
  let G1 := seq_distribute G mat in
  let* rs := tab (tune_of D G1 x lp rk) in
  OK (mkG (map2 loc_g (g_locs G1) (map snd rs)) (g_ro G1), ars ++ [map fst rs]).

Definition seq_tune_irank (D : Data A) (G : gst) (rk : Z) : res gst :=
  let* al := gen_sigma_alltune C U (zn n) (sigt (g_ro G)) rk in
  let* lp := zget (lps (g_ro G)) rk in
  let* x := zget (transit (g_ro G)) rk in
  let* (G1, ars) := foldM (zseq (N_parm C)) (seq_tune_parm D rk al x lp) (G, []) in
  let* l0 := getloc G1 root in
  let* (ip, ir, g) := decide_sigma_to_change C (zn n) ars (l_g l0) in
  let* t := modify_sigma_prop C U (zn n) rk ip ir (sigt (g_ro G1)) al ars in
  let* G2 := with_g0 G1 g in
  OK (mkG (g_locs G2) (mkRoot (transit (g_ro G2)) (lps (g_ro G2)) t)).

Definition seq_tune_all (D : Data A) (flags : list Z) (G : gst) : res gst :=
  foldM (zseq (zn n)) (fun r G =>
    let* f := zget flags r in
    if f =? 1 then seq_tune_irank D G r else OK G) G.

(** acceptance rate of a stack in one rank *)
Definition stack_rate (l l' : loc) (len : Z) : num :=
  ndiv (nof (u32 (l_acc l' - l_acc l))) (nof len).

Fixpoint seq_flow_loop (D : Data A) (fuel : nat) (G : gst) (len i_tmp i_next : Z) : res (gst * glog) :=
  if i_next <? N_iter C then
    match fuel with
    | O => Stop OutOfFuel
    | S fuel' =>
      let* nx0 := i32 (i_tmp + len) in
      let len' := if N_iter C <? nx0 then N_iter C - i_tmp else len in
      let nx := if N_iter C <? nx0 then N_iter C else nx0 in
      let G1 := seq_distribute G (sigt (g_ro G)) in
      let lg0 := map2 (fun r l => (r, EvSigma r (l_sig l))) ranks (g_locs G1) in
      let* (G2, lg1) := seq_stack D G1 len' in
      let* G3 :=
        if (N_begintune C <? nx) && (nx <? N_stoptune C) && (nx <? N_iter C) then
          let flags := map2 (fun l l' => tune_flag C (stack_rate l l' len')) (g_locs G1) (g_locs G2) in
          seq_tune_all D flags G2
        else OK G2 in
      let* (G4, lg2) := seq_flow_loop D fuel' G3 len' nx nx in
      OK (G4, lg0 ++ lg1 ++ lg2)
    end
  else OK (G, []).

(** the seed of rank r: slaves first, in rank order, then root *)
Definition seed_of (r : nat) : Z :=
  let s0 := first_seed C E in
  if is_root r then u32 (s0 + zn n) else u32 (s0 + zr r).

Definition seq_init (D : Data A) : res (gst * glog) :=
  let xs := map (fun r => u_init U (seed_of r)) ranks in
  let tr := map fst xs in
  let* lp := tab (fun r => let* x := zget tr (zr r) in
                           let* beta := zget (Beta_Values C) (zr r) in
                           OK (logpost_at U D x beta)) in
  let* betas := copy_betas C n in
  OK (mkG (map (fun x => mkLoc (snd x) (u_gp U) 0 0 betas) xs)
          (mkRoot tr lp (map (fun _ => u_gp U) ranks)),
      map (fun r => (r, EvSeed r (u2i (seed_of r)))) ranks
      ++ [(root, EvInit tr)]
      ++ map2 (fun r xl => (r, EvRow r (mkRow (fst xl) (snd xl) 0 0))) ranks (combine tr lp)
      ++ map (fun r => (r, EvSigma r (u_gp U))) ranks).

Definition seq_main (ndim : Z) : res (gst * glog) :=
  let* nl := e_nlines E in
  let* _ := i32 (nl * ndim) in
  let* arr := e_data E nl in
  let D := mkData nl arr in
  let* (G, lg1) := seq_init D in
  let* (G', lg2) := seq_flow_loop D (Z.to_nat (N_iter C)) G (n_iter_a_stack C) 0 0 in
  OK (G', (root, EvDir) :: lg1 ++ lg2).

End Seq.
