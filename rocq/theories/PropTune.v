(** Properties C31 - C37: tuning of the proposal widths. *)
From Coq Require Import ZArith Arith List Bool Reals Lia Lra.
From Flocq Require Import Core IEEE754.BinarySingleNaN.
From Verif Require Import Base Arith B64 Rand Mh Ladder Tune Mpi MpiMeta Spmd Prog Seq ListAux MhSpec SeqWf Refine
  SeqTotal System RandRange UserModels Demo Runs SeqFiles History Views RunHist HistCount HistRows BoxRuns LadderRuns
  TuneRuns TuneOpt TuneSteps TuneStacks TuneRange TuneB64 TuneOut.
Import ListNotations.
Open Scope Z_scope.

(** C31.  [table G] is the root's table of widths.  A stack after which the table is another one ends
    inside the window. *)
Theorem C31_window : forall A (S : Setup A), Legal S -> forall D G0 h Gf, history S D G0 h Gf ->
  forall s, In s h -> table (sr_post s) <> table (sr_in s) ->
  N_begintune (s_cfg S) < sr_end s /\ sr_end s < N_stoptune (s_cfg S) /\ sr_end s < N_iter (s_cfg S).
Proof.
  intros A S HL D G0 h Gf HH s Hs HT.
  destruct (Z_lt_dec (N_begintune (s_cfg S)) (sr_end s)), (Z_lt_dec (sr_end s) (N_stoptune (s_cfg S))), (Z_lt_dec (sr_end s) (N_iter (s_cfg S)));
    auto; exfalso; apply HT; apply (table_frozen S HL D _ _ _ HH s Hs); lia.
Qed.
Print Assumptions C31_window.

(** Inside a stack neither the table nor the widths of any rank change. *)
Theorem C31_stack : forall A (S : Setup A), Legal S -> forall D G0 h Gf, history S D G0 h Gf ->
  forall s, In s h -> forall b, In b (sr_batches s) -> forall G, In G [br_pre b; br_mid b; br_post b] ->
  table G = table (sr_in s) /\ forall r, (r < s_n S)%nat -> l_sig (loc_at G r) = l_sig (loc_at (sr_pre s) r).
Proof.
  intros A S HL D G0 h Gf HH s Hs b Hb G HG.
  assert (Hin : In G (concat (map bstates (sr_batches s)))).
  { apply in_concat. exists (bstates b). split; [apply in_map; auto|exact HG]. }
  destruct (stack_widths S HL D _ _ _ HH s Hs G (or_intror (or_introl Hin))) as [E1 E2].
  destruct (stack_widths S HL D _ _ _ HH s Hs (sr_pre s) (or_introl eq_refl)) as [_ E3].
  split; [exact E1|]. intros r Hr. rewrite E2, E3; auto.
Qed.
Print Assumptions C31_stack.

(** The widths of the file sigma_gauss_prop written from the first stack on that ends at or after N_stoptune
    are all the same: the samples from there on come from a fixed kernel. *)
Theorem C31_after : forall A (S : Setup A), Legal S -> forall D G0 h Gf, history S D G0 h Gf ->
  forall h1 s h2, h = h1 ++ s :: h2 -> N_stoptune (s_cfg S) <= sr_end s ->
  (forall G, In G (states (sr_in s) (s :: h2) Gf) -> table G = table (sr_in s)) /\
  (forall t, In t (s :: h2) -> forall b, In b (sr_batches t) -> forall r, (r < s_n S)%nat ->
     l_sig (loc_at (br_pre b) r) = l_sig (loc_at (sr_pre s) r)).
Proof.
  intros A S HL D G0 h Gf HH h1 s h2 Eh Hend.
  pose proof (frozen_tail S HL D _ _ _ HH h1 s h2 Eh Hend) as K. split; [exact K|].
  intros t Ht b Hb r Hr.
  assert (Hth : In t h) by (rewrite Eh; apply in_or_app; right; exact Ht).
  assert (Hsh : In s h) by (rewrite Eh; apply in_or_app; right; left; reflexivity).
  assert (Hin : In (br_pre b) (concat (map bstates (sr_batches t)))).
  { apply in_concat. exists (bstates b). split; [apply in_map; auto|left; auto]. }
  destruct (stack_widths S HL D _ _ _ HH t Hth (br_pre b) (or_intror (or_introl Hin))) as [_ E2].
  destruct (stack_widths S HL D _ _ _ HH s Hsh (sr_pre s) (or_introl eq_refl)) as [_ E3].
  rewrite E2, E3 by auto. unfold sigt_at. 
  assert (E : table (sr_in t) = table (sr_in s)).
  { apply K. right. apply in_or_app. left. apply in_concat. exists (sstates t). split; [apply in_map; exact Ht|left; reflexivity]. }
  unfold table in E. rewrite E. reflexivity.
Qed.
Print Assumptions C31_after.

(** Up to the end of the last stack that ends at or before N_begintune every row of the table is the initial proposal. *)
Theorem C31_before : forall A (S : Setup A), Legal S -> forall D G0 h Gf, history S D G0 h Gf ->
  forall h1 s h2, h = h1 ++ s :: h2 -> sr_end s <= N_begintune (s_cfg S) ->
  forall G, In G (concat (map sstates (h1 ++ [s]))) -> forall r, (r < s_n S)%nat -> sigt_at G r = u_gp (s_user S).
Proof.
  intros A S HL D G0 h Gf HH h1 s h2 Eh Hend G HG r Hr.
  destruct (frozen_head S HL D _ _ _ HH h1 s h2 Eh Hend) as [_ K]. specialize (K G HG). unfold table in K.
  destruct HH as [_ [[lg HI] _]]. destruct (init_view S HL _ _ _ HI) as [_ [V _]]. destruct (V r Hr) as [_ [_ [_ [E _]]]].
  unfold sigt_at in *. rewrite K. exact E.
Qed.
Print Assumptions C31_before.

(** in the shipped configuration some stacks end before, some inside and some after the window *)
Example C31_case : forall L, Legal (demo L) /\ 0 < N_begintune (s_cfg (demo L)) /\
  N_begintune (s_cfg (demo L)) + n_iter_a_stack (s_cfg (demo L)) < N_stoptune (s_cfg (demo L)).
Proof. intros L. split; [apply demo_legal|]. split; reflexivity. Qed.

(** C32.  One rank, whatever messages it receives during a tuning episode: it writes no record and ends with the
    counters, the ladder, the chain states and the cached log-posteriors it had. *)
Theorem C32_rank : forall A (C : Cfg A) (U : User A) n D me flags s,
  quiet (fun s' => l_it (lo s') = l_it (lo s) /\ l_acc (lo s') = l_acc (lo s) /\ l_beta (lo s') = l_beta (lo s) /\
                   transit (ro s') = transit (ro s) /\ lps (ro s') = lps (ro s))
        (tune_all C U n D me flags s).
Proof. intros. exact (all_quiet C U n D me flags s). Qed.
Print Assumptions C32_rank.

(** In a run: the state after the tuning of a stack has the chain states, cached log-posteriors, counters and ladders
    of the state before it. *)
Theorem C32_run : forall A (S : Setup A), Legal S -> forall D G0 h Gf, history S D G0 h Gf -> forall s, In s h ->
  transit (g_ro (sr_post s)) = transit (g_ro (sr_lad s)) /\ lps (g_ro (sr_post s)) = lps (g_ro (sr_lad s)) /\
  forall r, (r < s_n S)%nat -> l_it (loc_at (sr_post s) r) = l_it (loc_at (sr_lad s) r) /\
    l_acc (loc_at (sr_post s) r) = l_acc (loc_at (sr_lad s) r) /\
    l_beta (loc_at (sr_post s) r) = l_beta (loc_at (sr_lad s) r).
Proof.
  intros A S HL D G0 h Gf HH s Hs. pose proof HL as [RK [VC [VU VE]]].
  destruct (history_count S HL _ _ _ _ HH) as [_ [F _]]. rewrite Forall_forall in F.
  destruct (F s Hs) as [_ [_ [_ [_ [_ [_ [_ [Wl [_ [_ [_ [_ [_ [_ [_ [HT _]]]]]]]]]]]]]]]].
  destruct (tunes (s_cfg S) (sr_end s)).
  - destruct (tune_all_view _ _ _ _ VC VU _ _ _ Wl HT) as [[E1 [E2 E3]] _]. auto.
  - injection HT as HT. rewrite <- HT. auto.
Qed.
Print Assumptions C32_run.

(** C33.  The ranks agree: from a state in which every rank enters mpi_find_ranks2tune with its own rate, every
    schedule ends, without failure, with the same list in every rank. *)
Theorem C33_agree : forall A (C : Cfg A) n (rate : nat -> num A), (2 <= n)%nat ->
  let begin := mkCfg (fun r => if Nat.ltb r n then mpi_find_ranks2tune C n r (rate r) else Fail NoSuchRank)
                     (no_chans (msg A)) (fun _ => @nil (event A)) in
  exists N, forall k X, mstar (msg A) (event A) (list Z) n begin k X ->
    (k <= N)%nat /\
    (finished (msg A) (event A) (list Z) n X \/ exists X', ustep (msg A) (event A) (list Z) n X X') /\
    (finished (msg A) (event A) (list Z) n X -> forall r, (r < n)%nat ->
       pr X r = Ret (map (fun q => if nltb (ar_ok_lower C) (rate q) && nltb (rate q) (ar_ok_upper C) then 0 else 1) (seq 0 n))).
Proof.
  intros A C n rate Hn begin.
  pose proof (ev_find C n (list Z) Hn rate (fun _ => Ret) (fun _ => [])) as Hev. cbv beta in Hev.
  destruct (every_schedule n (SYS n (fun r => mpi_find_ranks2tune C n r (rate r)) (fun _ => []))
     (SYS n (fun r => Ret (map (fun r => tune_flag C (rate r)) (ranks n))) (addlog n (fun _ => []) (fun _ => [])))) as [N HN].
  - lia.
  - rewrite (SYS_ext n (fun r => mpi_find_ranks2tune C n r (rate r)) (fun r => pbind (mpi_find_ranks2tune C n r (rate r)) Ret)); [exact Hev|].
    intros. symmetry. apply pbind_ret.
  - intros r Hr. exists (map (fun r => tune_flag C (rate r)) (ranks n)). simpl. rewrite (proj2 (Nat.ltb_lt r n) Hr). reflexivity.
  - exists N. intros k X HX. destruct (HN k X HX) as [H1 [H2 [_ [H4 _]]]]. split; [exact H1|]. split; [exact H2|].
    intros HF r Hr. rewrite (H4 HF). simpl. rewrite (proj2 (Nat.ltb_lt r n) Hr). f_equal. unfold ranks. apply map_ext.
    intros q. unfold tune_flag. destruct (nltb (rate q) (ar_ok_upper C)), (nltb (ar_ok_lower C) (rate q)); reflexivity.
Qed.
Print Assumptions C33_agree.

(** After a stack the ranks are gone through in order; a rank is tuned (mpi_tune_sigma_irank) iff the stack ends in
    the window and its acceptance rate over the stack is not strictly inside the band; no other step touches its row. *)
Theorem C33_tuned : forall A (S : Setup A), Legal S -> forall D G0 h Gf, history S D G0 h Gf -> forall s, In s h ->
  let rate r := ndiv (nof (u32 (l_acc (loc_at (sr_lad s) r) - l_acc (loc_at (sr_pre s) r)))) (nof (sr_len s)) in
  let tuned r := N_begintune (s_cfg S) < sr_end s /\ sr_end s < N_stoptune (s_cfg S) /\ sr_end s < N_iter (s_cfg S) /\
    ~ (nltb (ar_ok_lower (s_cfg S)) (rate r) = true /\ nltb (rate r) (ar_ok_upper (s_cfg S)) = true) in
  exists Gs : nat -> gst, Gs 0%nat = sr_lad s /\ Gs (s_n S) = sr_post s /\
  forall r, (r < s_n S)%nat ->
    (tuned r -> seq_tune_irank (s_cfg S) (s_user S) (s_n S) D (Gs r) (Z.of_nat r) = OK (Gs (Datatypes.S r))) /\
    (~ tuned r -> Gs (Datatypes.S r) = Gs r) /\
    sigt_at (Gs r) r = sigt_at (sr_in s) r /\ sigt_at (sr_post s) r = sigt_at (Gs (Datatypes.S r)) r.
Proof. intros A S HL D G0 h Gf HH s Hs rate tuned. exact (stack_chain S HL D _ _ _ HH s Hs). Qed.
Print Assumptions C33_tuned.

(** In particular the row of a rank that is not tuned stays. *)
Theorem C33_others : forall A (S : Setup A), Legal S -> forall D G0 h Gf, history S D G0 h Gf -> forall s, In s h ->
  forall r, (r < s_n S)%nat ->
  let rate := ndiv (nof (u32 (l_acc (loc_at (sr_lad s) r) - l_acc (loc_at (sr_pre s) r)))) (nof (sr_len s)) in
  nltb (ar_ok_lower (s_cfg S)) rate = true -> nltb rate (ar_ok_upper (s_cfg S)) = true ->
  sigt_at (sr_post s) r = sigt_at (sr_in s) r.
Proof.
  intros A S HL D G0 h Gf HH s Hs r Hr rate H1 H2. apply (stack_tuned S HL D _ _ _ HH s Hs r Hr).
  intros [_ [_ [_ T]]]. apply T. split; [exact H1|exact H2].
Qed.
Print Assumptions C33_others.

(** C34.  A tuned rank: [al] are the candidates, [ars] the acceptance rates of the trial chains run with them. *)
Theorem C34_three : forall A (S : Setup A), Legal S -> forall P, comparable P -> rates_ok (s_cfg S) P ->
  forall D G0 h Gf, history S D G0 h Gf -> forall s, In s h -> forall r, (r < s_n S)%nat -> tuned_in S s r ->
  let C := s_cfg S in let n := s_n S in let row := sigt_at (sr_in s) r in let row' := sigt_at (sr_post s) r in
  exists al ars, candidates C (s_user S) n row al /\ trials C (s_user S) n D (sr_lad s) r al ars /\
  let d p j := nabs (nsub (cell ars p j) (ar_best C)) in
  ( (* one width, to the (first) best candidate of its parameter *)
    (exists p j, 0 <= p < N_parm C /\ 0 <= j < Z.of_nat n /\ row' = lset row (Z.to_nat p) (cell al p j) /\
       nltb (d p j) (ar_accept_diff C) = true /\ (forall k, 0 <= k < Z.of_nat n -> nltb (d p k) (d p j) = false) /\
       (forall k, 0 <= k < j -> nltb (d p j) (d p k) = true)) \/
    (* no trial came within ar_accept_diff of ar_best *)
    ((forall p j, 0 <= p < N_parm C -> 0 <= j < Z.of_nat n -> nltb (d p j) (ar_accept_diff C) = false) /\
     ( (* the initial proposal *)
       row' = u_gp (s_user S) \/
       (* every width, to the best candidate of its parameter *)
       (Z.of_nat (length row') = N_parm C /\
        forall p, 0 <= p < N_parm C -> exists j, 0 <= j < Z.of_nat n /\ nth (Z.to_nat p) row' (nof 0) = cell al p j /\
          (forall k, 0 <= k < Z.of_nat n -> nltb (d p k) (d p j) = false) /\
          (forall k, 0 <= k < j -> nltb (d p j) (d p k) = true))))).
Proof.
  intros A S HL P HP HR D G0 h Gf HH s Hs r Hr HT. destruct (stack_tuned S HL D _ _ _ HH s Hs r Hr) as [_ K].
  exact (K HT P HP HR).
Qed.
Print Assumptions C34_three.

(** its numerical hypotheses: over the reals always; in binary64 when ar_best and ar_accept_diff are not NaN *)
Theorem C34_numbers : (forall C : Cfg RArith, rates_ok C (fun _ => True)) /\ comparable (A := RArith) (fun _ => True) /\
  (forall L (C : Cfg (B64 L)), 1 <= n_iter_in_tune C <= INT_MAX -> is_nan (ar_best C : b64) = false ->
     is_nan (ar_accept_diff C : b64) = false -> rates_ok C (fun x : num (B64 L) => is_nan (x : b64) = false)) /\
  (forall L, comparable (A := B64 L) (fun x : num (B64 L) => is_nan (x : b64) = false)).
Proof.
  split; [intros C; split; auto|]. split; [exact comparable_R|]. split; [exact rates_ok_B64|exact comparable_B64].
Qed.
Print Assumptions C34_numbers.

(** a configuration in which every rank is tuned after the first stack (an empty band, tuning from the start) *)
Definition eager_cfg : Cfg RArith :=
  mkCfgP RArith 3 400000 5000 20 5 1 0 0 400000 1000 1 300000 100000 20
    2%R 1%R (23 / 100)%R (1 / 10)%R 20%R 300%R (1 / 5)%R (1 / 10)%R [nlit 1 3; nlit 1 2; nlit 1 1; nof 1].
Definition eager : Setup RArith := mkSetup eager_cfg (demo_user _) 4 (demo_env _) 2.
Lemma eager_legal : Legal eager.
Proof.
  split; [apply RandOK_R|]. split; [|split; [|apply demo_env_valid]].
  - constructor; cbn; try (vm_compute; intuition discriminate); try lia.
  - destruct demoR_legal as [_ [_ [V _]]]. destruct V as [V1 V2 V3]. constructor; [|assumption|assumption]. destruct V1. constructor; assumption.
Qed.
Example C34_case : exists D G0 h Gf s, history eager D G0 h Gf /\ In s h /\ forall r, tuned_in eager s r.
Proof.
  destruct (history_exists eager eager_legal) as [D [G0 [h [Gf HH]]]]. exists D, G0, h, Gf.
  pose proof HH as [_ [_ HR]]. inversion HR as [? ? ? HN|? ? nx0 len' nx ? bl G1 nsw npr G2 G3 hl G4 Hlt E1 E2 E3 HB HLd HT HR' X1 X2 X3 X4 X5]; [cbn in HN; lia|].
  subst. cbn in E1. injection E1 as <-. cbn [s_cfg eager] in *.
  eexists. split; [exact HH|]. split; [left; reflexivity|]. intros r. unfold tuned_in. cbn [sr_end sr_from sr_len s_cfg eager].
  change (N_iter eager_cfg) with 400000. change (n_iter_a_stack eager_cfg) with 5000.
  change (400000 <? 5000) with false. cbn iota.
  split; [reflexivity|]. split; [reflexivity|]. split; [reflexivity|]. intros [K1 K2].
  change (ar_ok_lower eager_cfg) with 2%R in K1. change (ar_ok_upper eager_cfg) with 1%R in K2.
  cbn [nltb RArith] in *. apply Rltb_true in K1. apply Rltb_true in K2. lra.
Qed.

(** each of the three outcomes of the decision: one parameter, two ranks, ar_best 0.25, ar_accept_diff 0.125,
    trial rates 1 and 0.25, then 1 and 0.75 with two generators; the library's pow is that of squares *)
Definition square_libm : Libm := mkLibm (fun x => x) (fun x => x) (fun x => x) (fun x => x) (fun x _ => Bmult mode_NE x x).
Definition two_cfg : Cfg (B64 square_libm) :=
  mkCfgP (B64 square_libm) 1 400000 5000 20 5 1 0 0 400000 1000 1 300000 100000 20
    (nlit 10 2) (nlit 45 2) (nlit 25 2) (nlit 125 3) (nof 20) (nof 300) (nlit 2 1) (nlit 1 1) [nlit 1 3; nof 1].
Example C34_outcomes :
  let decide a b g := match decide_sigma_to_change two_cfg 2 [[a; b]] g with OK (ip, ir, _) => Some (ip, ir) | _ => None end in
  let q k := nlit (A := B64 square_libm) (25 * k) 2 in
  decide (q 4) (q 1) 0 = Some (0, 1) /\ decide (q 4) (q 3) 0 = Some (-1, -1) /\
  decide (q 4) (q 3) 281474976710655 = Some (-1, 0).
Proof. split; [|split]; vm_compute; reflexivity. Qed.

(** C35, exact reals.  All candidates for a width b > 0 are in the range when sigma_min * jumpin <= sigma_max. *)
Theorem C35_candidates : forall (C : Cfg RArith) (U : User RArith) m ip (b h : R) out, 2 <= m ->
  let smin := nth (Z.to_nat ip) (u_sigmin U) 0%R in let smax := nth (Z.to_nat ip) (u_sigmax U) 0%R in
  (0 < smin)%R -> (1 <= sigma_jumpin_ratio C)%R -> (smin * sigma_jumpin_ratio C <= smax)%R -> (0 < b)%R -> (1 <= h)%R ->
  check_bounce C U m (create_logspace_array (A := RArith) b h m) ip = OK out ->
  length out = Z.to_nat m /\ forall x, In x out -> (smin <= x <= smax)%R.
Proof.
  intros C U m ip b h out Hm smin' smax' H1 H2 H3 H4 H5 H. split.
  - apply (bounce_cases C U m ip) in H. cbv zeta in H. rewrite H.
    match goal with |- length (if ?x then _ else if ?y then _ else _) = _ => destruct x, y; exact (ls_len _ _ _) end.
  - exact (bounce_range C U m ip Hm H1 H2 H3 b h out H4 H5 H).
Qed.
Print Assumptions C35_candidates.

(** In a run: every width of the table and every width used by a rank is in the range. *)
Theorem C35_run : forall S : Setup RArith, Legal S ->
  let C := s_cfg S in let U := s_user S in
  let smin p := nth (Z.to_nat p) (u_sigmin U) 0%R in let smax p := nth (Z.to_nat p) (u_sigmax U) 0%R in
  let inside row := forall p, 0 <= p < N_parm C -> (smin p <= nth (Z.to_nat p) row 0 <= smax p)%R in
  (forall p, 0 <= p < N_parm C -> (0 < smin p)%R) -> (1 <= sigma_jumpin_ratio C)%R -> (1 <= sigma_scale_half_ratio C)%R ->
  (forall p, 0 <= p < N_parm C -> (smin p * sigma_jumpin_ratio C <= smax p)%R) -> inside (u_gp U) ->
  forall D G0 h Gf, history S D G0 h Gf ->
  (forall G, In G (states G0 h Gf) -> forall r, (r < s_n S)%nat -> inside (sigt_at G r)) /\
  (forall s, In s h -> forall b, In b (sr_batches s) -> forall r, (r < s_n S)%nat -> inside (l_sig (loc_at (br_pre b) r))).
Proof.
  intros S HL C U smin' smax' inside H1 H2 H3 H4 H5 D G0 h Gf HH.
  exact (run_range S HL H1 H2 H3 H4 H5 D G0 h Gf HH).
Qed.
Print Assumptions C35_run.

(** the shipped regression model (widths 5e-10 to 0.2 of the ranges, jumpin 300, half ratio 20) meets the hypotheses *)
Example C35_case : Legal demoR /\
  let C := s_cfg demoR in let U := s_user demoR in
  let smin p := nth (Z.to_nat p) (u_sigmin U) 0%R in let smax p := nth (Z.to_nat p) (u_sigmax U) 0%R in
  (forall p, 0 <= p < N_parm C -> (0 < smin p)%R) /\ (1 <= sigma_jumpin_ratio C)%R /\ (1 <= sigma_scale_half_ratio C)%R /\
  (forall p, 0 <= p < N_parm C -> (smin p * sigma_jumpin_ratio C <= smax p)%R) /\
  (forall p, 0 <= p < N_parm C -> (smin p <= nth (Z.to_nat p) (u_gp U) 0 <= smax p)%R).
Proof.
  split; [apply demoR_legal|]. cbv zeta.
  assert (Hp : forall Q : Z -> Prop, Q 0 -> Q 1 -> Q 2 -> forall p, 0 <= p < N_parm (s_cfg demoR) -> Q p).
  { intros Q Q0 Q1 Q2 p H. change (N_parm (s_cfg demoR)) with 3 in H. assert (p = 0 \/ p = 1 \/ p = 2) as [ -> | [ -> | -> ] ] by lia; assumption. }
  split; [apply Hp|split; [|split; [|split; [apply Hp|apply Hp]]]]; 
    change (Z.to_nat 0) with 0%nat; change (Z.to_nat 1) with 1%nat; change (Z.to_nat 2) with 2%nat; cbn; lra.
Qed.

(** Without the relation it is false: with jumpin 9 and the range [1, 2], all widths are 1 during the first stack of
    every run of [outS] (a flat posterior), and 2/9 during the second. *)
Theorem C35_range_refuted : exists S : Setup RArith, Legal S /\
  nth 0 (u_sigmin (s_user S)) 0%R = 1%R /\ nth 0 (u_sigmax (s_user S)) 0%R = 2%R /\ u_gp (s_user S) = [1%R] /\
  N_parm (s_cfg S) = 1 /\ sigma_jumpin_ratio (s_cfg S) = 9%R /\ sigma_scale_half_ratio (s_cfg S) = 2%R /\
  exists D G0 h Gf s, history S D G0 h Gf /\ In s h /\ sr_batches s <> [] /\ forall b, In b (sr_batches s) -> forall r, (r < s_n S)%nat ->
    l_sig (loc_at (br_pre b) r) = [(2 / 9)%R].
Proof.
  exists outS. split; [apply out_legal|]. split; [reflexivity|]. split; [reflexivity|]. split; [reflexivity|].
  split; [reflexivity|]. split; [reflexivity|]. split; [reflexivity|].
  destruct (history_exists outS out_legal) as [D [G0 [h [Gf HH]]]].
  destruct (out_run _ _ _ _ HH) as [s [t [Hs [Ht [E K]]]]]. exists D, G0, h, Gf, t. split; [exact HH|]. split; [exact Ht|]. split.
  - destruct (history_count outS out_legal _ _ _ _ HH) as [_ [F _]]. rewrite Forall_forall in F.
    destruct (F t Ht) as [Hlen [_ [_ [_ [_ [_ [_ [_ [_ [_ [ZB _]]]]]]]]]]].
    intros E0. rewrite E0 in ZB. cbn in ZB. lia.
  - intros b Hb r Hr.
    assert (Hin : In (br_pre b) (concat (map bstates (sr_batches t)))).
    { apply in_concat. exists (bstates b). split; [apply in_map; auto|left; auto]. }
    destruct (stack_widths outS out_legal D _ _ _ HH t Ht (br_pre b) (or_intror (or_introl Hin))) as [_ W]. rewrite (W r Hr), E.
    apply K. exact Hr.
Qed.
Print Assumptions C35_range_refuted.

(** C36.  The searches, for a table of numbers that can be compared. *)
Theorem C36_argmin : forall A (P : num A -> Prop), comparable P -> forall (arr : list (num A)) d, arr <> [] -> Forall P arr ->
  exists i, argmin arr (Z.of_nat (length arr)) = OK i /\ 0 <= i < Z.of_nat (length arr) /\
   (forall k, 0 <= k < Z.of_nat (length arr) -> nltb (nth (Z.to_nat k) arr d) (nth (Z.to_nat i) arr d) = false) /\
   (forall k, 0 <= k < i -> nltb (nth (Z.to_nat i) arr d) (nth (Z.to_nat k) arr d) = true).
Proof. intros A P HP arr d. exact (argmin_spec P HP arr d). Qed.
Print Assumptions C36_argmin.

Theorem C36_argmax : forall A (P : num A -> Prop), comparable P -> forall (arr : list (num A)) d, arr <> [] -> Forall P arr ->
  exists i, argmax arr (Z.of_nat (length arr)) = OK i /\ 0 <= i < Z.of_nat (length arr) /\
   (forall k, 0 <= k < Z.of_nat (length arr) -> nltb (nth (Z.to_nat i) arr d) (nth (Z.to_nat k) arr d) = false) /\
   (forall k, 0 <= k < i -> nltb (nth (Z.to_nat k) arr d) (nth (Z.to_nat i) arr d) = true).
Proof. intros A P HP arr d. exact (argmax_spec P HP arr d). Qed.
Print Assumptions C36_argmax.

(** [ar] has N_parm rows of n rates; e i j is the distance of a rate from ar_best. *)
Theorem C36_closest : forall A (P : num A -> Prop), comparable P -> forall (C : Cfg A) n ar, 1 <= n -> 1 <= N_parm C ->
  Z.of_nat (length ar) = N_parm C -> (forall r, In r ar -> Z.of_nat (length r) = n) ->
  let e i j := nabs (nsub (nth (Z.to_nat j) (nth (Z.to_nat i) ar []) (nof 0)) (ar_best C)) in
  (forall i j, 0 <= i < N_parm C -> 0 <= j < n -> P (e i j)) ->
  (forall i, 0 <= i < N_parm C -> exists j, closest_oneparm C n ar i = OK (e i j, j) /\ 0 <= j < n /\
    (forall k, 0 <= k < n -> nltb (e i k) (e i j) = false) /\ (forall k, 0 <= k < j -> nltb (e i j) (e i k) = true)) /\
  (exists i j, closest_all C n ar = OK (e i j, i, j) /\ 0 <= i < N_parm C /\ 0 <= j < n /\
    (forall a b, 0 <= a < N_parm C -> 0 <= b < n -> nltb (e a b) (e i j) = false) /\
    (forall a b, 0 <= a < N_parm C -> 0 <= b < n -> a < i \/ (a = i /\ b < j) -> nltb (e i j) (e a b) = true)).
Proof.
  intros A P HP C n ar Hn Hp La Lr e HE. split.
  - exact (closest_oneparm_spec P HP C n Hn ar (nof 0) La Lr HE).
  - exact (closest_all_spec P HP C n Hn ar (nof 0) La Lr HE Hp).
Qed.
Print Assumptions C36_closest.

(** Doubles that are not NaN can be compared; a NaN in front wins argmin whatever follows. *)
Theorem C36_doubles : forall L, comparable (A := B64 L) (fun x : num (B64 L) => is_nan (x : b64) = false) /\
  forall arr : list b64, argmin (A := B64 L) (B754_nan :: arr) (Z.of_nat (length arr) + 1) = OK 0.
Proof. intros L. split; [apply comparable_B64|apply argmin_nan]. Qed.
Print Assumptions C36_doubles.

(** ties: the first of the two smallest, the first of the two largest *)
Example C36_case : let arr := [nlit 5 1; nof (-1); nof 3; nof (-1); nof 3] : list (num (B64 square_libm)) in
  Forall (fun x : num (B64 square_libm) => is_nan (x : b64) = false) arr /\
  argmin arr 5 = OK 1 /\ argmax arr 5 = OK 2 /\
  (exists v, closest_all (A := B64 square_libm) two_cfg 2 [[nlit 5 1; nlit 5 1]] = OK (v, 0, 0)).
Proof. split; [repeat constructor|]. split; [reflexivity|]. split; [reflexivity|]. eexists. reflexivity. Qed.

(** C37.  Whatever widths the ranks hold when a stack begins: after the distribution and in every batch of the stack
    the widths of rank r are row r of the root's table, and the rows of the batch are those of Metropolis iterations with them. *)
Theorem C37_widths : forall A (S : Setup A), Legal S -> forall D G0 h Gf, history S D G0 h Gf -> forall s, In s h ->
  forall r, (r < s_n S)%nat ->
  let w := nth r (sigt (g_ro (sr_in s))) [] in
  l_sig (loc_at (sr_pre s) r) = w /\
  forall b, In b (sr_batches s) ->
    l_sig (loc_at (br_pre b) r) = w /\
    ms_at (br_mid b) r = mhn (s_user S) D w (beta_at (sr_in s) r) (Z.to_nat (br_len b)) (ms_at (br_pre b) r).
Proof.
  intros A S HL D G0 h Gf HH s Hs r Hr w.
  destruct (stack_widths S HL D _ _ _ HH s Hs (sr_pre s) (or_introl eq_refl)) as [_ E3].
  split; [exact (E3 r Hr)|]. intros b Hb.
  assert (Hin : In (br_pre b) (concat (map bstates (sr_batches s)))).
  { apply in_concat. exists (bstates b). split; [apply in_map; auto|left; auto]. }
  destruct (stack_widths S HL D _ _ _ HH s Hs (br_pre b) (or_intror (or_introl Hin))) as [_ E2].
  split; [exact (E2 r Hr)|]. exact (batch_widths S HL D _ _ _ HH s Hs b Hb r Hr).
Qed.
Print Assumptions C37_widths.

(** the distribution in one rank, whatever it holds: its row of the root's table (here rank 1 of 2) *)
Example C37_case : exists D G0 h Gf s t, history outS D G0 h Gf /\ In s h /\ In t h /\
  l_sig (loc_at (sr_pre s) 1) = [1%R] /\ l_sig (loc_at (sr_pre t) 1) = [(2 / 9)%R].
Proof.
  destruct (history_exists outS out_legal) as [D [G0 [h [Gf HH]]]].
  destruct (out_run _ _ _ _ HH) as [s [t [Hs [Ht [E K]]]]]. destruct (K 1%nat ltac:(lia)) as [K1 K2].
  exists D, G0, h, Gf, s, t. split; [exact HH|]. split; [exact Hs|]. split; [exact Ht|].
  pose proof (C37_widths _ outS out_legal _ _ _ _ HH s Hs 1%nat ltac:(cbn; lia)) as [Q1 _].
  pose proof (C37_widths _ outS out_legal _ _ _ _ HH t Ht 1%nat ltac:(cbn; lia)) as [Q2 _].
  split; [rewrite Q1; exact K1|rewrite Q2, E; exact K2].
Qed.

(** C32, C33: in [eager] every rank is tuned after the first stack ([C34_case]); the flags for a NaN rate, one in the
    band, one on its edge and one above *)
Example C33_case :
  map (tune_flag (A := B64 square_libm) two_cfg) [(B754_nan : num (B64 square_libm)); nlit 30 2; nlit 10 2; nlit 50 2] = [1; 0; 1; 1].
Proof. vm_compute. reflexivity. Qed.
