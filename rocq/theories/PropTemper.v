(** C73: the whole parallel-tempering sampler leaves the product of the tempered posteriors unchanged. *)
From Coq Require Import ZArith List Bool Reals Lia Lra.
From Coquelicot Require Import Coquelicot.
From Verif Require Import Base Arith Rand Mh Ladder Tune Mpi Prog Seq MhSpec UserModels Boundary BounceDensity SwapReal SeqTotal System Runs History RunHist
  Views HistCount HistRows CountLemmas SwapLemmas SwapMore Nice Invariance PropCount PropSwap PropInvar.
From Verif Require Import Tempering.
Import ListNotations.
Open Scope R_scope.

(** Exact reals.  The state X has one row per rank, each inside the box; [joint Ls X] is the product over the ranks of exp (log posterior
    of the rank at its row); [nint] integrates over all rows.  [means os g X] is the mean of g after the operations os from X: [Move i] is
    the Metropolis step of rank i (the one of C69), [Swap i j] exchanges the rows i and j with probability
    min(1, exp(L_i(x_j) + L_j(x_i) - L_i(x_i) - L_j(x_j))), the one of C22.  The steps have even continuous densities and are taken among
    those of at most the widths of the ranges (C69_within).

    If the rows are distributed as [joint], they still are after any sequence of operations. *)
Theorem C73_sequence : forall (box : list (R * R)) (Ls : list (list R -> R)) (phis : list (list (R -> R))) os (g : list (list R) -> R),
  (forall p, In p box -> fst p <= snd p) -> (forall L, In L Ls -> nice (boxD box) L) -> length phis = length Ls ->
  (forall ps, In ps phis -> length ps = length box /\ bint (map (fun p => (- (snd p - fst p), snd p - fst p)) box) (dens ps) <> 0 /\
     forall phi, In phi ps -> (forall s, continuous phi s) /\ forall s, phi (- s) = phi s) ->
  (forall o, In o os -> match o with Move i => (i < length Ls)%nat | Swap i j => (i < length Ls)%nat /\ (j < length Ls)%nat /\ i <> j end) ->
  nice (stD box (length Ls)) g ->
  nint box (length Ls) (fun X => joint Ls X * means box Ls phis os g X) = nint box (length Ls) (fun X => joint Ls X * g X).
Proof.
  intros box Ls phis os g HW HL HP HE HO NG. apply ops_inv; auto.
  - apply List.Forall_forall. exact HW.
  - apply List.Forall_forall. exact HL.
  - apply List.Forall_forall. intros ps Hps. destruct (HE ps Hps) as [E1 [E2 E3]]. split; [apply List.Forall_forall; exact E3|]. split; auto.
  - apply List.Forall_forall. exact HO.
Qed.
Print Assumptions C73_sequence.

(** so rank 0 samples its own posterior: the mean of any g of its row is the posterior mean (the other factor is the normalisation of
    the other ranks) *)
Theorem C73_cold : forall (box : list (R * R)) L0 (Ls : list (list R -> R)) (phis : list (list (R -> R))) os (g : list R -> R),
  (forall p, In p box -> fst p <= snd p) -> (forall L, In L (L0 :: Ls) -> nice (boxD box) L) -> length phis = length (L0 :: Ls) ->
  (forall ps, In ps phis -> length ps = length box /\ bint (map (fun p => (- (snd p - fst p), snd p - fst p)) box) (dens ps) <> 0 /\
     forall phi, In phi ps -> (forall s, continuous phi s) /\ forall s, phi (- s) = phi s) ->
  (forall o, In o os -> match o with Move i => (i < length (L0 :: Ls))%nat | Swap i j => (i < length (L0 :: Ls))%nat /\ (j < length (L0 :: Ls))%nat /\ i <> j end) ->
  nice (boxD box) g ->
  nint box (length (L0 :: Ls)) (fun X => joint (L0 :: Ls) X * means box (L0 :: Ls) phis os (fun X => g (nth 0 X [])) X)
  = bint box (fun x => exp (L0 x) * g x) * nint box (length Ls) (joint Ls).
Proof.
  intros box L0 Ls phis os g HW HL HP HE HO NG.
  assert (W : wide box) by (apply List.Forall_forall; exact HW).
  rewrite C73_sequence; auto.
  - cbn [length nint]. assert (NJ : nice (stD box (length Ls)) (joint Ls)).
    { apply nice_joint. apply List.Forall_forall. intros L HI. apply HL. right; auto. }
    assert (NE : nice (boxD box) (fun x => exp (L0 x) * g x)) by (apply nice_mult; [apply nice_exp, HL; left|]; auto).
    set (z := nint box (length Ls) (joint Ls)). rewrite (Rmult_comm _ z). rewrite <- bint_scal by auto. apply bint_eqb; auto.
    intros x Hx. unfold z. rewrite (Rmult_comm (nint _ _ _)). rewrite <- nint_scal by auto. apply nint_eqb; auto.
    intros T _. cbn [joint nth]. ring.
  - apply (nice_map (stD box (length (L0 :: Ls))) (boxD box) (fun X => nth 0 X []) g); auto. apply smooth_row. cbn; lia.
Qed.
Print Assumptions C73_cold.

(** The operations of a run: in each batch every rank makes as many steps as the batch is long, then come the swap attempts of the
    batch with the positions drawn by the root. *)
Definition batch_ops {A} (n : nat) (b : brec (A := A)) (ws : list (swrec A)) : list op :=
  concat (map (fun r => repeat (Move r) (Z.to_nat (br_len b))) (seq 0 n)) ++ map (fun w => Swap (sw_i w) (sw_j w)) ws.

(** For every run of every legal setup with swap mode 0 or 1, with the ladder and the widths kept: the operations of the run leave the
    product of the tempered posteriors of the configured betas unchanged, whatever the user model, as long as its log posteriors are
    bounded and uniformly continuous on the box. *)
Theorem C73_run : forall S : Setup RArith, Legal S -> (Swapmode (s_cfg S) = 0 \/ Swapmode (s_cfg S) = 1)%Z ->
  forall D G0 h Gf, history S D G0 h Gf -> exists wss,
  Forall2 (attempts_of S D) (hbatches h) wss /\
  let os := concat (map (fun bw => batch_ops (s_n S) (fst bw) (snd bw)) (combine (hbatches h) wss)) in
  let Ls : list (list R -> R) := map (fun (beta : R) (x : list R) => logpost_at (s_user S) D x beta) (firstn (s_n S) (Beta_Values (s_cfg S))) in
  length Ls = s_n S /\
  forall box phis (g : list (list R) -> R),
    (forall p, In p box -> fst p <= snd p) -> (forall L, In L Ls -> nice (boxD box) L) -> length phis = s_n S ->
    (forall ps, In ps phis -> length ps = length box /\ bint (map (fun p => (- (snd p - fst p), snd p - fst p)) box) (dens ps) <> 0 /\
       forall phi, In phi ps -> (forall s, continuous phi s) /\ forall s, phi (- s) = phi s) ->
    nice (stD box (s_n S)) g ->
    nint box (s_n S) (fun X => joint Ls X * means box Ls phis os g X) = nint box (s_n S) (fun X => joint Ls X * g X).
Proof.
  intros S HL HM D G0 h Gf HH.
  pose proof (C25_partners _ S HL D G0 h Gf HH) as CP.
  assert (EX : exists wss, Forall2 (attempts_of S D) (hbatches h) wss /\
     List.Forall (List.Forall (fun w : swrec RArith => (sw_i w < s_n S)%nat /\ (sw_j w < s_n S)%nat /\ sw_i w <> sw_j w)) wss).
  { induction (hbatches h) as [|b bs IH]; [exists []; split; constructor|].
    destruct IH as [wss [F1 F2]]; [intros b' Hb'; apply CP; right; auto|].
    destruct (CP b (or_introl eq_refl)) as [ws [A1 A2]]. exists (ws :: wss). split; constructor; auto.
    apply List.Forall_forall. intros w Hw. rewrite List.Forall_forall in A2. destruct (A2 w Hw) as [B1 [B2 [B3 [B4 _]]]].
    split; [lia|]. split; [auto|]. destruct HM as [M|M]; [rewrite (B3 M); lia|intros E; apply (B4 M); auto]. }
  destruct EX as [wss [F1 F2]]. exists wss. split; [exact F1|]. intros os Ls.
  assert (LL : length Ls = s_n S).
  { unfold Ls. rewrite map_length, firstn_length. destruct HL as [_ [VC _]]. pose proof (vc_betas _ _ VC). lia. }
  split; [exact LL|].
  assert (OK : forall o, In o os -> match o with Move i => (i < length Ls)%nat | Swap i j => (i < length Ls)%nat /\ (j < length Ls)%nat /\ i <> j end).
  { intros o Ho. unfold os in Ho. apply in_concat in Ho. destruct Ho as [l [Hl Ho]]. apply in_map_iff in Hl. destruct Hl as [[b ws] [<- Hb]].
  rewrite LL. apply in_combine_r in Hb. rewrite List.Forall_forall in F2. specialize (F2 ws Hb). cbn [fst snd] in Ho. unfold batch_ops in Ho.
  apply in_app_iff in Ho. destruct Ho as [Ho|Ho].
  - apply in_concat in Ho. destruct Ho as [l [Hl Ho]]. apply in_map_iff in Hl. destruct Hl as [r [<- Hr]]. apply repeat_spec in Ho. subst o.
    apply in_seq in Hr. lia.
  - apply in_map_iff in Ho. destruct Ho as [w [<- Hw]]. rewrite List.Forall_forall in F2. apply (F2 w Hw). }
  intros box phis g HW HN HP HE NG. clearbody Ls. pose proof (C73_sequence box Ls phis os g HW HN) as Q. rewrite LL in Q. rewrite LL in OK.
  apply Q; auto.
Qed.
Print Assumptions C73_run.

(** the condition on the mass of the steps holds for positive densities on ranges of positive width *)
Lemma mass_pos : forall ps box, List.Forall even_density ps -> (forall phi, In phi ps -> forall s, 0 < phi s) -> length ps = length box ->
  (forall p, In p box -> fst p < snd p) -> 0 < bint (widths box) (dens ps).
Proof.
  induction ps as [|phi ps IH]; intros [|[lo hi] box] E P HL W; try discriminate; [cbn; lra|].
  inversion E as [|? ? E1 E2]; subst. pose proof (W (lo, hi) (or_introl eq_refl)) as W0. cbn in W0.
  assert (WB : wide box) by (apply List.Forall_forall; intros p Hp; pose proof (W p (or_intror Hp)); lra).
  assert (IHm : 0 < bint (widths box) (dens ps)) by (apply IH; auto; intros; [apply P; right|apply W; right]; auto).
  set (m := bint (widths box) (dens ps)) in *.
  cbn [widths map bint fst snd]. change (map (fun p : R * R => (- (snd p - fst p), snd p - fst p)) box) with (widths box).
  assert (EQ : forall x : R, bint (widths box) (fun s => dens (phi :: ps) (x :: s)) = phi x * m).
  { intros x. unfold m. rewrite <- bint_scal; [reflexivity|apply wide_widths; auto|].
    apply (nice_dens ps E2 (widths box) (boxD (widths box)) (fun s => s)); [rewrite widths_length; auto|apply smooth_id]. }
  rewrite (RInt_ext _ (fun x => phi x * m)) by (intros x _; apply EQ).
  apply RInt_gt_0; [lra| |].
  - intros x _. apply Rmult_lt_0_compat; auto. apply P. left; auto.
  - intros x _. apply (continuous_mult phi (fun _ => m)); [apply E1|apply continuous_const].
Qed.

(** a case: three ranks of the shipped eggbox model, normal steps with widths of their own; rank 0 steps, ranks 0 and 2 swap, and so on *)
Example C73_case : forall D,
  let box := [(0, 10); (0, 31)] in let L beta x := logpost_at (@egg_user RArith (0, 10) (0, 31) 1 1 1) D x beta in
  let Ls := [L 1; L (1/2); L (1/4)] in let phis := [[npdf 1; npdf 3]; [npdf 2; npdf 5]; [npdf 4; npdf 9]] in
  let os := [Move 0; Move 1; Move 2; Swap 0 2; Move 0; Swap 1 2; Swap 2 0] in
  nint box 3 (fun X => joint Ls X * means box Ls phis os (fun X => nth 0 (nth 0 X []) 0) X)
  = bint box (fun x => exp (L 1 x) * nth 0 x 0) * nint box 2 (joint [L (1/2); L (1/4)]).
Proof.
  intros D box L Ls phis os.
  assert (M : forall a b, 0 < a -> 0 < b -> length [npdf a; npdf b] = length box /\ bint (map (fun p => (- (snd p - fst p), snd p - fst p)) box) (dens [npdf a; npdf b]) <> 0 /\
     forall phi, In phi [npdf a; npdf b] -> (forall s, continuous phi s) /\ forall s, phi (- s) = phi s).
  { intros a b Ha Hb. assert (E : forall phi, In phi [npdf a; npdf b] -> even_density phi) by (intros phi [<-|[<-|[]]]; (split; [apply npdf_ok|intros; apply npdf_ok]; lra)).
    split; [reflexivity|]. split; [|exact E]. apply Rgt_not_eq. apply mass_pos.
    - apply List.Forall_forall. exact E.
    - intros phi [<-|[<-|[]]]; apply npdf_ok; lra.
    - reflexivity.
    - intros p [<-|[<-|[]]]; cbn; lra. }
  apply (C73_cold box (L 1) [L (1/2); L (1/4)] phis os (fun x => nth 0 x 0)).
  - intros p [<-|[<-|[]]]; cbn; lra.
  - intros f [<-|[<-|[<-|[]]]]; apply egg_nice.
  - reflexivity.
  - intros ps [<-|[<-|[<-|[]]]]; apply M; lra.
  - intros o [<-|[<-|[<-|[<-|[<-|[<-|[<-|[]]]]]]]]; cbn; lia.
  - apply nice_nth.
Qed.
