(** C69: one Metropolis step and one swap leave the posterior unchanged, and when they do not. *)
From Coq Require Import ZArith List Bool Reals Lia Lra.
From Coquelicot Require Import Coquelicot.
From Verif Require Import Base Arith Rand Mh Ladder Tune Mpi Prog Seq MhSpec UserModels Boundary BounceDensity SwapReal Metro NormalLaw PropNormal.
From Verif Require Import Nice Invariance.
Import ListNotations.
Open Scope R_scope.

(** the steps the code takes: consecutive normal numbers times the widths *)
Fixpoint steps (sigma : list R) (g : Z) : list R * Z :=
  match sigma with
  | [] => ([], g)
  | s :: t => let (r, g1) := r8_normal_01 (A := RArith) g in let (u, g2) := steps t g1 in (r * s :: u, g2)
  end.
Lemma prop_steps : forall x sigma g, length sigma = length x -> prop_list (A := RArith) x sigma g = (addl x (fst (steps sigma g)), snd (steps sigma g)).
Proof.
  induction x as [|a x IH]; intros [|s sigma] g H; try discriminate; [reflexivity|]. cbn [prop_list steps].
  destruct (r8_normal_01 (A := RArith) g) as [r g1]. rewrite (IH sigma g1) by (injection H; auto). destruct (steps sigma g1) as [u g2]. reflexivity.
Qed.

(** One iteration of a batch (the batches of all runs are [metro] walks, C12_runs): from x the code goes to y, the bounded row after the
    step, when the uniform number is below [accept], and stays at x otherwise. *)
Theorem C69_code : forall U D np sigma beta g p q rows b bs g', metro U D np sigma beta g p (q :: rows) (b :: bs) g' ->
  haslen (A := RArith) np (r_parm p) -> haslen (A := RArith) np sigma -> r_lp p = logpost_at U D (r_parm p) beta ->
  let x := r_parm p in let y := u_bound U (addl x (fst (steps sigma g))) in
  let L := fun z => logpost_at U D z beta in
  r_parm q = (if Rlt_dec (SwapReal.unif (snd (steps sigma g))) (accept (L x) (L y)) then y else x) /\ r_lp q = logpost_at U D (r_parm q) beta.
Proof.
  intros U D np sigma beta g p q rows b bs g' M Hx Hs Hl x y L. inversion M as [|? ? new0 g1 ? ? ? ? ? HP L0 L1 HB HQ HLP HI HA HW]; subst.
  rewrite (propose_ok np (r_parm p) sigma g Hx Hs) in HP. rewrite prop_steps in HP by (unfold haslen in *; lia). cbn [fst snd] in HP. injection HP as E1 E2. subst new0 g1.
  fold x in HB, HQ, L1. fold y in HQ, L1. unfold L0, L1 in *. unfold L.
  assert (K : b = true <-> SwapReal.unif (snd (steps sigma g)) < accept (logpost_at U D x beta) (logpost_at U D y beta)).
  { unfold accept. rewrite Hl in HB. exact HB. }
  split.
  - clear HW. rewrite HQ. destruct (Rlt_dec (SwapReal.unif _) _) as [H|H]; [apply K in H; rewrite H; reflexivity|]. destruct b; [exfalso; apply H, K; reflexivity|reflexivity].
  - rewrite HLP, HQ. destruct b; [reflexivity|exact Hl].
Qed.
Print Assumptions C69_code.

(** Exact reals.  [box]: the ranges; [phis]: the densities of the steps, one per parameter, each even and continuous, as the normal
    density is; [L]: the logarithm of the posterior, bounded and uniformly continuous on the box; [step ... x]: the mean of g after one
    step from x over the steps that in no parameter exceed the width of its range.  If x has density exp L, so has the state after the
    step: the mean of every bounded and uniformly continuous g is unchanged. *)
Theorem C69_step : forall (phis : list (R -> R)) (box : list (R * R)) (L g : list R -> R),
  (forall phi, In phi phis -> (forall s, continuous phi s) /\ forall s, phi (- s) = phi s) -> length phis = length box ->
  (forall p, In p box -> fst p <= snd p) -> nice (boxD box) L -> nice (boxD box) g ->
  bint box (fun x => exp (L x) *
    bint (map (fun p => (- (snd p - fst p), snd p - fst p)) box) (fun s => dens phis s *
      (let y := para_boundary (A := RArith) box (addl x s) in
       Rmin 1 (exp (L y - L x)) * g y + (1 - Rmin 1 (exp (L y - L x))) * g x)))
  = bint (map (fun p => (- (snd p - fst p), snd p - fst p)) box) (dens phis) * bint box (fun x => exp (L x) * g x).
Proof.
  intros phis box L g HP HL HW NL NG. apply (step_invariant phis box L g); auto.
  - apply List.Forall_forall. exact HP.
  - apply List.Forall_forall. exact HW.
Qed.
Print Assumptions C69_step.

(** A swap of two ranks with log posteriors Li and Lj leaves the product of the two posteriors unchanged.  The decision is the one of
    the code (C22_balance), for any likelihood and prior. *)
Theorem C69_swap : forall (box : list (R * R)) (Li Lj : list R -> R) (g : list R -> list R -> R),
  (forall p, In p box -> fst p <= snd p) -> nice (boxD box) Li -> nice (boxD box) Lj -> nice (prodD (boxD box) (boxD box)) (fun z => g (fst z) (snd z)) ->
  bint box (fun x => bint box (fun y => exp (Li x) * exp (Lj y) *
    (let a := Rmin 1 (exp (Li y + Lj x - Li x - Lj y)) in a * g y x + (1 - a) * g x y)))
  = bint box (fun x => bint box (fun y => exp (Li x) * exp (Lj y) * g x y)).
Proof. intros box Li Lj g HW NI NJ NG. apply (swap_invariant box Li Lj g); auto. apply List.Forall_forall. exact HW. Qed.
Print Assumptions C69_swap.

(** The draws of the generator are at most 8.17 in size (C68_bounded, one state excepted), so with widths of at most 1/8.17 of the
    ranges no step exceeds the width of its range. *)
Fixpoint sound_draws (n : nat) (g : Z) : Prop :=
  match n with O => True | Datatypes.S n => lcg g <> 0%Z /\ sound_draws n (snd (r8_normal_01 (A := RArith) g)) end.
Theorem C69_within : forall box sigma g, length sigma = length box -> sound_draws (length box) g ->
  List.Forall2 (fun p s => 0 <= s /\ 817 / 100 * s <= snd p - fst p) box sigma ->
  inside (map (fun p => (- (snd p - fst p), snd p - fst p)) box) (fst (steps sigma g)).
Proof.
  induction box as [|[lo hi] box IH]; intros [|s sigma] g HL HS HF; try discriminate; [constructor|]. inversion HF as [|? ? ? ? [H0 H1] HF']; subst.
  cbn [length sound_draws] in HS. destruct HS as [HS1 HS2]. pose proof (C68_bounded g HS1) as B. cbn [steps map fst snd] in *.
  destruct (r8_normal_01 (A := RArith) g) as [r g1]. cbn [fst snd] in *. specialize (IH sigma g1 ltac:(injection HL; auto) HS2 HF').
  destruct (steps sigma g1) as [u g2]. cbn [fst] in *. constructor; [|exact IH]. cbn [fst snd].
  apply Rabs_le_between. change (num RArith) with R in r. rewrite Rabs_mult, (Rabs_pos_eq s) by auto.
  apply Rle_trans with (817 / 100 * s); [apply Rmult_le_compat_r; auto|exact H1].
Qed.
Print Assumptions C69_within.

(** With larger steps the posterior is not unchanged, because a step far outside ends on a wall: already for the flat posterior on
    [0,1] (every proposal is accepted) and every positive continuous density of steps, cut at any T > 2. *)
Theorem C69_wide_refuted : forall (phi : R -> R) T, (forall s, continuous phi s) -> (forall s, 0 < phi s) -> 2 < T ->
  exists g : R -> R, (forall v, 0 < g v) /\ (forall v, continuous g v) /\
  (RInt (fun s => phi s) (- T) T) * RInt g 0 1 < RInt (fun x => RInt (fun s => phi s * g (bounce_inside (A := RArith) (x + s) 0 1)) (- T) T) 0 1.
Proof.
  intros phi T C P HT.
  assert (IC : forall a b, ex_RInt (V := R_CompleteNormedModule) phi a b) by (intros; apply ex_RInt_cont; auto).
  pose (p := (RInt phi 2 T) : R). set (m := (RInt (fun s => phi s) (- T) T) : R).
  assert (P0 : 0 < p).
  { unfold p. apply (RInt_gt_0 phi 2 T); auto. }
  assert (M0 : 0 < m) by (unfold m; apply (RInt_gt_0 (fun s => phi s) (- T) T); auto; lra).
  set (n := m / p). assert (N0 : 0 < n) by (apply Rdiv_lt_0_compat; auto).
  set (g := fun v => exp (- n * v)). exists g.
  assert (CG : forall v, continuous g v) by (intros v; apply (ex_derive_continuous g); unfold g; auto_derive; auto).
  assert (GP : forall v, 0 < g v) by (intros; apply exp_pos).
  split; [exact GP|]. split; [exact CG|].
  assert (IG : RInt g 0 1 = (1 - exp (- n)) / n).
  { assert (K : is_RInt (V := R_CompleteNormedModule) g 0 1 (minus (- exp (- n * 1) / n) (- exp (- n * 0) / n))).
    { apply (is_RInt_derive (fun v => - exp (- n * v) / n) g); [|intros; apply CG]. intros v _. unfold g. auto_derive; [lra|]. field. lra. }
    pose proof (is_RInt_unique (V := R_CompleteNormedModule) _ _ _ _ K) as E. refine (eq_trans E _). unfold minus, plus, opp. cbn. rewrite Rmult_0_r, exp_0, Rmult_1_r. field. lra. }
  assert (LT : m * RInt g 0 1 < p).
  { rewrite IG. pose proof (exp_pos (- n)). replace (m * ((1 - exp (- n)) / n)) with (p * (1 - exp (- n))) by (unfold n; field; lra). nra. }
  assert (CB : forall x s, continuous (fun s => phi s * g (bounce_inside (A := RArith) (x + s) 0 1)) s).
  { intros x s. apply (continuous_mult phi (fun s => g (bounce_inside (A := RArith) (x + s) 0 1))); [auto|]. apply (continuous_comp (fun s => bounce_inside (A := RArith) (x + s) 0 1) g); [|auto].
    apply continuity_pt_filterlim. intros e He. exists e. split; auto. intros y [_ Hy]. cbn in Hy. unfold R_dist in Hy. cbn [dist R_met Base]. unfold R_dist.
    eapply Rle_lt_trans; [apply bounce_lip; lra|]. replace (x + y - (x + s)) with (y - s) by ring. exact Hy. }
  assert (LB : forall x, 0 < x < 1 -> p <= RInt (fun s => phi s * g (bounce_inside (A := RArith) (x + s) 0 1)) (- T) T).
  { intros x Hx. rewrite <- (chasles _ (- T) 2 T) by (intros; apply CB).
    assert (A1 : 0 <= RInt (fun s => phi s * g (bounce_inside (A := RArith) (x + s) 0 1)) (- T) 2).
    { apply RInt_ge_0; [lra|apply ex_RInt_cont; intros; apply CB|]. intros s _. apply Rmult_le_pos; left; auto. }
    assert (A2 : p = RInt (fun s => phi s * g (bounce_inside (A := RArith) (x + s) 0 1)) 2 T).
    { unfold p. apply RInt_eqb; [lra|]. intros s Hs. assert (W : bounce_inside (A := RArith) (x + s) 0 1 = 0 :> R) by (apply wall_atom; lra).
      assert (W' : g (bounce_inside (A := RArith) (x + s) 0 1) = g 0) by exact (f_equal g W). rewrite W'. unfold g. rewrite Rmult_0_r, exp_0. symmetry. apply Rmult_1_r. }
    lra. }
  eapply Rlt_le_trans; [exact LT|].
  assert (EI : p = RInt (fun _ : R => p) 0 1) by (rewrite RInt_cst, Rminus_0_r, Rmult_1_l; reflexivity). rewrite EI.
  apply RInt_le; [lra|apply ex_RInt_cont; intros; apply continuous_const| |intros x Hx; apply LB; lra].
  set (F := fun x s => phi s * g (bounce_inside (A := RArith) (x + s) 0 1)).
  apply (nice_ex 0 1 (fun x => RInt (F x) (- T) T)); [lra|].
  apply (nice_RInt (seg 0 1) (- T) T F); [intros d v Hd; apply seg_refl; auto|lra|].
  assert (NS : nice (prodD (seg 0 1) (seg (- T) T)) (fun z => snd z)) by (apply nice_of_smooth with (- T) T; apply smooth_snd).
  assert (NF : nice (prodD (seg 0 1) (seg (- T) T)) (fun z => fst z)) by (apply nice_of_smooth with 0 1; apply smooth_fst).
  apply nice_mult; [apply (nice_comp (prodD (seg 0 1) (seg (- T) T)) phi (fun z => snd z)); auto|].
  apply (nice_comp (prodD (seg 0 1) (seg (- T) T)) (fun v => g (bounce_inside (A := RArith) v 0 1)) (fun z => fst z + snd z)); [|apply nice_plus; auto].
  intros z. apply (continuous_comp (fun v => bounce_inside (A := RArith) v 0 1) g); [|auto].
  apply continuity_pt_filterlim. intros e He. exists e. split; auto. intros y [_ Hy]. cbn in Hy. unfold R_dist in Hy. cbn [dist R_met Base]. unfold R_dist.
  eapply Rle_lt_trans; [apply bounce_lip; lra|]. exact Hy.
Qed.
Print Assumptions C69_wide_refuted.

(** The hypotheses on L hold for shipped models.  Their log posteriors, for every beta: *)
Lemma nice_nth : forall i box, nice (boxD box) (fun x => nth i x 0).
Proof.
  induction i as [|i IH]; intros [|[lo hi] box].
  - apply nice_ext with (fun _ => 0); [|apply nice_const]. intros x Hx. inversion Hx; subst. reflexivity.
  - apply nice_ext with (fun x => hd 0 x); [intros x Hx; inversion Hx; subst; reflexivity|]. apply nice_of_smooth with lo hi. apply smooth_hd.
  - apply nice_ext with (fun _ => 0); [|apply nice_const]. intros x Hx. inversion Hx; subst. reflexivity.
  - apply nice_ext with (fun x => nth i (tl x) 0); [intros x Hx; inversion Hx; subst; reflexivity|].
    apply (nice_map (boxD ((lo, hi) :: box)) (boxD box) (fun x => tl x) (fun x => nth i x 0)); [apply smooth_tl|apply IH].
Qed.
Lemma nice_opp : forall P f, nice P f -> nice P (fun x => - f x).
Proof. intros P f F. apply nice_ext with (fun x => 0 - f x); [intros; ring|]. apply nice_minus; auto using nice_const. Qed.
Lemma nice_div : forall P f c, nice P f -> nice P (fun x => f x / c).
Proof. intros P f c F. apply nice_mult; auto using nice_const. Qed.
Lemma nice_pow : forall P f n, nice P f -> nice P (fun x => f x ^ n).
Proof. intros P f n F. induction n; cbn [pow]; auto using nice_const, nice_mult. Qed.
(** the logarithm and the inverse of functions that stay above a positive number *)
Lemma nice_ln : forall P f c, 0 < c -> (forall x, inD P x -> c <= f x) -> nice P f -> nice P (fun x => ln (f x)).
Proof.
  intros P f c Hc B F. apply nice_ext with (fun x => ln (Rmax c (f x))); [intros x Hx; rewrite Rmax_right by auto; reflexivity|].
  apply (nice_comp P (fun z => ln (Rmax c z)) f); auto. intros z. apply (continuous_comp (fun z => Rmax c z) ln).
  - apply continuity_pt_filterlim. intros e He. exists e. split; auto. intros y [_ Hy]. cbn in Hy. unfold R_dist in Hy. cbn [dist R_met Base]. unfold R_dist.
    eapply Rle_lt_trans; [|exact Hy]. unfold Rmax, Rabs. repeat destruct (Rle_dec _ _); repeat destruct (Rcase_abs _); lra.
  - apply (ex_derive_continuous ln). exists (/ Rmax c z). apply is_derive_Reals. apply derivable_pt_lim_ln. eapply Rlt_le_trans; [exact Hc|apply Rmax_l].
Qed.
Lemma nice_inv : forall P f c, 0 < c -> (forall x, inD P x -> c <= f x) -> nice P f -> nice P (fun x => / f x).
Proof.
  intros P f c Hc B F. apply nice_ext with (fun x => exp (- ln (f x))).
  - intros x Hx. specialize (B x Hx). rewrite exp_Ropp, exp_ln by lra. reflexivity.
  - apply nice_exp, nice_opp. apply nice_ln with c; auto.
Qed.

Lemma cont_sin : forall z, continuous sin z.
Proof. intros z. apply (ex_derive_continuous sin). auto_derive. auto. Qed.
Lemma cont_cos : forall z, continuous cos z.
Proof. intros z. apply (ex_derive_continuous cos). auto_derive. auto. Qed.

Lemma egg_nice : forall ra rb gp s1 s2 D beta, nice (boxD [ra; rb]) (fun x => logpost_at (@egg_user RArith ra rb gp s1 s2) D x beta).
Proof.
  intros. set (P := boxD [ra; rb]). apply (nice_ext P (fun x => (sin (nth 1 x 0 / 2) * cos (nth 0 x 0 / 2) + 2) * beta + 1)); [reflexivity|].
  apply nice_plus; [|apply nice_const]. apply nice_mult; [|apply nice_const]. apply nice_plus; [|apply nice_const]. apply nice_mult.
  - apply (nice_comp P sin (fun x => nth 1 x 0 / 2)); [exact cont_sin|]. apply nice_div. apply nice_nth.
  - apply (nice_comp P cos (fun x => nth 0 x 0 / 2)); [exact cont_cos|]. apply nice_div. apply nice_nth.
Qed.

Lemma sqR : forall v : R, @sq RArith v = v * v :> R.
Proof. intros v. unfold sq. exact (Rcpow_2 v). Qed.

Lemma nice_sq : forall P (f : pt P -> R), nice P f -> nice P (fun x => @sq RArith (f x)).
Proof. intros P f F. apply (nice_ext P (fun x => f x * f x)); [intros; symmetry; apply sqR|]. apply nice_mult; auto. Qed.

Lemma multi_nice : forall ra rb gp s1 s2 D beta, nice (boxD [ra; rb]) (fun x => logpost_at (@multi_user RArith ra rb gp s1 s2) D x beta).
Proof.
  intros. set (P := boxD [ra; rb]).
  assert (G : forall m n : R, nice P (fun x => exp (- (@sq RArith (nth 0 x 0 - m) / 2 / @sq RArith 1 + @sq RArith (nth 1 x 0 - n) / 2 / @sq RArith 1)))).
  { intros m n. apply nice_exp, nice_opp.
    apply (nice_plus P (fun x => @sq RArith (nth 0 x 0 - m) / 2 / @sq RArith 1) (fun x => @sq RArith (nth 1 x 0 - n) / 2 / @sq RArith 1)).
    - apply (nice_div P (fun x => @sq RArith (nth 0 x 0 - m) / 2)). apply (nice_div P (fun x => @sq RArith (nth 0 x 0 - m))).
      apply (nice_sq P (fun x => nth 0 x 0 - m)). apply nice_minus; [apply nice_nth|apply nice_const].
    - apply (nice_div P (fun x => @sq RArith (nth 1 x 0 - n) / 2)). apply (nice_div P (fun x => @sq RArith (nth 1 x 0 - n))).
      apply (nice_sq P (fun x => nth 1 x 0 - n)). apply nice_minus; [apply nice_nth|apply nice_const]. }
  apply (nice_plus P (fun x => u_logll (@multi_user RArith ra rb gp s1 s2) x (d_nline D) (d_arr D) beta) (fun _ => 0)); [|apply nice_const].
  apply (nice_mult P (fun x => multi_value (A := RArith) (nth 0 x 0) (nth 1 x 0)) (fun _ => beta)); [|apply nice_const].
  apply nice_plus; [apply (G 10 10)|apply (G (- (10)) (- (10)))].
Qed.

Lemma curved_nice : forall ra rb gp s1 s2 D beta, nice (boxD [ra; rb]) (fun x => logpost_at (@curved_user RArith ra rb gp s1 s2) D x beta).
Proof.
  intros. set (P := boxD [ra; rb]).
  apply (nice_plus P (fun x => u_logll (@curved_user RArith ra rb gp s1 s2) x (d_nline D) (d_arr D) beta) (fun _ => 0)); [|apply nice_const].
  apply (nice_mult P (fun x => curved_value (A := RArith) (nth 0 x 0) (nth 1 x 0)) (fun _ => beta)); [|apply nice_const].
  set (u := fun x : list R => - (@sq RArith (nth 0 x 0)) - @sq RArith (9 + 4 * @sq RArith (nth 0 x 0) + 9 * nth 1 x 0)).
  set (v := fun x : list R => - (8) * @sq RArith (nth 0 x 0) - 8 * @sq RArith (nth 1 x 0 - 2)).
  assert (NA : nice P (fun x => nth 0 x 0)) by apply nice_nth. assert (NB : nice P (fun x => nth 1 x 0)) by apply nice_nth.
  assert (NU : nice P u).
  { apply nice_minus; [apply nice_opp, (nice_sq P (fun x => nth 0 x 0)); auto|].
    apply (nice_sq P (fun x => 9 + 4 * @sq RArith (nth 0 x 0) + 9 * nth 1 x 0)). apply nice_plus; [apply nice_plus; [apply nice_const|apply nice_mult; [apply nice_const|apply (nice_sq P (fun x => nth 0 x 0)); auto]]|apply nice_mult; auto using nice_const]. }
  assert (NV : nice P v).
  { apply nice_minus; [apply nice_mult; [apply nice_const|apply (nice_sq P (fun x => nth 0 x 0)); auto]|]. apply nice_mult; [apply nice_const|].
    apply (nice_sq P (fun x => nth 1 x 0 - 2)). apply nice_minus; auto using nice_const. }
  apply (nice_ext P (fun x => ln (exp (u x) + 5 / 10 * exp (v x)))); [reflexivity|].
  destruct NU as [[M BU] CU] eqn:EN. clear EN. apply nice_ln with (exp (- M)); [apply exp_pos| |].
  - intros x Hx. specialize (BU x Hx). apply Rabs_le_between in BU. destruct BU as [B1 B2]. pose proof (exp_pos (v x)).
    assert (exp (- M) <= exp (u x)) by (destruct B1 as [B1|B1]; [left; apply exp_increasing; auto|rewrite B1; lra]). lra.
  - apply nice_plus; [apply nice_exp; split; [exists M|]; auto|apply nice_mult; [apply nice_const|apply nice_exp; auto]].
Qed.

Lemma reg_nice : forall nd ra rb rd gp s1 s2 D beta, 0 < fst rd -> nice (boxD [ra; rb; rd]) (fun x => logpost_at (@reg_user RArith nd ra rb rd gp s1 s2) D x beta).
Proof.
  intros nd ra rb rd gp s1 s2 D beta H0. set (P := boxD [ra; rb; rd]). set (c := fst rd).
  assert (PC : 0 < c) by exact H0.
  assert (NA : nice P (fun x => nth 0 x 0)) by apply nice_nth. assert (NB : nice P (fun x => nth 1 x 0)) by apply nice_nth. assert (ND : nice P (fun x => nth 2 x 0)) by apply nice_nth.
  assert (DB : forall x, inD P x -> c <= nth 2 x 0).
  { intros x Hx. inversion Hx as [|? ? ? ? _ H1]; subst. inversion H1 as [|? ? ? ? _ H2]; subst. inversion H2 as [|? ? ? ? H3 _]; subst. cbn. apply H3. }
  assert (NQ : nice P (fun x => @sq RArith (nth 2 x 0))) by (apply (nice_sq P (fun x => nth 2 x 0)); auto).
  assert (QB : forall x, inD P x -> c * c <= @sq RArith (nth 2 x 0)).
  { intros x Hx. specialize (DB x Hx). rewrite sqR. apply Rmult_le_compat; lra. }
  assert (CC : 0 < c * c) by (apply Rmult_lt_0_compat; auto).
  assert (T : forall i, nice P (fun x => reg_term (A := RArith) x nd (d_arr D) i)).
  { intros i. set (X := nth (Z.to_nat (i * nd + 0)) (d_arr D) 0). set (Y := nth (Z.to_nat (i * nd + 1)) (d_arr D) 0).
    set (k0 := - @half RArith * ln (2 * @PI15 RArith)).
    apply (nice_ext P (fun x => k0 - @half RArith * ln (@sq RArith (nth 2 x 0)) - @sq RArith (X * nth 0 x 0 + nth 1 x 0 - Y) / 2 * / @sq RArith (nth 2 x 0))); [reflexivity|].
    apply nice_minus; [apply nice_minus; [apply nice_const|apply nice_mult; [apply nice_const|apply nice_ln with (c * c); auto]]|].
    apply nice_mult; [|apply nice_inv with (c * c); auto]. apply nice_div. apply (nice_sq P (fun x => X * nth 0 x 0 + nth 1 x 0 - Y)).
    apply nice_minus; [|apply nice_const]. apply nice_plus; auto. apply nice_mult; auto using nice_const. }
  assert (SUM : forall l (z : pt P -> R), nice P z -> nice P (fun x => fold_left (fun s i => @nadd RArith s (reg_term (A := RArith) x nd (d_arr D) (Z.of_nat i))) l (z x))).
  { induction l as [|i l IH]; intros z Nz; cbn [fold_left]; [exact Nz|]. apply (IH (fun x => @nadd RArith (z x) (reg_term (A := RArith) x nd (d_arr D) (Z.of_nat i)))).
    apply (nice_plus P z (fun x => reg_term (A := RArith) x nd (d_arr D) (Z.of_nat i))); auto. }
  apply (nice_plus P (fun x => u_logll (@reg_user RArith nd ra rb rd gp s1 s2) x (d_nline D) (d_arr D) beta) (fun x => reg_log_prior (A := RArith) ra rb rd x)).
  - apply (nice_mult P (fun x => reg_sum (A := RArith) x nd (d_nline D) (d_arr D)) (fun _ => beta)); [|apply nice_const].
    apply (SUM (seq 0 (Z.to_nat (d_nline D))) (fun _ => 0)). apply nice_const.
  - set (w := ln (snd rd / fst rd)). set (k1 := ln (1 / (snd ra - fst ra)) + ln (1 / (snd rb - fst rb))).
    apply (nice_ext P (fun x => k1 + ln (1 / (nth 2 x 0 * w)))); [reflexivity|]. apply nice_plus; [apply nice_const|].
    destruct (Rle_lt_dec w 0) as [W|W].
    + destruct (Rlt_dec (snd rd) (fst rd)) as [V|V].
      { assert (NO : forall x, ~ inD P x).
        { intros x Hx. inversion Hx as [|? ? ? ? _ H1]; subst. inversion H1 as [|? ? ? ? _ H2]; subst. inversion H2 as [|? ? ? ? H3 _]; subst. lra. }
        split; [exists 0; intros x Hx; destruct (NO x Hx)|]. intros e He. exists 1. split; [lra|]. intros x y Hx. destruct (NO x Hx). }
      assert (W0 : w = 0).
      { apply Rle_antisym; auto. unfold w. rewrite <- ln_1. assert (K : 1 <= snd rd / fst rd) by (apply Rmult_le_reg_r with (fst rd); auto; unfold Rdiv; rewrite Rmult_assoc, Rinv_l by lra; lra).
        destruct K as [K|K]; [left; apply ln_increasing; lra|rewrite <- K; lra]. }
      apply (nice_ext P (fun _ => ln (1 / 0))); [intros x _; rewrite W0, Rmult_0_r; reflexivity|apply nice_const].
    + apply (nice_ext P (fun x => - ln (nth 2 x 0 * w))).
      * intros x Hx. specialize (DB x Hx). unfold Rdiv. rewrite Rmult_1_l. rewrite ln_Rinv; auto. apply Rmult_lt_0_compat; lra.
      * apply nice_opp. apply nice_ln with (c * w); [apply Rmult_lt_0_compat; auto|intros x Hx; apply Rmult_le_compat_r; [lra|auto]|]. apply nice_mult; auto using nice_const.
Qed.

(** so C69_step and C69_swap apply to them, for all data and every beta *)
Theorem C69_models : forall D beta gp s1 s2 ra rb,
  nice (boxD [ra; rb]) (fun x => logpost_at (@egg_user RArith ra rb gp s1 s2) D x beta) /\
  nice (boxD [ra; rb]) (fun x => logpost_at (@curved_user RArith ra rb gp s1 s2) D x beta) /\
  nice (boxD [ra; rb]) (fun x => logpost_at (@multi_user RArith ra rb gp s1 s2) D x beta) /\
  forall nd rd, 0 < fst rd -> nice (boxD [ra; rb; rd]) (fun x => logpost_at (@reg_user RArith nd ra rb rd gp s1 s2) D x beta).
Proof. intros. split; [apply egg_nice|]. split; [apply curved_nice|]. split; [apply multi_nice|]. intros. apply reg_nice; auto. Qed.
Print Assumptions C69_models.

(** a case: the shipped eggbox model on a 10 by 31 box, normal steps of widths 1 and 3, the mean of the first parameter *)
Definition npdf (sd s : R) : R := exp (- (s / sd) ^ 2 / 2).
Lemma npdf_ok : forall sd, 0 < sd -> (forall s, continuous (npdf sd) s) /\ (forall s, npdf sd (- s) = npdf sd s) /\ forall s, 0 < npdf sd s.
Proof.
  intros sd Hs. split; [|split].
  - intros s. apply (ex_derive_continuous (npdf sd)). unfold npdf. auto_derive. auto.
  - intros s. unfold npdf. f_equal. field. lra.
  - intros s. apply exp_pos.
Qed.
Example C69_case : forall D beta,
  let box := [(0, 10); (0, 31)] in let L x := logpost_at (@egg_user RArith (0, 10) (0, 31) 1 1 1) D x beta in
  bint box (fun x => exp (L x) * step [npdf 1; npdf 3] box L (fun x => nth 0 x 0) x)
  = bint (widths box) (dens [npdf 1; npdf 3]) * bint box (fun x => exp (L x) * nth 0 x 0).
Proof.
  intros D beta box L. apply (C69_step [npdf 1; npdf 3] box L (fun x => nth 0 x 0)).
  - intros phi [<-|[<-|[]]]; (split; [apply npdf_ok; lra|intros; apply npdf_ok; lra]).
  - reflexivity.
  - intros p [<-|[<-|[]]]; cbn; lra.
  - apply egg_nice.
  - apply nice_nth.
Qed.
(** and of the steps of the generator seeded with 1, in the same box, with the same widths *)
Example C69_case2 : inside (widths [(0, 10); (0, 31)]) (fst (steps [1; 3] (srand48 1))).
Proof.
  apply C69_within; [reflexivity| |].
  - split; [vm_compute; discriminate|]. split; [vm_compute; discriminate|exact I].
  - constructor; [cbn; lra|]. constructor; [cbn; lra|]. constructor.
Qed.
Example C69_case3 : (forall s, continuous (npdf 1) s) /\ (forall s, 0 < npdf 1 s) /\ 2 < 3.
Proof. split; [apply npdf_ok; lra|]. split; [apply npdf_ok; lra|lra]. Qed.
