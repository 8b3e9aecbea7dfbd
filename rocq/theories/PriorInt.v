(** Integrals over a box, one coordinate after the other, and the densities of the shipped priors (reals). *)
From Coq Require Import ZArith List Bool Reals Lia Lra Psatz.
From Coquelicot Require Import Coquelicot.
From Verif Require Import Base Arith Rand UserModels UserOld.
Import ListNotations.
Open Scope R_scope.

(** [box_int box f I]: I is the integral of f over the box, as an iterated Riemann integral *)
Fixpoint box_int (box : list (R * R)) (f : list R -> R) (I : R) : Prop :=
  match box with
  | [] => f [] = I
  | (lo, hi) :: b => exists g : R -> R, (forall v, lo <= v <= hi -> box_int b (fun t => f (v :: t)) (g v)) /\ is_RInt g lo hi I
  end.
Definition ordered (box : list (R * R)) : Prop := List.Forall (fun p => fst p < snd p) box.
Definition in_box (box : list (R * R)) (x : list R) : Prop := Forall2 (fun p v => fst p <= v <= snd p) box x.

Lemma box_int_unique : forall box f I J, ordered box -> box_int box f I -> box_int box f J -> I = J.
Proof.
  induction box as [|[lo hi] b IH]; intros f I J O HI HJ; cbn [box_int] in *; [congruence|].
  inversion O as [|? ? O1 O2]; subst. cbn [fst snd] in O1. destruct HI as [g [Hg Ig]], HJ as [h [Hh Ih]].
  assert (E : is_RInt g lo hi J).
  { apply (is_RInt_ext h); [|exact Ih]. intros v Hv. rewrite Rmin_left, Rmax_right in Hv by lra.
    symmetry. apply (IH _ _ _ O2 (Hg v ltac:(lra)) (Hh v ltac:(lra))). }
  rewrite <- (is_RInt_unique _ _ _ _ Ig). apply (is_RInt_unique _ _ _ _ E).
Qed.
Lemma box_int_ext : forall box f g I, (forall x, in_box box x -> f x = g x) -> box_int box f I -> box_int box g I.
Proof.
  induction box as [|[lo hi] b IH]; intros f g I E H; cbn [box_int] in *.
  - rewrite <- E; [auto|constructor].
  - destruct H as [k [Hk Ik]]. exists k. split; [|auto]. intros v Hv. apply (IH (fun t => f (v :: t))); [|apply Hk; auto].
    intros x Hx. apply E. constructor; auto.
Qed.
(** a product of functions of one coordinate each *)
Fixpoint prodf (fs : list (R -> R)) (x : list R) : R :=
  match fs, x with f :: fs, v :: x => f v * prodf fs x | _, _ => 1 end.
Lemma box_int_scal : forall box f I c, box_int box f I -> box_int box (fun x => c * f x) (c * I).
Proof.
  induction box as [|[lo hi] b IH]; intros f I c H; cbn [box_int] in *; [congruence|].
  destruct H as [g [Hg Ig]]. exists (fun v => c * g v). split.
  - intros v Hv. apply (IH (fun t => f (v :: t))). auto.
  - apply (is_RInt_scal g lo hi c I Ig).
Qed.
Lemma box_int_prod : forall box fs Is, Forall2 (fun p (fI : (R -> R) * R) => is_RInt (fst fI) (fst p) (snd p) (snd fI)) box (combine fs Is) ->
  length fs = length Is -> box_int box (prodf fs) (fold_right Rmult 1 Is).
Proof.
  induction box as [|[lo hi] b IH]; intros fs Is H L.
  - inversion H as [E|]. destruct fs, Is; try discriminate; reflexivity.
  - destruct fs as [|f fs], Is as [|I Is]; try discriminate; try (inversion H; fail). cbn [combine] in H. inversion H as [|? ? ? ? H1 H2]; subst.
    cbn [fst snd] in H1. cbn [box_int fold_right]. exists (fun v => f v * fold_right Rmult 1 Is). split.
    + intros v Hv. cbn [prodf]. apply box_int_scal. apply IH; [auto|]. cbn in L. lia.
    + rewrite Rmult_comm. apply (is_RInt_ext (fun v => scal (fold_right Rmult 1 Is) (f v))).
      * intros v _. unfold scal. cbn. unfold mult. cbn. ring.
      * apply (is_RInt_scal f lo hi _ I H1).
Qed.
(** ** one coordinate *)
Lemma const_int : forall lo hi c, is_RInt (fun _ => c) lo hi (c * (hi - lo)).
Proof.
  intros lo hi c. replace (c * (hi - lo)) with (scal (hi - lo) c); [apply (is_RInt_const (V := R_NormedModule))|].
  unfold scal. cbn. unfold mult. cbn. ring.
Qed.
Lemma unif_int : forall lo hi, lo < hi -> is_RInt (fun _ => 1 / (hi - lo)) lo hi 1.
Proof.
  intros lo hi H. pose proof (const_int lo hi (1 / (hi - lo))) as K. replace (1 / (hi - lo) * (hi - lo)) with 1 in K by (field; lra). exact K.
Qed.
Lemma ln_ratio_pos : forall lo hi, 0 < lo < hi -> 0 < ln (hi / lo).
Proof.
  intros lo hi H. rewrite <- ln_1. apply ln_increasing; [lra|]. apply (Rmult_lt_reg_r lo); [lra|]. unfold Rdiv. rewrite Rmult_assoc, Rinv_l; lra.
Qed.
Lemma jeff_int : forall lo hi, 0 < lo < hi -> is_RInt (fun v => 1 / (v * ln (hi / lo))) lo hi 1.
Proof.
  intros lo hi H. pose proof (ln_ratio_pos lo hi H) as L. set (c := ln (hi / lo)) in *.
  assert (E : is_RInt (fun v => 1 / (v * c)) lo hi (minus (ln hi / c) (ln lo / c))).
  { apply (is_RInt_derive (fun v => ln v / c) (fun v => 1 / (v * c))).
    - intros v Hv. rewrite Rmin_left, Rmax_right in Hv by lra. auto_derive; [lra|]. field. lra.
    - intros v Hv. rewrite Rmin_left, Rmax_right in Hv by lra.
      apply (ex_derive_continuous (fun v => 1 / (v * c))). auto_derive. apply Rmult_integral_contrapositive_currified; lra. }
  replace (minus (ln hi / c) (ln lo / c)) with 1 in E; [exact E|]. unfold minus, plus, opp. cbn.
  assert (K : c = ln hi - ln lo) by (unfold c, Rdiv; rewrite ln_mult, ln_Rinv; [ring|lra|lra|apply Rinv_0_lt_compat; lra]).
  rewrite K in *. field. lra.
Qed.

(** ** the shipped priors *)
Definition unif (p : R * R) : R -> R := fun _ => 1 / (snd p - fst p).
Definition jeff (p : R * R) : R -> R := fun v => 1 / (v * ln (snd p / fst p)).
Lemma exp_ln_unif : forall p : R * R, fst p < snd p -> exp (ln (@prior_unif RArith p)) = unif p 0.
Proof.
  intros p H. apply exp_ln. change (0 < 1 / (snd p - fst p)). apply Rdiv_lt_0_compat; lra.
Qed.
Lemma exp_ln_jeff : forall v (p : R * R), 0 < fst p < snd p -> fst p <= v -> exp (ln (@prior_jeff RArith v p)) = jeff p v.
Proof.
  intros v p H Hv. apply exp_ln. change (0 < 1 / (v * ln (snd p / fst p))). apply Rdiv_lt_0_compat; [lra|].
  apply Rmult_lt_0_compat; [lra|]. apply ln_ratio_pos; auto.
Qed.
Lemma ones : forall n, fold_right Rmult 1 (repeat 1 n) = 1.
Proof. induction n as [|n IH]; cbn [repeat fold_right]; [auto|]. rewrite IH. ring. Qed.

Lemma reg_prior_one : forall ra rb rd : R * R, fst ra < snd ra -> fst rb < snd rb -> 0 < fst rd < snd rd ->
  box_int [ra; rb; rd] (fun x => exp (@reg_log_prior RArith ra rb rd x)) 1.
Proof.
  intros ra rb rd Ha Hb Hd.
  apply (box_int_ext _ (prodf [unif ra; unif rb; jeff rd])).
  - intros x Hx. unfold in_box in Hx. inversion Hx as [|? a ? ? Xa X1]; subst. inversion X1 as [|? b ? ? Xb X2]; subst.
    inversion X2 as [|? d ? ? Xd X3]; subst. inversion X3; subst.
    unfold reg_log_prior. cbn [nlog nadd RArith xi nth prodf]. rewrite !exp_plus, !exp_ln_unif, exp_ln_jeff by (auto; apply Xd). unfold unif. ring.
  - replace 1 with (fold_right Rmult 1 [1; 1; 1]) by (cbn [fold_right]; ring). apply box_int_prod; [|reflexivity].
    repeat constructor; cbn [fst snd]; [apply unif_int; auto|apply unif_int; auto|apply jeff_int; auto].
Qed.
Lemma ras_prior_one : forall ra rb rc rd rf : R * R, ordered [ra; rb; rc; rd; rf] ->
  box_int [ra; rb; rc; rd; rf] (fun x => exp (@ras_log_prior RArith ra rb rc rd rf x)) 1.
Proof.
  intros ra rb rc rd rf O. unfold ordered in O.
  assert (K : forall p, In p [ra; rb; rc; rd; rf] -> fst p < snd p) by (apply List.Forall_forall; auto).
  apply (box_int_ext _ (prodf [unif ra; unif rb; unif rc; unif rd; unif rf])).
  - intros x Hx. unfold in_box in Hx.
    inversion Hx as [|? x1 ? ? _ X1]; subst. inversion X1 as [|? x2 ? ? _ X2]; subst. inversion X2 as [|? x3 ? ? _ X3]; subst.
    inversion X3 as [|? x4 ? ? _ X4]; subst. inversion X4 as [|? x5 ? ? _ X5]; subst. inversion X5; subst.
    unfold ras_log_prior. cbn [nlog nadd RArith prodf]. rewrite !exp_plus, !exp_ln_unif by (apply K; cbn [In]; tauto). unfold unif. ring.
  - replace 1 with (fold_right Rmult 1 [1; 1; 1; 1; 1]) by (cbn [fold_right]; ring). apply box_int_prod; [|reflexivity].
    repeat constructor; cbn [fst snd]; apply unif_int; apply K; cbn [In]; tauto.
Qed.
Lemma in_box_length : forall box x, in_box box x -> length x = length box.
Proof. intros box x H. induction H; cbn [length]; auto. Qed.
Definition orb_factor (box : list (R * R)) (i : nat) : R -> R :=
  let p := nth i box (0, 0) in if orb_jeff i then jeff p else unif p.
Lemma orb_prior1_exp : forall box x i, ordered box -> (i < length box)%nat -> in_box box x ->
  (orb_jeff i = true -> 0 < fst (nth i box (0, 0))) ->
  exp (@orb_prior1 RArith box x i) = orb_factor box i (nth i x 0).
Proof.
  intros box x i O L B P. unfold orb_prior1, orb_factor. cbn [nlog nof RArith xi]. 
  assert (Hp : fst (nth i box (0, 0)) < snd (nth i box (0, 0))).
  { unfold ordered in O. rewrite List.Forall_forall in O. apply O. apply nth_In. auto. }
  destruct (orb_jeff i).
  - apply exp_ln_jeff; [split; auto|]. assert (K : fst (nth i box (0, 0)) <= nth i x 0 <= snd (nth i box (0, 0))); [|lra].
    clear P Hp O. revert i L. induction B as [|p v b t Hpv B IH]; intros i L; [cbn in L; lia|]. destruct i as [|i]; cbn [nth]; [auto|]. apply IH. cbn in L. lia.
  - rewrite exp_ln_unif by auto. reflexivity.
Qed.
Lemma exp_fold_plus : forall (h : nat -> R) l s, exp (fold_left (fun s i => s + h i) l s) = fold_left (fun s i => s * exp (h i)) l (exp s).
Proof. intros h l. induction l as [|i l IH]; intros s; cbn [fold_left]; [auto|]. rewrite IH, exp_plus. auto. Qed.
Lemma orb_prior_one : forall box : list (R * R), length box = 15%nat -> ordered box ->
  (forall i, In i [5; 6; 7; 13; 14]%nat -> 0 < fst (nth i box (0, 0))) ->
  box_int box (fun x => exp (@orb_log_prior RArith box x)) 1.
Proof.
  intros box L O P.
  apply (box_int_ext _ (prodf (map (orb_factor box) (seq 0 15)))).
  - intros x Hx. assert (Lx : length x = 15%nat) by (rewrite <- L; apply (in_box_length _ _ Hx)).
    unfold orb_log_prior. cbn [nadd RArith].
    change (prodf (map (orb_factor box) (seq 0 15)) x = exp (fold_left (fun s i => s + @orb_prior1 RArith box x i) (seq 1 14) (@orb_prior1 RArith box x 0))).
    rewrite exp_fold_plus.
    assert (E : forall i, (i < 15)%nat -> exp (@orb_prior1 RArith box x i) = orb_factor box i (nth i x 0)).
    { intros i Hi. apply orb_prior1_exp; auto; [lia|]. intros J. apply P. do 15 (destruct i as [|i]; [cbn in J; try discriminate J; cbn [In]; tauto|]). lia. }
    cbn [seq fold_left]. rewrite !E by lia. cbn [seq map].
    generalize (orb_factor box) as h. intros h. clear E P O Hx L box.
    do 15 (destruct x as [|? x]; [discriminate Lx|]). destruct x; [|discriminate Lx]. cbn [prodf nth]. ring.
  - replace 1 with (fold_right Rmult 1 (repeat 1 15)) by apply ones. apply box_int_prod; [|reflexivity].
    assert (K : forall i, (i < 15)%nat -> is_RInt (orb_factor box i) (fst (nth i box (0, 0))) (snd (nth i box (0, 0))) 1).
    { intros i Hi. assert (Hp : fst (nth i box (0, 0)) < snd (nth i box (0, 0))).
      { unfold ordered in O. rewrite List.Forall_forall in O. apply O. apply nth_In. lia. }
      unfold orb_factor. destruct (orb_jeff i) eqn:J.
      - apply jeff_int. split; [|auto]. apply P. do 15 (destruct i as [|i]; [cbn in J; try discriminate J; cbn [In]; tauto|]). lia.
      - apply unif_int. auto. }
    clear P O. revert K. generalize (orb_factor box) as h. intros h K. cbn [seq map repeat combine].
    do 15 (destruct box as [|? box]; [discriminate L|]). destruct box; [|discriminate L].
    repeat constructor.
    1: exact (K 0%nat ltac:(lia)). 1: exact (K 1%nat ltac:(lia)). 1: exact (K 2%nat ltac:(lia)). 1: exact (K 3%nat ltac:(lia)).
    1: exact (K 4%nat ltac:(lia)). 1: exact (K 5%nat ltac:(lia)). 1: exact (K 6%nat ltac:(lia)). 1: exact (K 7%nat ltac:(lia)).
    1: exact (K 8%nat ltac:(lia)). 1: exact (K 9%nat ltac:(lia)). 1: exact (K 10%nat ltac:(lia)). 1: exact (K 11%nat ltac:(lia)).
    1: exact (K 12%nat ltac:(lia)). 1: exact (K 13%nat ltac:(lia)). exact (K 14%nat ltac:(lia)).
Qed.
Lemma const_prior_mass : forall (ra rb : R * R) c, 
  box_int [ra; rb] (fun _ => exp c) (exp c * ((snd ra - fst ra) * (snd rb - fst rb))).
Proof.
  intros [la ha] [lb hb] c. cbn [box_int fst snd]. exists (fun _ => exp c * (hb - lb)). split.
  - intros v Hv. exists (fun _ => exp c). split; [intros; reflexivity|]. apply const_int.
  - replace (exp c * ((ha - la) * (hb - lb))) with (exp c * (hb - lb) * (ha - la)) by ring. apply const_int.
Qed.

(** *** hier_R *)
Definition lamf (p : R * R) : R -> R := fun u => 1 / (sqrt (exp u) * (exp (snd p) - exp (fst p))).
Definition lam_mass (p : R * R) : R := 2 * (exp (- fst p / 2) - exp (- snd p / 2)) / (exp (snd p) - exp (fst p)).
Definition normf (m s : R) : R -> R := fun v => 3989422804014327 / 10000000000000000 / s * exp (- (5 / 10) * ((v - m) / s) * ((v - m) / s)).
Lemma exp_half_sqrt : forall u, sqrt (exp u) = exp (u / 2).
Proof. intros u. apply sqrt_lem_1; [left; apply exp_pos|left; apply exp_pos|]. rewrite <- exp_plus. f_equal. field. Qed.
Lemma lam_diff : forall p : R * R, fst p < snd p -> 0 < exp (snd p) - exp (fst p).
Proof. intros p H. pose proof (exp_increasing _ _ H). lra. Qed.
Lemma exp_ln_lam : forall u (p : R * R), fst p < snd p -> exp (ln (@prior_lambda RArith (exp u) p)) = lamf p u.
Proof.
  intros u p H. unfold prior_lambda. cbn [nof ndiv nmul nsqrt nabs nlog nexp RArith].
  rewrite (Rabs_right (exp u)) by (left; apply exp_pos).
  assert (E : ln (exp (exp (snd p)) / exp (exp (fst p))) = exp (snd p) - exp (fst p)).
  { unfold Rdiv. rewrite <- exp_Ropp, <- exp_plus, ln_exp. ring. }
  rewrite exp_ln; [unfold lamf; rewrite <- E; reflexivity|].
  change (0 < 1 / (sqrt (exp u) * ln (exp (exp (snd p)) / exp (exp (fst p))))). rewrite E.
  apply Rdiv_lt_0_compat; [lra|]. apply Rmult_lt_0_compat; [apply sqrt_lt_R0; apply exp_pos|apply lam_diff; auto].
Qed.
Lemma lam_int : forall p : R * R, fst p < snd p -> is_RInt (lamf p) (fst p) (snd p) (lam_mass p).
Proof.
  intros p H. pose proof (lam_diff p H) as D. set (c := exp (snd p) - exp (fst p)) in *.
  assert (E : is_RInt (lamf p) (fst p) (snd p) (minus (-2 * exp (- snd p / 2) / c) (-2 * exp (- fst p / 2) / c))).
  { apply (is_RInt_ext (fun u => exp (- u / 2) / c)).
    - intros u _. unfold lamf. fold c. rewrite exp_half_sqrt. replace (- u / 2) with (- (u / 2)) by field. rewrite exp_Ropp. match goal with |- ?a = ?b => change (@eq R a b) end. field.
      split; [lra|]. pose proof (exp_pos (u / 2)). lra.
    - apply (is_RInt_derive (fun u => -2 * exp (- u / 2) / c) (fun u => exp (- u / 2) / c)).
      + intros u _. auto_derive; [auto|]. change (- u / 2) with (- u * / 2). field. lra.
      + intros u _. apply (ex_derive_continuous (fun u => exp (- u / 2) / c)). auto_derive. auto. }
  replace (lam_mass p) with (minus (-2 * exp (- snd p / 2) / c) (-2 * exp (- fst p / 2) / c)); [exact E|].
  unfold lam_mass, minus, plus, opp. fold c. cbn. field. lra.
Qed.
Lemma normf_cont : forall m s v, s <> 0 -> continuous (normf m s) v.
Proof. intros m s v H. apply (ex_derive_continuous (normf m s)). unfold normf. auto_derive. auto. Qed.
Lemma norm_int : forall m s lo hi, s <> 0 -> is_RInt (normf m s) lo hi (RInt (normf m s) lo hi).
Proof. intros. apply (RInt_correct (V := R_CompleteNormedModule)). apply (ex_RInt_continuous (V := R_CompleteNormedModule)). intros. apply normf_cont; auto. Qed.
Lemma normf_pos : forall m s v, 0 < s -> 0 < normf m s v.
Proof. intros. unfold normf. apply Rmult_lt_0_compat; [|apply exp_pos]. apply Rdiv_lt_0_compat; [lra|auto]. Qed.
Lemma normf_le : forall m s v, 0 < s -> normf m s v <= 3989422804014327 / 10000000000000000 / s.
Proof.
  intros m s v H. unfold normf. rewrite <- (Rmult_1_r (3989422804014327 / 10000000000000000 / s)) at 2. apply Rmult_le_compat_l.
  - left. apply Rdiv_lt_0_compat; [lra|auto].
  - rewrite <- exp_0. destruct (Req_dec ((v - m) / s) 0) as [E|E]; [rewrite E; right; f_equal; ring|].
    left. apply exp_increasing. set (a := (v - m) / s) in *. nra.
Qed.
Lemma exp_ln_norm : forall v m s, 0 < s -> exp (ln (@normal_pdf RArith v m s)) = normf m s v.
Proof.
  intros v m s H. rewrite exp_ln; [reflexivity|]. change (0 < normf m s v). apply normf_pos. auto.
Qed.
Lemma hier_prior_mass : forall m s (p0 p1 p2 p3 p4 p5 : R * R), 0 < s -> ordered [p0; p1; p2; p3; p4; p5] ->
  box_int [p0; p1; p2; p3; p4; p5] (fun x => exp (@hier_log_prior RArith m s [p0; p1; p2; p3; p4; p5] x))
          (RInt (normf m s) (fst p0) (snd p0) * (lam_mass p2 * (lam_mass p3 * lam_mass p4))).
Proof.
  intros m s p0 p1 p2 p3 p4 p5 S O.
  assert (K : forall p, In p [p0; p1; p2; p3; p4; p5] -> fst p < snd p) by (apply List.Forall_forall; auto).
  apply (box_int_ext _ (prodf [normf m s; unif p1; lamf p2; lamf p3; lamf p4; unif p5])).
  - intros x Hx. unfold in_box in Hx. inversion Hx as [|? x0 ? ? _ X0]; subst.
    inversion X0 as [|? x1 ? ? _ X1]; subst. inversion X1 as [|? x2 ? ? _ X2]; subst. inversion X2 as [|? x3 ? ? _ X3]; subst.
    inversion X3 as [|? x4 ? ? _ X4]; subst. inversion X4 as [|? x5 ? ? _ X5]; subst. inversion X5; subst.
    unfold hier_log_prior. cbn [nlog nadd nexp RArith xi nth prodf]. rewrite !exp_plus, !exp_ln_unif by (apply K; cbn [In]; tauto).
    rewrite exp_ln_norm by auto. rewrite !exp_ln_lam by (apply K; cbn [In]; tauto). unfold unif. ring.
  - replace (RInt (normf m s) (fst p0) (snd p0) * (lam_mass p2 * (lam_mass p3 * lam_mass p4)))
      with (fold_right Rmult 1 [RInt (normf m s) (fst p0) (snd p0); 1; lam_mass p2; lam_mass p3; lam_mass p4; 1]) by (cbn [fold_right]; ring).
    apply box_int_prod; [|reflexivity].
    assert (O0 : s <> 0) by lra.
    repeat constructor; cbn [fst snd].
    + apply norm_int. auto.
    + apply unif_int. apply K. cbn [In]; tauto.
    + apply lam_int. apply K. cbn [In]; tauto.
    + apply lam_int. apply K. cbn [In]; tauto.
    + apply lam_int. apply K. cbn [In]; tauto.
    + apply unif_int. apply K. cbn [In]; tauto.
Qed.
(** the ranges of hier_R/input.ini:68-88 *)
Definition hier_box : list (R * R) := [(-4, 7); (-20, 4); (-12, 4); (-7, 6); (-7, 6); (-8, 20)].
Lemma exp1_ge : 244 / 100 <= exp 1.
Proof.
  pose proof (exp_ineq1_le (1 / 4)) as H. replace (exp 1) with (exp (1 / 4) * exp (1 / 4) * (exp (1 / 4) * exp (1 / 4))).
  - assert (5 / 4 * (5 / 4) <= exp (1 / 4) * exp (1 / 4)) by nra. nra.
  - rewrite <- !exp_plus. f_equal. field.
Qed.
Lemma exp_mono_div : forall a b c, 0 <= a -> a <= b -> 0 < c -> a / c <= b / c.
Proof. intros. apply Rmult_le_compat_r; [left; apply Rinv_0_lt_compat; auto|auto]. Qed.
Lemma lam2_small : 0 <= lam_mass (-12, 4) <= 70 / 34 * exp 2.
Proof.
  pose proof exp1_ge as E.
  assert (E2 : exp 2 = exp 1 * exp 1) by (rewrite <- exp_plus; f_equal; lra).
  assert (E4 : exp 4 = exp 2 * exp 2) by (rewrite <- exp_plus; f_equal; lra).
  assert (E6 : exp 6 = exp 4 * exp 2) by (rewrite <- exp_plus; f_equal; lra).
  assert (B2 : 595 / 100 <= exp 2) by nra. assert (B4 : 35 <= exp 4) by nra.
  assert (B12 : exp (-12) <= 1) by (rewrite <- exp_0; left; apply exp_increasing; lra).
  assert (P12 : 0 < exp (-12)) by apply exp_pos. assert (P2 : 0 < exp (-2)) by apply exp_pos.
  assert (B2' : exp (-2) <= 1) by (rewrite <- exp_0; left; apply exp_increasing; lra).
  unfold lam_mass. cbn [fst snd]. replace (- -12 / 2) with 6 by field. replace (- (4) / 2) with (-2) by field.
  split.
  - apply Rmult_le_pos; [nra|]. left. apply Rinv_0_lt_compat. lra.
  - apply (Rmult_le_reg_r (exp 4 - exp (-12))); [lra|].
    replace (2 * (exp 6 - exp (-2)) / (exp 4 - exp (-12)) * (exp 4 - exp (-12))) with (2 * (exp 6 - exp (-2))) by (field; lra).
    rewrite E6. assert (exp 4 * exp 2 * (34 / 35) <= exp 2 * (exp 4 - exp (-12))) by nra. nra.
Qed.
Lemma lam3_small : 0 <= lam_mass (-7, 6) <= 400 / 199 * exp (- (5 / 2)).
Proof.
  pose proof exp1_ge as E.
  assert (E2 : exp 2 = exp 1 * exp 1) by (rewrite <- exp_plus; f_equal; lra).
  assert (E4 : exp 4 = exp 2 * exp 2) by (rewrite <- exp_plus; f_equal; lra).
  assert (E6 : exp 6 = exp 4 * exp 2) by (rewrite <- exp_plus; f_equal; lra).
  assert (B2 : 595 / 100 <= exp 2) by nra. assert (B4 : 35 <= exp 4) by nra. assert (B6 : 200 <= exp 6) by nra.
  assert (B7 : exp (-7) <= 1) by (rewrite <- exp_0; left; apply exp_increasing; lra).
  assert (P7 : 0 < exp (-7)) by apply exp_pos. assert (P3 : 0 < exp (-3)) by apply exp_pos.
  assert (Q : exp (7 / 2) = exp 6 * exp (- (5 / 2))) by (rewrite <- exp_plus; f_equal; lra).
  assert (M : exp (-3) <= exp (7 / 2)) by (left; apply exp_increasing; lra).
  unfold lam_mass. cbn [fst snd]. replace (- -7 / 2) with (7 / 2) by field. replace (- (6) / 2) with (-3) by field.
  split.
  - apply Rmult_le_pos; [lra|]. left. apply Rinv_0_lt_compat. lra.
  - apply (Rmult_le_reg_r (exp 6 - exp (-7))); [lra|].
    replace (2 * (exp (7 / 2) - exp (-3)) / (exp 6 - exp (-7)) * (exp 6 - exp (-7))) with (2 * (exp (7 / 2) - exp (-3))) by (field; lra).
    rewrite Q. pose proof (exp_pos (- (5 / 2))). assert (exp 6 * exp (- (5 / 2)) * (199 / 200) <= exp (- (5 / 2)) * (exp 6 - exp (-7))) by nra. nra.
Qed.
Lemma norm_small : 0 <= RInt (normf 3 3) (-4) 7 <= 14630 / 10000.
Proof.
  split.
  - apply RInt_ge_0; [lra| |].
    + eexists. apply (norm_int 3 3 (-4) 7). lra.
    + intros v _. left. apply normf_pos. lra.
  - apply Rle_trans with (RInt (fun _ => 3989422804014327 / 10000000000000000 / 3) (-4) 7).
    + apply RInt_le; [lra| | |].
      * eexists. apply (norm_int 3 3 (-4) 7). lra.
      * eexists. apply const_int.
      * intros v _. apply normf_le. lra.
    + rewrite (is_RInt_unique _ _ _ _ (const_int (-4) 7 _)). lra.
Qed.
Lemma hier_mass_small : RInt (normf 3 3) (-4) 7 * (lam_mass (-12, 4) * (lam_mass (-7, 6) * lam_mass (-7, 6))) < 1.
Proof.
  pose proof lam2_small as [A1 A2]. pose proof lam3_small as [B1 B2]. pose proof norm_small as [N1 N2].
  pose proof exp1_ge as E.
  assert (E3 : exp 2 * (exp (- (5 / 2)) * exp (- (5 / 2))) * (exp 1 * exp 1 * exp 1) = 1).
  { rewrite <- !exp_plus. replace (2 + (- (5 / 2) + - (5 / 2)) + (1 + 1 + 1)) with 0 by field. apply exp_0. }
  assert (Z : exp 2 * (exp (- (5 / 2)) * exp (- (5 / 2))) <= 1 / (1452 / 100)).
  { apply (Rmult_le_reg_r (exp 1 * exp 1 * exp 1)); [assert (0 < exp 1 * exp 1) by nra; nra|]. rewrite E3. 
    assert (1452 / 100 <= exp 1 * exp 1 * exp 1) by (assert (244 / 100 * (244 / 100) <= exp 1 * exp 1) by nra; nra). lra. }
  pose proof (exp_pos 2). pose proof (exp_pos (- (5 / 2))).
  assert (S1 : lam_mass (-7, 6) * lam_mass (-7, 6) <= (400 / 199 * exp (- (5 / 2))) * (400 / 199 * exp (- (5 / 2)))) by (apply Rmult_le_compat; lra).
  assert (S0 : 0 <= lam_mass (-7, 6) * lam_mass (-7, 6)) by nra.
  assert (S2 : lam_mass (-12, 4) * (lam_mass (-7, 6) * lam_mass (-7, 6)) <= 70 / 34 * exp 2 * ((400 / 199 * exp (- (5 / 2))) * (400 / 199 * exp (- (5 / 2))))) by (apply Rmult_le_compat; lra).
  assert (S3 : 70 / 34 * exp 2 * ((400 / 199 * exp (- (5 / 2))) * (400 / 199 * exp (- (5 / 2)))) <= 574 / 1000).
  { replace (70 / 34 * exp 2 * ((400 / 199 * exp (- (5 / 2))) * (400 / 199 * exp (- (5 / 2))))) with (70 / 34 * (400 / 199 * (400 / 199)) * (exp 2 * (exp (- (5 / 2)) * exp (- (5 / 2))))) by ring. lra. }
  assert (0 <= lam_mass (-12, 4) * (lam_mass (-7, 6) * lam_mass (-7, 6))) by (apply Rmult_le_pos; auto).
  assert (RInt (normf 3 3) (-4) 7 * (lam_mass (-12, 4) * (lam_mass (-7, 6) * lam_mass (-7, 6))) <= 14630 / 10000 * (574 / 1000)) by (apply Rmult_le_compat; lra).
  lra.
Qed.
