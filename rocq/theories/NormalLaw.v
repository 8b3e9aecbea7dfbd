(** The Gaussian integral, and the law of the Box-Muller transform. *)
From Coq Require Import Reals Lra Lia.
From Coquelicot Require Import Coquelicot.
Open Scope R_scope.

Lemma ex_RInt_c : forall (f : R -> R) a b, (forall s, continuous f s) -> ex_RInt f a b.
Proof. intros. apply (ex_RInt_continuous (V := R_CompleteNormedModule)). auto. Qed.

Lemma scal_c : forall k (f : R -> R) a b, (forall s, continuous f s) -> RInt (fun x => k * f x) a b = k * RInt f a b.
Proof. intros k f a b H. apply (RInt_scal (V := R_CompleteNormedModule) f a b k). apply ex_RInt_c, H. Qed.
Lemma minus_c : forall (f g : R -> R) a b, (forall s, continuous f s) -> (forall s, continuous g s) ->
  RInt (fun x => f x - g x) a b = RInt f a b - RInt g a b.
Proof. intros f g a b H K. apply (RInt_minus (V := R_CompleteNormedModule) f g a b); apply ex_RInt_c; auto. Qed.
Lemma lin_c : forall (f : R -> R) u a b, (forall s, continuous f s) -> RInt (fun x => u * f (u * x)) a b = RInt f (u * a) (u * b).
Proof.
  intros f u a b H. pose proof (RInt_comp_lin (V := R_CompleteNormedModule) f u 0 a b (ex_RInt_c f _ _ H)) as K. rewrite !Rplus_0_r in K. rewrite <- K.
  apply RInt_ext. intros x _. rewrite Rplus_0_r. reflexivity.
Qed.
Lemma cont_lin : forall (f : R -> R) u s, (forall s, continuous f s) -> continuous (fun x => f (u * x)) s.
Proof. intros f u s H. apply (continuous_comp (fun x => u * x) f); auto. apply (ex_derive_continuous (fun x => u * x)). auto_derive. auto. Qed.
Lemma cont_scal : forall (f : R -> R) k s, continuous f s -> continuous (fun x => k * f x) s.
Proof. intros f k s H. apply (continuous_scal_r k f). exact H. Qed.
Lemma cont_minus : forall (f g : R -> R) s, continuous f s -> continuous g s -> continuous (fun x => f x - g x) s.
Proof. intros f g s H K. apply (continuous_minus f g); auto. Qed.

Definition gauss (s : R) : R := exp (- (s * s) / 2).
Definition E (x : R) : R := RInt gauss 0 x.
Lemma gauss_cont : forall s, continuous gauss s.
Proof. intros s. apply (ex_derive_continuous gauss). unfold gauss. auto_derive. auto. Qed.
Lemma gauss_pos : forall s, 0 < gauss s.
Proof. intros. apply exp_pos. Qed.
Lemma gauss_le1 : forall s, gauss s <= 1.
Proof. intros. unfold gauss. rewrite <- exp_0. destruct (Req_dec (s * s) 0) as [K|K]; [rewrite K; right; f_equal; lra|]. left. apply exp_increasing. pose proof (Rle_0_sqr s) as H. unfold Rsqr in H. lra. Qed.
Lemma E_derive : forall x, is_derive E x (gauss x).
Proof.
  intros x. unfold E. apply (is_derive_RInt gauss (fun x => RInt gauss 0 x) 0 x); [|apply gauss_cont].
  exists (mkposreal 1 Rlt_0_1). intros y _. apply (RInt_correct gauss). apply ex_RInt_c, gauss_cont.
Qed.
Lemma E_cont : forall x, continuous E x.
Proof. intros x. apply (ex_derive_continuous E). exists (gauss x). apply E_derive. Qed.
Lemma E_0 : E 0 = 0.
Proof. apply (RInt_point (V := R_CompleteNormedModule)). Qed.
Lemma E_ge0 : forall x, 0 <= x -> 0 <= E x.
Proof. intros x Hx. apply RInt_ge_0; auto; [apply ex_RInt_c, gauss_cont|]. intros y _. left; apply gauss_pos. Qed.

(** the kernel exp(-t^2 (1 + w^2) / 2) / (1 + w^2) and its derivative in t *)
Definition ker (t w : R) : R := exp (- (t * t) * (1 + w * w) / 2) / (1 + w * w).
Lemma den_pos : forall w : R, 0 < 1 + w * w.
Proof. intros w. pose proof (Rle_0_sqr w) as H. unfold Rsqr in H. lra. Qed.
Lemma ker_derive : forall t w, is_derive (fun t => ker t w) t (- t * exp (- (t * t) * (1 + w * w) / 2)).
Proof. intros t w. pose proof (den_pos w). unfold ker. auto_derive; [lra|]. unfold Rdiv. field. lra. Qed.
Lemma ker_cont : forall t w, continuous (fun w => ker t w) w.
Proof. intros t w. apply (ex_derive_continuous (fun w => ker t w)). unfold ker. auto_derive. pose proof (den_pos w). lra. Qed.
Lemma ker_range : forall t w, 0 < ker t w <= 1.
Proof.
  intros t w. pose proof (den_pos w) as D. assert (P : 0 < exp (- (t * t) * (1 + w * w) / 2)) by apply exp_pos. unfold ker. split; [apply Rdiv_lt_0_compat; auto|].
  apply Rmult_le_reg_r with (1 + w * w); auto. unfold Rdiv at 1. rewrite Rmult_assoc, Rinv_l, Rmult_1_r, Rmult_1_l by lra.
  assert (K : exp (- (t * t) * (1 + w * w) / 2) <= 1).
  { apply Rle_trans with (exp 0); [|rewrite exp_0; lra]. assert (Q : - (t * t) * (1 + w * w) / 2 <= 0). { pose proof (Rle_0_sqr t) as H. unfold Rsqr in H. pose proof (Rmult_le_pos _ _ H (Rlt_le _ _ D)). lra. }
    destruct Q as [Q|Q]; [left; apply exp_increasing; auto|rewrite Q; lra]. }
  pose proof (Rle_0_sqr w) as H. unfold Rsqr in H. lra.
Qed.

Lemma c2_exp : forall t w, continuity_2d_pt (fun u v => - u * exp (- (u * u) * (1 + v * v) / 2)) t w.
Proof.
  intros t w. apply continuity_2d_pt_mult.
  - apply (continuity_2d_pt_opp (fun u v => u)). apply continuity_2d_pt_id1.
  - apply (continuity_1d_2d_pt_comp exp (fun u v => - (u * u) * (1 + v * v) / 2)); [apply derivable_continuous_pt, derivable_pt_exp|].
    apply (continuity_2d_pt_mult (fun u v => - (u * u) * (1 + v * v)) (fun _ _ => / 2)); [|apply continuity_2d_pt_const].
    apply (continuity_2d_pt_mult (fun u v => - (u * u)) (fun u v => 1 + v * v)).
    + apply (continuity_2d_pt_opp (fun u v => u * u)). apply (continuity_2d_pt_mult (fun u v => u) (fun u v => u)); apply continuity_2d_pt_id1.
    + apply (continuity_2d_pt_plus (fun _ _ => 1) (fun u v => v * v)); [apply continuity_2d_pt_const|].
      apply (continuity_2d_pt_mult (fun u v => v) (fun u v => v)); apply continuity_2d_pt_id2.
Qed.
Definition Q (W t : R) : R := RInt (fun w => ker t w) 0 W.
Lemma Q_derive : forall W t, is_derive (Q W) t (- gauss t * E (t * W)).
Proof.
  intros W t.
  assert (D : is_derive (Q W) t (RInt (fun w => Derive (fun u => ker u w) t) 0 W)).
  { apply (is_derive_RInt_param ker 0 W t).
    - exists (mkposreal 1 Rlt_0_1). intros y _ w _. exists (- y * exp (- (y * y) * (1 + w * w) / 2)). apply ker_derive.
    - intros w _. apply (continuity_2d_pt_ext (fun u v => - u * exp (- (u * u) * (1 + v * v) / 2))); [|apply c2_exp].
      intros x y. symmetry. apply is_derive_unique, ker_derive.
    - exists (mkposreal 1 Rlt_0_1). intros y _. apply ex_RInt_c. intros s. apply ker_cont. }
  replace (- gauss t * E (t * W)) with (RInt (fun w => Derive (fun u => ker u w) t) 0 W); [exact D|].
  rewrite (RInt_ext _ (fun w => - gauss t * (t * gauss (t * w)))).
  - rewrite (scal_c (- gauss t) (fun w => t * gauss (t * w))) by (intros s; apply cont_scal, cont_lin, gauss_cont).
    rewrite (lin_c gauss t) by apply gauss_cont. unfold E. rewrite Rmult_0_r. reflexivity.
  - intros w _. refine (eq_trans (is_derive_unique _ _ _ (ker_derive t w)) _). unfold gauss.
    replace (- (t * t) * (1 + w * w) / 2) with (- (t * t) / 2 + - (t * w * (t * w)) / 2) by field. rewrite exp_plus. ring.
Qed.
Lemma Q_0 : forall W, Q W 0 = atan W.
Proof.
  intros W. unfold Q. rewrite (RInt_ext _ (fun w => / (1 + w ^ 2))).
  - replace (atan W) with (atan W - atan 0) by (rewrite atan_0; ring). apply is_RInt_unique.
    apply (is_RInt_derive (V := R_CompleteNormedModule) atan).
    + intros x _. apply is_derive_Reals. apply derivable_pt_lim_atan.
    + intros x _. apply (ex_derive_continuous (fun w => / (1 + w ^ 2))). auto_derive. pose proof (den_pos x). nra.
  - intros w _. unfold ker. replace (- (0 * 0) * (1 + w * w) / 2) with 0 by field. rewrite exp_0. unfold Rdiv. rewrite Rmult_1_l. f_equal. ring.
Qed.
Lemma const_of_derive0 : forall (f : R -> R), (forall x, is_derive f x 0) -> forall a b, f a = f b.
Proof.
  intros f H a b. destruct (Req_dec a b) as [->|N]; auto.
  destruct (MVT_gen f a b (fun _ => 0)) as [c [_ K]].
  - intros x _. apply H.
  - intros x _. apply derivable_continuous_pt. exists 0. apply is_derive_Reals, H.
  - lra.
Qed.
(** the square of the integral *)
Lemma E_square : forall t, E t * E t = PI / 2 - 2 * Q 1 t.
Proof.
  intros t. assert (K : E t * E t + 2 * Q 1 t = E 0 * E 0 + 2 * Q 1 0).
  { apply (const_of_derive0 (fun t => E t * E t + 2 * Q 1 t)). intros x.
    replace 0 with (plus (plus (mult (gauss x) (E x)) (mult (E x) (gauss x))) (scal 2 (- gauss x * E (x * 1)))) by (rewrite Rmult_1_r; unfold plus, mult, scal; cbn; unfold mult; cbn; ring).
    apply (is_derive_plus (fun t => E t * E t) (fun t => 2 * Q 1 t)).
    - apply (is_derive_mult (K := R_AbsRing) E E); [apply E_derive|apply E_derive|]. intros n m. apply Rmult_comm.
    - apply (is_derive_scal (Q 1)). apply Q_derive. }
  rewrite E_0, Q_0, atan_1 in K. lra.
Qed.
Lemma Q_small : forall W t, 0 <= W -> 0 <= Q W t <= W * gauss t.
Proof.
  intros W t HW. assert (X : ex_RInt (fun w => ker t w) 0 W) by (apply ex_RInt_c; intros s; apply ker_cont). split.
  - apply RInt_ge_0; auto. intros x _. left. apply ker_range.
  - replace (W * gauss t) with (RInt (fun _ => gauss t) 0 W).
    + apply RInt_le; auto; [apply ex_RInt_const|]. intros w _. unfold ker, gauss. pose proof (den_pos w) as D.
      apply Rmult_le_reg_r with (1 + w * w); auto. unfold Rdiv at 1. rewrite Rmult_assoc, Rinv_l, Rmult_1_r by lra.
      replace (- (t * t) * (1 + w * w) / 2) with (- (t * t) / 2 + - (t * w * (t * w)) / 2) by field. rewrite exp_plus.
      apply Rmult_le_compat_l; [left; apply exp_pos|]. pose proof (gauss_le1 (t * w)) as G. unfold gauss in G. pose proof (Rle_0_sqr w) as H. unfold Rsqr in H. lra.
    + rewrite RInt_const. unfold scal. cbn. unfold mult. cbn. ring.
Qed.
(** sqrt (PI / 2) *)
Definition I0 : R := sqrt (PI / 2).
Lemma I0_pos : 0 < I0.
Proof. apply sqrt_lt_R0. pose proof PI_RGT_0. lra. Qed.
Lemma I0_sq : I0 * I0 = PI / 2.
Proof. apply sqrt_sqrt. pose proof PI_RGT_0. lra. Qed.
Lemma E_tail : forall x, 0 <= x -> 0 <= I0 - E x <= 2 / I0 * gauss x.
Proof.
  intros x Hx. pose proof (E_square x) as S. destruct (Q_small 1 x ltac:(lra)) as [Q0 Q1]. pose proof I0_pos as P. pose proof I0_sq as SQ.
  pose proof (E_ge0 x Hx) as G. assert (F : (I0 - E x) * (I0 + E x) = 2 * Q 1 x) by (ring_simplify; nra).
  split.
  - apply Rmult_le_reg_r with (I0 + E x); [lra|]. rewrite Rmult_0_l, F. lra.
  - apply Rmult_le_reg_r with (I0 + E x); [lra|]. rewrite F. replace (2 / I0 * gauss x * (I0 + E x)) with (2 * gauss x + 2 * gauss x * (E x / I0)) by (field; lra).
    assert (0 <= gauss x * (E x / I0)); [|lra]. apply Rmult_le_pos; [left; apply gauss_pos|]. apply Rmult_le_pos; auto. left. apply Rinv_0_lt_compat; auto.
Qed.
(** the half line has integral sqrt (PI / 2) *)
Lemma E_le : forall x, 0 <= x -> E x <= I0.
Proof. intros x Hx. destruct (E_tail x Hx). lra. Qed.

Lemma gE_cont : forall W s, continuous (fun r => gauss r * E (W * r)) s.
Proof. intros W s. apply (continuous_mult gauss (fun r => E (W * r))); [apply gauss_cont|]. apply cont_lin, E_cont. Qed.
Lemma Q_int : forall W t, Q W t = atan W - RInt (fun r => gauss r * E (W * r)) 0 t.
Proof.
  intros W t. assert (K : is_RInt (fun r => -1 * (gauss r * E (W * r))) 0 t (minus (Q W t) (Q W 0))).
  { apply (is_RInt_derive (V := R_CompleteNormedModule) (Q W)); [|intros x _; apply cont_scal, gE_cont].
    intros x _. replace (-1 * (gauss x * E (W * x))) with (- gauss x * E (x * W)) by (rewrite (Rmult_comm x W); ring). apply Q_derive. }
  apply (is_RInt_unique (V := R_CompleteNormedModule)) in K. rewrite Q_0, scal_c in K by apply gE_cont. assert (K' : -1 * RInt (fun r => gauss r * E (W * r)) 0 t = Q W t - atan W) by exact K. lra.
Qed.
(** close to PI / 2 - I0 E t for large W *)
Lemma Q_limit : forall W t, 0 < W -> 0 <= t -> Rabs (Q W t - (PI / 2 - I0 * E t)) <= Rabs (PI / 2 - atan W) + 2 / W.
Proof.
  intros W t HW Ht. rewrite Q_int. pose proof I0_pos as P.
  assert (C2 : forall s, continuous (fun r => I0 * gauss r) s) by (intros s; apply cont_scal, gauss_cont).
  assert (C3 : forall s, continuous (fun r => I0 * gauss r - gauss r * E (W * r)) s) by (intros s; apply cont_minus; [apply C2|apply gE_cont]).
  assert (C4 : forall s, continuous (fun r => W * gauss (W * r)) s) by (intros s; apply cont_scal, cont_lin, gauss_cont).
  assert (D : 0 <= I0 * E t - RInt (fun r => gauss r * E (W * r)) 0 t <= 2 / W).
  { unfold E at 1 3. rewrite <- (scal_c I0 gauss) by apply gauss_cont. rewrite <- minus_c by (auto; apply gE_cont).
    split.
    - apply RInt_ge_0; auto; [apply ex_RInt_c, C3|]. intros r Hr. destruct (E_tail (W * r) ltac:(apply Rmult_le_pos; lra)) as [T _].
      replace (I0 * gauss r - gauss r * E (W * r)) with (gauss r * (I0 - E (W * r))) by ring. apply Rmult_le_pos; auto. left; apply gauss_pos.
    - apply Rle_trans with (RInt (fun r => 2 / I0 / W * (W * gauss (W * r))) 0 t).
      + apply RInt_le; auto; [apply ex_RInt_c, C3|apply ex_RInt_c; intros s; apply cont_scal, C4|]. intros r Hr.
        destruct (E_tail (W * r) ltac:(apply Rmult_le_pos; lra)) as [_ T].
        replace (I0 * gauss r - gauss r * E (W * r)) with (gauss r * (I0 - E (W * r))) by ring.
        replace (2 / I0 / W * (W * gauss (W * r))) with (2 / I0 * gauss (W * r)) by (field; lra).
        apply Rle_trans with (gauss r * (2 / I0 * gauss (W * r))); [apply Rmult_le_compat_l; auto; left; apply gauss_pos|].
        rewrite <- (Rmult_1_l (2 / I0 * gauss (W * r))) at 2. apply Rmult_le_compat_r; [|apply gauss_le1].
        apply Rmult_le_pos; [|left; apply gauss_pos]. left. apply Rdiv_lt_0_compat; lra.
      + rewrite (scal_c (2 / I0 / W) (fun r => W * gauss (W * r))) by apply C4. rewrite (lin_c gauss W) by apply gauss_cont. rewrite Rmult_0_r.
        change (RInt gauss 0 (W * t)) with (E (W * t)). pose proof (E_le (W * t) ltac:(apply Rmult_le_pos; lra)) as L.
        apply Rle_trans with (2 / I0 / W * I0); [|right; field; lra]. apply Rmult_le_compat_l; auto.
        left. apply Rdiv_lt_0_compat; auto. apply Rdiv_lt_0_compat; lra. }
  replace (atan W - RInt (fun r => gauss r * E (W * r)) 0 t - (PI / 2 - I0 * E t)) with ((atan W - PI / 2) + (I0 * E t - RInt (fun r => gauss r * E (W * r)) 0 t)) by ring.
  eapply Rle_trans; [apply Rabs_triang|]. rewrite Rabs_minus_sym. apply Rplus_le_compat_l. rewrite Rabs_pos_eq; lra.
Qed.

(** ** the angle *)
(** For a direction with cosine c the radius must exceed t / c: the length of the interval of first uniforms that do it. *)
Definition over (t c : R) : R := if Rlt_dec 0 c then exp (- (t * t) / (2 * (c * c))) else 0.
Lemma over_range : forall t c, 0 <= over t c <= 1.
Proof.
  intros t c. unfold over. destruct (Rlt_dec 0 c) as [H|H]; [|lra]. split; [left; apply exp_pos|]. rewrite <- exp_0.
  assert (K : - (t * t) / (2 * (c * c)) <= 0).
  { pose proof (Rle_0_sqr t) as S. unfold Rsqr in S. assert (0 < c * c) by (apply Rmult_lt_0_compat; auto).
    assert (0 <= t * t * / (2 * (c * c))) by (apply Rmult_le_pos; [auto|left; apply Rinv_0_lt_compat; lra]). unfold Rdiv. lra. }
  destruct K as [K|K]; [left; apply exp_increasing; auto|rewrite K; lra].
Qed.
Lemma over_cont : forall t c, t <> 0 -> continuous (over t) c.
Proof.
  intros t c Ht. destruct (Rtotal_order c 0) as [H|[H|H]].
  - apply (continuous_ext_loc _ (fun _ => 0)); [|apply continuous_const].
    exists (mkposreal (- c) ltac:(lra)). intros y Hy. unfold ball in Hy. cbn in Hy. unfold AbsRing_ball, abs, minus, plus, opp in Hy. cbn in Hy.
    apply Rabs_lt_between in Hy. unfold over. destruct (Rlt_dec 0 y); auto. lra.
  - subst c. intros P [eps HP]. unfold over at 1 in HP. destruct (Rlt_dec 0 0) as [K|_]; [lra|].
    assert (T2 : 0 < t * t) by (pose proof (Rsqr_pos_lt t Ht) as S; exact S).
    assert (D : 0 < Rmin 1 (eps * (t * t) / 2)) by (apply Rmin_pos; [lra|]; apply Rdiv_lt_0_compat; [apply Rmult_lt_0_compat; [apply eps|auto]|lra]).
    exists (mkposreal _ D). intros y Hy. apply HP. unfold ball in *. cbn in *. unfold AbsRing_ball, abs, minus, plus, opp in *. cbn in *.
    rewrite Ropp_0, Rplus_0_r in *. destruct (over_range t y) as [O1 _]. rewrite Rabs_pos_eq by auto. unfold over in *. destruct (Rlt_dec 0 y) as [K|K]; [|apply eps].
    rewrite Rabs_pos_eq in Hy by lra. pose proof (Rmin_l 1 (eps * (t * t) / 2)) as M1. pose proof (Rmin_r 1 (eps * (t * t) / 2)) as M2.
    set (z := t * t / (2 * (y * y))). assert (Y2 : 0 < y * y) by (apply Rmult_lt_0_compat; auto).
    assert (Z : 0 < z) by (apply Rdiv_lt_0_compat; lra).
    replace (- (t * t) / (2 * (y * y))) with (- z) by (unfold z; field; lra). rewrite exp_Ropp.
    assert (G : z < exp z) by (pose proof (exp_ineq1 z); lra).
    apply Rle_lt_trans with (/ z); [left; apply Rinv_lt_contravar; [apply Rmult_lt_0_compat; [auto|apply exp_pos]|auto]|].
    unfold z. replace (/ (t * t / (2 * (y * y)))) with (y * (y * (2 / (t * t)))) by (field; lra).
    apply Rle_lt_trans with (1 * (y * (2 / (t * t)))).
    + apply Rmult_le_compat_r; [|lra]. apply Rmult_le_pos; [lra|]. left. apply Rdiv_lt_0_compat; lra.
    + rewrite Rmult_1_l. apply Rlt_le_trans with (eps * (t * t) / 2 * (2 / (t * t))); [|right; field; lra].
      apply Rmult_lt_compat_r; [apply Rdiv_lt_0_compat; lra|lra].
  - apply (continuous_ext_loc _ (fun c => exp (- (t * t) / (2 * (c * c))))).
    + exists (mkposreal c H). intros y Hy. unfold ball in Hy. cbn in Hy. unfold AbsRing_ball, abs, minus, plus, opp in Hy. cbn in Hy.
      apply Rabs_lt_between in Hy. unfold over. destruct (Rlt_dec 0 y); auto. lra.
    + apply (ex_derive_continuous (fun c => exp (- (t * t) / (2 * (c * c))))). auto_derive. assert (0 < c * c) by (apply Rmult_lt_0_compat; auto). lra.
Qed.
Lemma cos_cont : forall s, continuous cos s.
Proof. intros s. apply (ex_derive_continuous cos). auto_derive. auto. Qed.
Lemma h_cont : forall t, t <> 0 -> forall s, continuous (fun th : R => over t (cos th)) s.
Proof. intros t Ht s. apply (continuous_comp cos (over t)); [apply cos_cont|apply over_cont; auto]. Qed.

Lemma Q_angle : forall t W, t <> 0 -> 0 < W -> Q W t = RInt (fun th => over t (cos th)) 0 (atan W).
Proof.
  intros t W Ht HW. rewrite <- atan_0. unfold Q.
  rewrite <- (RInt_comp (V := R_CompleteNormedModule) (fun th => over t (cos th)) atan (fun w => / (1 + w ^ 2)) 0 W).
  - apply RInt_ext. intros w _. unfold scal. cbn. unfold mult. cbn. rewrite cos_atan. unfold ker, over.
    pose proof (den_pos w) as D. assert (D' : 0 < sqrt (1 + w²)) by (apply sqrt_lt_R0; exact D).
    assert (P : 0 < 1 / sqrt (1 + w²)) by (apply Rdiv_lt_0_compat; lra).
    destruct (Rlt_dec 0 (1 / sqrt (1 + w²))) as [K|K]; [|lra].
    replace (1 / sqrt (1 + w²) * (1 / sqrt (1 + w²))) with (/ (1 + w * w)).
    + replace (- (t * t) / (2 * / (1 + w * w))) with (- (t * t) * (1 + w * w) / 2) by (field; lra). unfold Rdiv. rewrite Rmult_1_r. apply Rmult_comm.
    + assert (SS : sqrt (1 + w²) * sqrt (1 + w²) = 1 + w * w) by (apply sqrt_sqrt; left; exact D).
      rewrite <- SS. field. lra.
  - intros w _. apply h_cont; auto.
  - intros w _. split; [apply is_derive_Reals, derivable_pt_lim_atan|]. apply (ex_derive_continuous (fun w => / (1 + w ^ 2))). auto_derive.
    pose proof (den_pos w). nra.
Qed.
Lemma RInt_01 : forall (f : R -> R) a b, a <= b -> (forall s, continuous f s) -> (forall s, 0 <= f s <= 1) -> 0 <= RInt f a b <= b - a.
Proof.
  intros f a b Hab C F. split.
  - apply RInt_ge_0; auto; [apply ex_RInt_c; auto|]. intros; apply F.
  - replace (b - a) with (RInt (fun _ => 1) a b) by (rewrite RInt_const; unfold scal; cbn; unfold mult; cbn; ring).
    apply RInt_le; auto; [apply ex_RInt_c; auto|apply ex_RInt_const|]. intros; apply F.
Qed.
Lemma chasles : forall (f : R -> R) a b c, (forall s, continuous f s) -> RInt f a b + RInt f b c = RInt f a c.
Proof. intros f a b c H. apply (RInt_Chasles (V := R_CompleteNormedModule) f a b c); apply ex_RInt_c; auto. Qed.
(** the quarter circle *)
Lemma quarter : forall t, 0 < t -> RInt (fun th => over t (cos th)) 0 (PI / 2) = PI / 2 - I0 * E t.
Proof.
  intros t Ht. assert (C := h_cont t ltac:(lra)). set (x := RInt _ _ _). set (y := PI / 2 - I0 * E t).
  assert (B : forall W, 0 < W -> Rabs (x - y) <= 4 / W).
  { intros W HW. unfold x. rewrite <- (chasles _ 0 (atan W) (PI / 2) C), <- Q_angle by (auto; lra).
    pose proof (Q_limit W t HW ltac:(lra)) as L. fold y in L.
    assert (A : 0 <= PI / 2 - atan W <= 1 / W).
    { rewrite <- atan_inv by auto. assert (K : 0 < / W) by (apply Rinv_0_lt_compat; auto).
      assert (A0 : 0 <= atan (/ W)) by (rewrite <- atan_0; left; apply atan_increasing; auto). split; auto.
      unfold Rdiv. rewrite Rmult_1_l. destruct (MVT_gen atan 0 (/ W) (fun x => / (1 + x ^ 2))) as [c [_ M]].
      - intros z _. apply is_derive_Reals, derivable_pt_lim_atan.
      - intros z _. apply derivable_continuous_pt, derivable_pt_atan.
      - rewrite atan_0, !Rminus_0_r in M. rewrite M. rewrite <- (Rmult_1_l (/ W)) at 2. apply Rmult_le_compat_r; [lra|].
        rewrite <- Rinv_1 at 2. apply Rinv_le_contravar; [lra|]. pose proof (pow2_ge_0 c). lra. }
    pose proof (RInt_01 _ (atan W) (PI / 2) ltac:(lra) C (fun s => over_range t (cos s))) as R1.
    rewrite (Rabs_pos_eq (PI / 2 - atan W)) in L by lra.
    replace (4 / W) with (2 * (1 / W) + 2 / W) by (field; lra).
    match goal with |- Rabs (?a + ?b - y) <= _ => replace (a + b - y) with ((a - y) + b) by ring end.
    eapply Rle_trans; [apply Rabs_triang|]. rewrite (Rabs_pos_eq (RInt _ (atan W) _)) by lra. lra. }
  destruct (Req_dec x y) as [K|K]; auto. exfalso. assert (P : 0 < Rabs (x - y)) by (apply Rabs_pos_lt; lra).
  specialize (B (8 / Rabs (x - y)) ltac:(apply Rdiv_lt_0_compat; lra)). replace (4 / (8 / Rabs (x - y))) with (Rabs (x - y) / 2) in B by (field; lra). lra.
Qed.
Lemma refl_c : forall (f : R -> R) v a b, (forall s, continuous f s) -> RInt (fun y => f (v - y)) a b = RInt f (v - b) (v - a).
Proof.
  intros f v a b Hf.
  pose proof (RInt_comp_lin (V := R_CompleteNormedModule) f (-1) v a b (ex_RInt_c f _ _ Hf)) as P.
  replace (-1 * a + v) with (v - a) in P by ring. replace (-1 * b + v) with (v - b) in P by ring.
  assert (P' : RInt (fun y => -1 * f (v - y)) a b = RInt f (v - a) (v - b)).
  { rewrite <- P. apply RInt_ext. intros y _. unfold scal. cbn. unfold mult. cbn. replace (-1 * y + v) with (v - y) by ring. reflexivity. }
  rewrite (scal_c (-1) (fun y => f (v - y))) in P'.
  - assert (Q1 : RInt f (v - b) (v - a) + RInt f (v - a) (v - b) = 0) by (rewrite chasles by auto; apply (RInt_point (V := R_CompleteNormedModule))). lra.
  - intros s. apply (continuous_comp (fun y => v - y) f); auto. apply (ex_derive_continuous (fun y => v - y)). auto_derive. auto.
Qed.

Lemma RInt_0 : forall (f : R -> R) a b, a <= b -> (forall s, a <= s <= b -> f s = 0) -> RInt f a b = 0.
Proof.
  intros f a b Hab H. rewrite (RInt_ext f (fun _ => 0)).
  - rewrite RInt_const. unfold scal. cbn. unfold mult. cbn. ring.
  - intros x Hx. apply H. rewrite Rmin_left, Rmax_right in Hx by auto. lra.
Qed.
Lemma circle : forall t, 0 < t -> RInt (fun th => over t (cos th)) 0 (2 * PI) = PI - 2 * I0 * E t.
Proof.
  intros t Ht. assert (C := h_cont t ltac:(lra)). pose proof (quarter t Ht) as K. pose proof PI_RGT_0 as HP.
  rewrite <- (chasles _ 0 (PI / 2) (2 * PI) C), <- (chasles _ (PI / 2) (3 * (PI / 2)) (2 * PI) C).
  rewrite (RInt_0 _ (PI / 2) (3 * (PI / 2))); [|lra|].
  - pose proof (refl_c (fun th : R => over t (cos th)) (2 * PI) 0 (PI / 2) C) as R1.
    replace (2 * PI - PI / 2) with (3 * (PI / 2)) in R1 by field. rewrite Rminus_0_r in R1. rewrite <- R1.
    rewrite (RInt_ext (fun y => over t (cos (2 * PI - y))) (fun th => over t (cos th))); [lra|].
    intros y _. f_equal. replace (2 * PI - y) with (- y + 2 * 1 * PI) by ring. rewrite <- (cos_neg y). apply (cos_period (- y) 1).
  - intros s Hs. unfold over. destruct (Rlt_dec 0 (cos s)) as [L|L]; auto. assert (cos s <= 0) by (apply cos_le_0; lra). lra.
Qed.
Lemma circle_neg : forall t, 0 < t -> RInt (fun th => over t (- cos th)) 0 (2 * PI) = PI - 2 * I0 * E t.
Proof.
  intros t Ht. assert (C := h_cont t ltac:(lra)). pose proof (quarter t Ht) as K. pose proof PI_RGT_0 as HP.
  rewrite (RInt_ext _ (fun y => over t (cos (PI - y)))) by (intros y _; f_equal; rewrite cos_minus, cos_PI, sin_PI; ring).
  rewrite (refl_c (fun th : R => over t (cos th)) PI 0 (2 * PI) C).
  rewrite <- (chasles _ (PI - 2 * PI) (- (PI / 2)) (PI - 0) C), <- (chasles _ (- (PI / 2)) 0 (PI - 0) C), <- (chasles _ 0 (PI / 2) (PI - 0) C).
  rewrite (RInt_0 _ (PI - 2 * PI) (- (PI / 2))); [rewrite (RInt_0 _ (PI / 2) (PI - 0))|lra|]; [|lra| |].
  - pose proof (refl_c (fun th : R => over t (cos th)) 0 0 (PI / 2) C) as R1. replace (0 - PI / 2) with (- (PI / 2)) in R1 by field. rewrite Rminus_0_r in R1. rewrite <- R1.
    rewrite (RInt_ext (fun y => over t (cos (0 - y))) (fun th => over t (cos th))); [lra|]. intros y _. f_equal. rewrite Rminus_0_l. apply cos_neg.
  - intros s Hs. unfold over. destruct (Rlt_dec 0 (cos s)) as [L|L]; auto. assert (cos s <= 0) by (apply cos_le_0; lra). lra.
  - intros s Hs. unfold over. destruct (Rlt_dec 0 (cos s)) as [L|L]; auto. assert (cos (- s) <= 0) by (apply cos_le_0; lra). rewrite cos_neg in *. lra.
Qed.
(** A period that is only close to 2 PI *)
Lemma near_period : forall (f : R -> R) p, (forall s, continuous f s) -> (forall s, 0 <= f s <= 1) -> 0 < p ->
  Rabs (RInt (fun v => f (2 * p * v)) 0 1 - RInt f 0 (2 * PI) / (2 * PI)) <= 2 * Rabs (PI - p) / PI.
Proof.
  intros f p C F Hp. pose proof PI_RGT_0 as HP.
  assert (S : RInt (fun v => f (2 * p * v)) 0 1 = RInt f 0 (2 * p) / (2 * p) :> R).
  { assert (K : RInt (fun v => 2 * p * f (2 * p * v)) 0 1 = RInt f 0 (2 * p)) by (rewrite (lin_c f (2 * p)) by auto; f_equal; ring).
    rewrite (scal_c (2 * p) (fun v => f (2 * p * v))) in K by (intros s; apply cont_lin; auto).
    enough (H : forall x y : R, 2 * p * x = y -> x = y / (2 * p)) by (apply H; exact K). intros x y <-. field. lra. }
  rewrite S. rewrite <- (chasles f 0 (2 * p) (2 * PI) C). pose (a := RInt f 0 (2 * p) : R). pose (b := RInt f (2 * p) (2 * PI) : R).
  change (Rabs (a / (2 * p) - (a + b) / (2 * PI)) <= 2 * Rabs (PI - p) / PI).
  assert (A : 0 <= a <= 2 * p - 0) by (apply RInt_01; auto; lra).
  assert (B : Rabs b <= 2 * Rabs (PI - p)).
  { unfold b. destruct (Rle_lt_dec p PI) as [L|L].
    - pose proof (RInt_01 f (2 * p) (2 * PI) ltac:(lra) C F). rewrite !Rabs_pos_eq by lra. lra.
    - pose proof (RInt_01 f (2 * PI) (2 * p) ltac:(lra) C F). assert (Z : RInt f (2 * p) (2 * PI) + RInt f (2 * PI) (2 * p) = 0) by (rewrite chasles by auto; apply (RInt_point (V := R_CompleteNormedModule))).
      rewrite !Rabs_left1 by lra. lra. }
  replace (a / (2 * p) - (a + b) / (2 * PI)) with (a / (2 * p) * ((PI - p) / PI) + - (b / (2 * PI))) by (field; lra).
  eapply Rle_trans; [apply Rabs_triang|]. rewrite Rabs_Ropp, Rabs_mult.
  assert (A2 : Rabs (a / (2 * p)) <= 1).
  { rewrite Rabs_pos_eq by (apply Rmult_le_pos; [lra|]; left; apply Rinv_0_lt_compat; lra). apply Rmult_le_reg_r with (2 * p); [lra|]. unfold Rdiv. rewrite Rmult_assoc, Rinv_l by lra. lra. }
  assert (N1 : Rabs ((PI - p) / PI) = Rabs (PI - p) / PI) by (unfold Rdiv; rewrite Rabs_mult, (Rabs_pos_eq (/ PI)) by (left; apply Rinv_0_lt_compat; lra); reflexivity).
  assert (N2 : Rabs (b / (2 * PI)) = Rabs b / (2 * PI)) by (unfold Rdiv; rewrite Rabs_mult, (Rabs_pos_eq (/ (2 * PI))) by (left; apply Rinv_0_lt_compat; lra); reflexivity).
  rewrite N1, N2. set (d := Rabs (PI - p)) in *. assert (D0 : 0 <= d) by apply Rabs_pos.
  assert (D1 : 0 <= d / PI) by (apply Rmult_le_pos; [auto|left; apply Rinv_0_lt_compat; lra]).
  assert (X1 : Rabs (a / (2 * p)) * (d / PI) <= 1 * (d / PI)) by (apply Rmult_le_compat_r; auto).
  assert (X2 : Rabs b / (2 * PI) <= d / PI).
  { apply Rmult_le_reg_r with (2 * PI); [lra|]. replace (Rabs b / (2 * PI) * (2 * PI)) with (Rabs b) by (field; lra). replace (d / PI * (2 * PI)) with (2 * d) by (field; lra). auto. }
  replace (2 * d / PI) with (1 * (d / PI) + d / PI) by (field; lra). lra.
Qed.
(** which first uniforms carry the transform beyond t *)
Lemma beyond : forall t u c, 0 < t -> 0 < u <= 1 -> (t < sqrt (-2 * ln u) * c <-> u < over t c).
Proof.
  intros t u c Ht [Hu Hu1]. assert (L0 : ln u <= 0) by (rewrite <- ln_1; destruct Hu1 as [K|K]; [left; apply ln_increasing; auto|rewrite K; lra]).
  pose proof (sqrt_pos (-2 * ln u)) as S. unfold over. destruct (Rlt_dec 0 c) as [Hc|Hc].
  - assert (C2 : 0 < c * c) by (apply Rmult_lt_0_compat; auto). assert (SS : sqrt (-2 * ln u) * sqrt (-2 * ln u) = -2 * ln u) by (apply sqrt_sqrt; lra).
    assert (N : t < sqrt (-2 * ln u) * c <-> t * t < -2 * ln u * (c * c)).
    { replace (-2 * ln u * (c * c)) with ((sqrt (-2 * ln u) * c) * (sqrt (-2 * ln u) * c)) by (rewrite <- SS at 3; ring).
      assert (0 <= sqrt (-2 * ln u) * c) by (apply Rmult_le_pos; lra). split; intros K; [apply Rmult_le_0_lt_compat; lra|].
      destruct (Rlt_le_dec t (sqrt (-2 * ln u) * c)) as [L|L]; auto. exfalso. pose proof (Rmult_le_compat _ _ _ _ H H L L). lra. }
    rewrite N. split; intros K.
    + rewrite <- (exp_ln u) by auto. apply exp_increasing. apply Rmult_lt_reg_r with (2 * (c * c)); [lra|].
      replace (- (t * t) / (2 * (c * c)) * (2 * (c * c))) with (- (t * t)) by (field; lra). lra.
    + apply ln_increasing in K; auto. rewrite ln_exp in K. apply Rmult_lt_compat_r with (r := 2 * (c * c)) in K; [|lra].
      replace (- (t * t) / (2 * (c * c)) * (2 * (c * c))) with (- (t * t)) in K by (field; lra). lra.
  - split; intros K; [|lra]. exfalso. assert (sqrt (-2 * ln u) * c <= 0); [|lra]. rewrite <- (Rmult_0_r (sqrt (-2 * ln u))). apply Rmult_le_compat_l; lra.
Qed.
Definition Phi (t : R) : R := 1 / 2 + RInt (fun s => exp (- (s * s) / 2)) 0 t / sqrt (2 * PI).
Lemma I0_2pi : I0 / PI = / sqrt (2 * PI).
Proof.
  pose proof PI_RGT_0 as HP. pose proof I0_pos as H. assert (S : sqrt (2 * PI) = 2 * I0).
  { replace (2 * PI) with (2 * 2 * (PI / 2)) by field. rewrite sqrt_mult by lra. rewrite sqrt_square by lra. reflexivity. }
  rewrite S. pose proof I0_sq as Q1. apply Rmult_eq_reg_r with (2 * I0 * PI); [|apply Rmult_integral_contrapositive_currified; lra].
  replace (I0 / PI * (2 * I0 * PI)) with (2 * (I0 * I0)) by (field; lra). rewrite Q1. field. lra.
Qed.
Lemma Phi_odd : forall t, Phi (- t) = 1 - Phi t.
Proof.
  intros t. unfold Phi. change (fun s => exp (- (s * s) / 2)) with gauss. assert (K : RInt gauss 0 (- t) = - RInt gauss 0 t :> R); [|rewrite K; field; apply Rgt_not_eq, sqrt_lt_R0; pose proof PI_RGT_0; lra].
  pose proof (lin_c gauss (-1) 0 t gauss_cont) as L. rewrite Rmult_0_r in L. replace (-1 * t) with (- t) in L by ring. rewrite <- L.
  rewrite (scal_c (-1) (fun x => gauss (-1 * x))) by (intros s; apply cont_lin, gauss_cont).
  rewrite (RInt_ext (fun x => gauss (-1 * x)) gauss) by (intros x _; unfold gauss; f_equal; field).
  enough (H : forall x : R, -1 * x = - x) by apply H. intros x. ring.
Qed.
Lemma Phi_circle : forall t, 0 < t -> (PI - 2 * I0 * E t) / (2 * PI) = 1 - Phi t.
Proof.
  intros t Ht. unfold Phi. change (RInt (fun s => exp (- (s * s) / 2)) 0 t) with (E t). unfold Rdiv at 3. rewrite <- I0_2pi. pose proof PI_RGT_0. field. lra.
Qed.
Lemma Phi_tail : forall t, 0 <= t -> 0 <= 1 - Phi t <= exp (- (t * t) / 2).
Proof.
  intros t Ht. unfold Phi. change (RInt (fun s => exp (- (s * s) / 2)) 0 t) with (E t). unfold Rdiv at 2 4. rewrite <- I0_2pi. destruct (E_tail t Ht) as [T1 T2].
  pose proof PI_RGT_0 as HP. pose proof I0_pos as P. pose proof I0_sq as S. change (exp (- (t * t) / 2)) with (gauss t).
  replace (1 - (1 / 2 + E t * (I0 / PI))) with ((I0 - E t) * (I0 / PI)) by (field_simplify; [|lra|lra]; replace (I0 ^ 2) with (PI / 2) by (rewrite <- S; ring); field; lra).
  assert (J : 0 < I0 / PI) by (apply Rdiv_lt_0_compat; auto). split; [apply Rmult_le_pos; lra|].
  apply Rle_trans with (2 / I0 * gauss t * (I0 / PI)); [apply Rmult_le_compat_r; lra|].
  replace (2 / I0 * gauss t * (I0 / PI)) with (gauss t * (2 / PI)) by (field; lra). rewrite <- (Rmult_1_r (gauss t)) at 2.
  apply Rmult_le_compat_l; [left; apply gauss_pos|]. apply Rmult_le_reg_r with PI; auto. unfold Rdiv. rewrite Rmult_assoc, Rinv_l by lra. pose proof PI2_3_2. unfold PI2 in *. lra.
Qed.
(** the law: the part of the unit square that the transform with period 2 p carries beyond t, and below -t *)
Lemma normal_law : forall p t, 0 < p -> 0 < t ->
  Rabs (RInt (fun v => over t (cos (2 * p * v))) 0 1 - (1 - Phi t)) <= 2 * Rabs (PI - p) / PI /\
  Rabs (RInt (fun v => over t (- cos (2 * p * v))) 0 1 - Phi (- t)) <= 2 * Rabs (PI - p) / PI.
Proof.
  intros p t Hp Ht. split.
  - rewrite <- Phi_circle, <- circle by auto. apply (near_period (fun th => over t (cos th)) p); auto; [apply h_cont; lra|intros; apply over_range].
  - rewrite Phi_odd, <- Phi_circle, <- circle_neg by auto. apply (near_period (fun th => over t (- cos th)) p); auto; [|intros; apply over_range].
    intros s. apply (continuous_comp (fun th => - cos th) (over t)); [|apply over_cont; lra]. apply (ex_derive_continuous (fun th => - cos th)). auto_derive. auto.
Qed.
