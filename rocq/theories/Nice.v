(** Functions that are bounded and uniformly continuous on a domain, and iterated integrals of them over boxes.
    No code is modelled here; Invariance.v uses this for the kernels of the sampler. *)
From Coq Require Import Reals Lra List.
From Coquelicot Require Import Coquelicot.
Import ListNotations.
Open Scope R_scope.

(** a set of points with a notion of two points being closer than a number *)
Record Dom : Type := mkDom {
  pt : Type;
  inD : pt -> Prop;
  nr : R -> pt -> pt -> Prop;
  nr_mono : forall d d' x y, d <= d' -> nr d x y -> nr d' x y }.

Definition nice (P : Dom) (f : pt P -> R) : Prop :=
  (exists M, forall x, inD P x -> Rabs (f x) <= M) /\
  forall eps, 0 < eps -> exists d, 0 < d /\ forall x y, inD P x -> inD P y -> nr P d x y -> Rabs (f x - f y) < eps.

Section Closure.
Variable P : Dom.
Notation nice := (nice P).

Lemma nice_const : forall c, nice (fun _ => c).
Proof.
  intros c. split; [exists (Rabs c); intros; lra|]. intros e He. exists 1. split; [lra|]. intros. rewrite Rminus_diag_eq, Rabs_R0 by auto. auto.
Qed.

Lemma nice_ext : forall f g, (forall x, inD P x -> f x = g x) -> nice f -> nice g.
Proof.
  intros f g H [[M B] C]. split; [exists M; intros x Hx; rewrite <- H by auto; auto|]. intros e He. destruct (C e He) as [d [Hd K]].
  exists d. split; auto. intros x y Hx Hy N. rewrite <- !H by auto. auto.
Qed.

Lemma nice_lin : forall a b f g, nice f -> nice g -> nice (fun x => a * f x + b * g x).
Proof.
  intros a b f g [[M B] C] [[N D] E]. pose proof (Rabs_pos a). pose proof (Rabs_pos b). split.
  - exists (Rabs a * M + Rabs b * N). intros x Hx. apply Rle_trans with (Rabs (a * f x) + Rabs (b * g x)); [apply Rabs_triang|].
    rewrite !Rabs_mult. apply Rplus_le_compat; apply Rmult_le_compat_l; auto.
  - intros e He. set (k := Rabs a + Rabs b + 1). assert (K : 0 < k) by (unfold k; lra).
    assert (E' : 0 < e / k) by (apply Rdiv_lt_0_compat; auto). destruct (C (e / k) E') as [d [Hd K1]]. destruct (E (e / k) E') as [d' [Hd' K2]].
    exists (Rmin d d'). split; [apply Rmin_glb_lt; auto|]. intros x y Hx Hy Nn.
    specialize (K1 x y Hx Hy (nr_mono P _ _ _ _ (Rmin_l d d') Nn)). specialize (K2 x y Hx Hy (nr_mono P _ _ _ _ (Rmin_r d d') Nn)).
    replace (a * f x + b * g x - (a * f y + b * g y)) with (a * (f x - f y) + b * (g x - g y)) by ring.
    apply Rle_lt_trans with (Rabs (a * (f x - f y)) + Rabs (b * (g x - g y))); [apply Rabs_triang|]. rewrite !Rabs_mult.
    apply Rle_lt_trans with (Rabs a * (e / k) + Rabs b * (e / k)).
    + apply Rplus_le_compat; apply Rmult_le_compat_l; lra.
    + replace e with (k * (e / k)) at 3 by (field; lra). unfold k at 3. lra.
Qed.

Lemma nice_plus : forall f g, nice f -> nice g -> nice (fun x => f x + g x).
Proof. intros f g F G. apply nice_ext with (fun x => 1 * f x + 1 * g x); [intros; ring|apply nice_lin; auto]. Qed.
Lemma nice_minus : forall f g, nice f -> nice g -> nice (fun x => f x - g x).
Proof. intros f g F G. apply nice_ext with (fun x => 1 * f x + -1 * g x); [intros; ring|apply nice_lin; auto]. Qed.

Lemma nice_mult : forall f g, nice f -> nice g -> nice (fun x => f x * g x).
Proof.
  intros f g [[M B] C] [[N D] E]. split.
  - exists (M * N). intros x Hx. rewrite Rabs_mult. apply Rmult_le_compat; auto using Rabs_pos.
  - intros e He. set (k := Rabs M + Rabs N + 1). assert (K : 0 < k) by (unfold k; pose proof (Rabs_pos M); pose proof (Rabs_pos N); lra).
    assert (E' : 0 < e / k) by (apply Rdiv_lt_0_compat; auto). destruct (C (e / k) E') as [d [Hd K1]]. destruct (E (e / k) E') as [d' [Hd' K2]].
    exists (Rmin d d'). split; [apply Rmin_glb_lt; auto|]. intros x y Hx Hy Nn.
    specialize (K1 x y Hx Hy (nr_mono P _ _ _ _ (Rmin_l d d') Nn)). specialize (K2 x y Hx Hy (nr_mono P _ _ _ _ (Rmin_r d d') Nn)).
    replace (f x * g x - f y * g y) with (f x * (g x - g y) + g y * (f x - f y)) by ring.
    apply Rle_lt_trans with (Rabs (f x * (g x - g y)) + Rabs (g y * (f x - f y))); [apply Rabs_triang|]. rewrite !Rabs_mult.
    apply Rle_lt_trans with (Rabs M * (e / k) + Rabs N * (e / k)).
    + apply Rplus_le_compat; apply Rmult_le_compat; auto using Rabs_pos; try lra.
      * apply Rle_trans with M; auto. apply Rle_abs.
      * apply Rle_trans with N; auto. apply Rle_abs.
    + replace e with (k * (e / k)) at 3 by (field; lra). unfold k at 3. lra.
Qed.

(** composition with a continuous function *)
Lemma nice_comp : forall psi f, (forall z, continuous psi z) -> nice f -> nice (fun x => psi (f x)).
Proof.
  intros psi f Hp [[M B] C]. assert (Q : forall z, continuity_pt psi z) by (intros z; apply continuity_pt_filterlim, Hp).
  assert (I : forall x, inD P x -> - Rabs M <= f x <= Rabs M).
  { intros x Hx. apply Rabs_le_between. apply Rle_trans with M; auto. apply Rle_abs. }
  pose proof (Rabs_pos M) as P0. split.
  - destruct (continuity_ab_maj psi (- Rabs M) (Rabs M)) as [u [U _]]; [lra|auto|].
    destruct (continuity_ab_min psi (- Rabs M) (Rabs M)) as [v [V _]]; [lra|auto|].
    exists (Rabs (psi u) + Rabs (psi v)). intros x Hx. specialize (U _ (I x Hx)). specialize (V _ (I x Hx)).
    pose proof (Rle_abs (psi u)). pose proof (Rle_abs (- psi v)). rewrite Rabs_Ropp in *. pose proof (Rabs_pos (psi u)). pose proof (Rabs_pos (psi v)).
    apply Rabs_le. lra.
  - intros e He. pose proof (Heine psi (fun z => - Rabs M <= z <= Rabs M) (compact_P3 _ _) (fun z _ => Q z)) as H.
    destruct (H (mkposreal e He)) as [d Hd]. cbn in Hd. destruct (C d (cond_pos d)) as [d' [Hd' K]]. exists d'. split; [auto|].
    intros x y Hx Hy N. apply Hd; auto.
Qed.
End Closure.

(** composition with a map between domains *)
Definition smooth (P Q : Dom) (T : pt P -> pt Q) : Prop :=
  (forall x, inD P x -> inD Q (T x)) /\
  forall d, 0 < d -> exists d', 0 < d' /\ forall x y, inD P x -> inD P y -> nr P d' x y -> nr Q d (T x) (T y).

Lemma nice_map : forall P Q T f, smooth P Q T -> nice Q f -> nice P (fun x => f (T x)).
Proof.
  intros P Q T f [TD TC] [[M B] C]. split; [exists M; auto|]. intros e He. destruct (C e He) as [d [Hd K]].
  destruct (TC d Hd) as [d' [Hd' K']]. exists d'. split; auto.
Qed.

(** domains: an interval, a box, pairs *)
Definition seg (a b : R) : Dom.
Proof. refine (mkDom R (fun v => a <= v <= b) (fun d v w => Rabs (v - w) < d) _). intros. lra. Defined.

Definition close (d : R) (x y : list R) : Prop := List.Forall2 (fun v w => Rabs (v - w) < d) x y.
Definition inside (box : list (R * R)) (x : list R) : Prop := List.Forall2 (fun p v => fst p <= v <= snd p) box x.
Definition boxD (box : list (R * R)) : Dom.
Proof.
  refine (mkDom (list R) (inside box) close _). intros d d' x y H N. unfold close in *. induction N; constructor; auto. lra.
Defined.

Definition prodD (P Q : Dom) : Dom.
Proof.
  refine (mkDom (pt P * pt Q) (fun z => inD P (fst z) /\ inD Q (snd z)) (fun d z w => nr P d (fst z) (fst w) /\ nr Q d (snd z) (snd w)) _).
  intros d d' x y H [N1 N2]. split; eapply nr_mono; eauto.
Defined.

Lemma smooth_id : forall P, smooth P P (fun x => x).
Proof. intros P. split; auto. intros d Hd. exists d; auto. Qed.
Lemma smooth_comp : forall P Q S T U, smooth P Q T -> smooth Q S U -> smooth P S (fun x => U (T x)).
Proof.
  intros P Q S T U [A B] [C D]. split; auto. intros d Hd. destruct (D d Hd) as [d1 [H1 K1]]. destruct (B d1 H1) as [d2 [H2 K2]]. exists d2. split; auto.
Qed.
Lemma smooth_fst : forall P Q, smooth (prodD P Q) P fst.
Proof. intros P Q. split; [intros x [H _]; auto|]. intros d Hd. exists d. split; auto. intros x y _ _ [H _]; auto. Qed.
Lemma smooth_snd : forall P Q, smooth (prodD P Q) Q snd.
Proof. intros P Q. split; [intros x [_ H]; auto|]. intros d Hd. exists d. split; auto. intros x y _ _ [_ H]; auto. Qed.
Lemma smooth_pair : forall P Q S T U, smooth P Q T -> smooth P S U -> smooth P (prodD Q S) (fun x => (T x, U x)).
Proof.
  intros P Q S T U [A B] [C D]. split; [intros x Hx; split; cbn; auto|]. intros d Hd. destruct (B d Hd) as [d1 [H1 K1]]. destruct (D d Hd) as [d2 [H2 K2]].
  exists (Rmin d1 d2). split; [apply Rmin_glb_lt; auto|]. intros x y Hx Hy N. split; cbn.
  - apply K1; auto. eapply nr_mono; [apply Rmin_l|exact N].
  - apply K2; auto. eapply nr_mono; [apply Rmin_r|exact N].
Qed.
Lemma smooth_cons : forall P lo hi box T U, smooth P (seg lo hi) T -> smooth P (boxD box) U -> smooth P (boxD ((lo, hi) :: box)) (fun x => T x :: U x).
Proof.
  intros P lo hi box T U [A B] [C D]. split; [intros x Hx; constructor; [apply A; auto|apply C; auto]|]. intros d Hd. destruct (B d Hd) as [d1 [H1 K1]]. destruct (D d Hd) as [d2 [H2 K2]].
  exists (Rmin d1 d2). split; [apply Rmin_glb_lt; auto|]. intros x y Hx Hy N. constructor.
  - apply K1; auto. eapply nr_mono; [apply Rmin_l|exact N].
  - apply K2; auto. eapply nr_mono; [apply Rmin_r|exact N].
Qed.
Lemma smooth_const : forall P Q c, (forall d, 0 < d -> nr Q d c c) -> inD Q c -> smooth P Q (fun _ => c).
Proof. intros P Q c N I. split; auto. intros d Hd. exists 1. split; [lra|auto]. Qed.
Lemma seg_refl : forall a b d v, 0 < d -> nr (seg a b) d v v.
Proof. intros. cbn. rewrite Rminus_diag_eq, Rabs_R0; auto. Qed.
Lemma box_refl : forall box d x, 0 < d -> nr (boxD box) d x x.
Proof. intros box d x H. cbn. unfold close. induction x; constructor; auto. rewrite Rminus_diag_eq, Rabs_R0; auto. Qed.

(** a nice function on an interval has an integral: it agrees with a continuous one *)
Definition clamp (a b v : R) : R := Rmax a (Rmin b v).
Lemma clamp_in : forall a b v, a <= b -> a <= clamp a b v <= b.
Proof. intros a b v H. unfold clamp, Rmax, Rmin. repeat destruct (Rle_dec _ _); lra. Qed.
Lemma clamp_id : forall a b v, a <= v <= b -> clamp a b v = v.
Proof. intros a b v H. unfold clamp, Rmax, Rmin. repeat destruct (Rle_dec _ _); lra. Qed.
Lemma clamp_lip : forall a b v w, Rabs (clamp a b v - clamp a b w) <= Rabs (v - w).
Proof. intros a b v w. unfold clamp, Rmax, Rmin, Rabs. repeat destruct (Rle_dec _ _); repeat destruct (Rcase_abs _); lra. Qed.

Lemma nice_clamp_cont : forall a b f, a <= b -> nice (seg a b) f -> forall v, continuous (fun v => f (clamp a b v)) v.
Proof.
  intros a b f H [_ C] v. apply continuity_pt_filterlim. intros e He. destruct (C e He) as [d [Hd K]]. exists d. split; auto.
  intros x [_ Hx]. cbn in *. unfold R_dist in *. apply K; [apply clamp_in; auto|apply clamp_in; auto|]. eapply Rle_lt_trans; [apply clamp_lip|auto].
Qed.

Lemma in_minmax : forall a b x, a <= b -> Rmin a b < x < Rmax a b -> a <= x <= b.
Proof. intros a b x H. rewrite Rmin_left, Rmax_right by auto. lra. Qed.

Lemma RInt_clamp : forall a b (f : R -> R), a <= b -> RInt f a b = RInt (fun v => f (clamp a b v)) a b.
Proof. intros a b f H. apply (RInt_ext (V := R_CompleteNormedModule)). intros x Hx. rewrite clamp_id; auto. apply in_minmax; auto. Qed.

Lemma nice_ex : forall a b f, a <= b -> nice (seg a b) f -> ex_RInt (V := R_CompleteNormedModule) f a b.
Proof.
  intros a b f H N. apply (ex_RInt_ext (fun v => f (clamp a b v))).
  - intros x Hx. rewrite clamp_id; auto. apply in_minmax; auto.
  - apply (ex_RInt_continuous (V := R_CompleteNormedModule)). intros z _. apply nice_clamp_cont; auto.
Qed.

(** bounds and linearity of the integral over an interval *)
Lemma RInt_eqb : forall a b (f g : R -> R), a <= b -> (forall v, a <= v <= b -> f v = g v) -> RInt f a b = RInt g a b.
Proof. intros a b f g H K. apply (RInt_ext (V := R_CompleteNormedModule)). intros x Hx. apply K. apply in_minmax; auto. Qed.

Lemma RInt_lin : forall a b k l (f g : R -> R), a <= b -> nice (seg a b) f -> nice (seg a b) g ->
  RInt (fun v => k * f v + l * g v) a b = k * RInt f a b + l * RInt g a b.
Proof.
  intros a b k l f g H F G.
  pose proof (is_RInt_plus (V := R_CompleteNormedModule) _ _ _ _ _ _ (is_RInt_scal _ _ _ k _ (RInt_correct (V := R_CompleteNormedModule) _ _ _ (nice_ex _ _ _ H F)))
    (is_RInt_scal _ _ _ l _ (RInt_correct (V := R_CompleteNormedModule) _ _ _ (nice_ex _ _ _ H G)))) as K.
  exact (is_RInt_unique (V := R_CompleteNormedModule) _ _ _ _ K).
Qed.

Lemma RInt_bd : forall a b e (f g : R -> R), a <= b -> nice (seg a b) f -> nice (seg a b) g -> (forall v, a <= v <= b -> Rabs (f v - g v) <= e) ->
  Rabs (RInt f a b - RInt g a b) <= (b - a) * e.
Proof.
  intros a b e f g H F G K. pose proof (nice_minus _ _ _ F G) as N.
  assert (E : RInt f a b - RInt g a b = RInt (fun v => f v - g v) a b).
  { transitivity (RInt (fun v => 1 * f v + -1 * g v) a b); [rewrite RInt_lin by auto; ring|]. apply RInt_eqb; auto. intros; ring. }
  rewrite E.
  apply (abs_RInt_le_const (fun v => f v - g v) a b e H); [apply nice_ex; auto|exact K].
Qed.

Lemma RInt_cst : forall a b c : R, RInt (fun _ : R => c) a b = (b - a) * c.
Proof. intros. exact (RInt_const (V := R_CompleteNormedModule) a b c). Qed.

(** sections of a nice function of a pair, and its partial integral *)
Lemma nice_section : forall P Q F p, (forall d, 0 < d -> nr P d p p) -> inD P p -> nice (prodD P Q) (fun z => F (fst z) (snd z)) -> nice Q (F p).
Proof.
  intros P Q F p R I N. apply (nice_map Q (prodD P Q) (fun q => (p, q)) (fun z => F (fst z) (snd z))); auto.
  apply smooth_pair; [apply smooth_const; auto|apply smooth_id].
Qed.
Lemma nice_section2 : forall P Q F q, (forall d, 0 < d -> nr Q d q q) -> inD Q q -> nice (prodD P Q) (fun z => F (fst z) (snd z)) -> nice P (fun p => F p q).
Proof.
  intros P Q F q R I N. apply (nice_map P (prodD P Q) (fun p => (p, q)) (fun z => F (fst z) (snd z))); auto.
  apply smooth_pair; [apply smooth_id|apply smooth_const; auto].
Qed.

Definition reflD (P : Dom) : Prop := forall d x, 0 < d -> nr P d x x.

Lemma nice_RInt : forall P a b (F : pt P -> R -> R), reflD P -> a <= b -> nice (prodD P (seg a b)) (fun z => F (fst z) (snd z)) -> nice P (fun p => RInt (F p) a b).
Proof.
  intros P a b F RP H N. assert (S : forall p, inD P p -> nice (seg a b) (F p)) by (intros p Hp; apply (nice_section P); auto).
  destruct N as [[M B] C]. split.
  - exists ((b - a) * Rabs M). intros p Hp. replace (RInt (F p) a b) with (RInt (F p) a b - RInt (fun _ => 0) a b) by (rewrite RInt_cst; ring).
    apply RInt_bd; [auto|auto|apply nice_const|]. intros v Hv. rewrite Rminus_0_r. apply Rle_trans with M; [apply (B (p, v)); split; auto|apply Rle_abs].
  - intros e He. assert (E : 0 < e / (b - a + 1)) by (apply Rdiv_lt_0_compat; lra). destruct (C _ E) as [d [Hd K]]. exists d. split; auto.
    intros p q Hp Hq Npq. apply Rle_lt_trans with ((b - a) * (e / (b - a + 1))).
    + apply RInt_bd; [auto|auto|auto|]. intros v Hv. left. apply (K (p, v) (q, v)); split; auto. apply seg_refl; auto.
    + apply Rmult_lt_reg_r with (b - a + 1); [lra|]. replace ((b - a) * (e / (b - a + 1)) * (b - a + 1)) with ((b - a) * e) by (field; lra). nra.
Qed.

Lemma sub_ex : forall a b (f g : R -> R), ex_RInt (V := R_CompleteNormedModule) f a b -> ex_RInt (V := R_CompleteNormedModule) g a b ->
  ex_RInt (V := R_CompleteNormedModule) (fun v => f v - g v) a b.
Proof. intros a b f g F G. exact (ex_RInt_minus (V := R_CompleteNormedModule) f g a b F G). Qed.
Lemma RInt_sub : forall a b (f g : R -> R), ex_RInt (V := R_CompleteNormedModule) f a b -> ex_RInt (V := R_CompleteNormedModule) g a b ->
  RInt f a b - RInt g a b = RInt (fun v => f v - g v) a b.
Proof. intros a b f g F G. symmetry. exact (RInt_minus (V := R_CompleteNormedModule) f g a b F G). Qed.

(** the order of two integrals over intervals can be exchanged *)
Lemma fubini1 : forall a b c d (F : R -> R -> R), a <= b -> c <= d -> nice (prodD (seg a b) (seg c d)) (fun z => F (fst z) (snd z)) ->
  RInt (fun v => RInt (fun w => F v w) c d) a b = RInt (fun w => RInt (fun v => F v w) a b) c d.
Proof.
  intros a b c d F H1 H2 N.
  set (G := fun v w => F (clamp a b v) (clamp c d w)).
  assert (E1 : RInt (fun v => RInt (fun w => F v w) c d) a b = RInt (fun v => RInt (fun w => G v w) c d) a b).
  { apply RInt_eqb; auto. intros v Hv. apply RInt_eqb; auto. intros w Hw. unfold G. rewrite !clamp_id; auto. }
  assert (E2 : RInt (fun w => RInt (fun v => F v w) a b) c d = RInt (fun w => RInt (fun v => G v w) a b) c d).
  { apply RInt_eqb; auto. intros w Hw. apply RInt_eqb; auto. intros v Hv. unfold G. rewrite !clamp_id; auto. }
  rewrite E1, E2. clear E1 E2.
  assert (UG : forall e, 0 < e -> exists dl, 0 < dl /\ forall v w v' w', Rabs (v - v') < dl -> Rabs (w - w') < dl -> Rabs (G v w - G v' w') < e).
  { intros e He. destruct N as [_ C]. destruct (C e He) as [dl [Hd K]]. exists dl. split; auto. intros v w v' w' A B.
    apply (K (clamp a b v, clamp c d w) (clamp a b v', clamp c d w')); split; cbn; try apply clamp_in; auto; eapply Rle_lt_trans; try apply clamp_lip; auto. }
  assert (C1 : forall w v, continuous (fun v => G v w) v).
  { intros w v. apply continuity_pt_filterlim. intros e He. destruct (UG e He) as [dl [Hd K]]. exists dl. split; auto.
    intros x [_ Hx]. apply K; auto. rewrite Rminus_diag_eq, Rabs_R0; auto. }
  assert (C2 : forall v w, continuous (fun w => G v w) w).
  { intros v w. apply continuity_pt_filterlim. intros e He. destruct (UG e He) as [dl [Hd K]]. exists dl. split; auto.
    intros x [_ Hx]. apply K; auto. rewrite Rminus_diag_eq, Rabs_R0; auto. }
  assert (X1 : forall w u v, ex_RInt (V := R_CompleteNormedModule) (fun v => G v w) u v) by (intros; apply (ex_RInt_continuous (V := R_CompleteNormedModule)); auto).
  assert (X2 : forall v u w, ex_RInt (V := R_CompleteNormedModule) (fun w => G v w) u w) by (intros; apply (ex_RInt_continuous (V := R_CompleteNormedModule)); auto).
  set (J := fun t => RInt (fun w => G t w) c d).
  assert (CJ : forall t, continuous J t).
  { intros t. apply continuity_pt_filterlim. intros e He. assert (E : 0 < e / (d - c + 1)) by (apply Rdiv_lt_0_compat; lra).
    destruct (UG _ E) as [dl [Hd K]]. exists dl. split; auto. intros x [_ Hx]. change (Rabs (J x - J t) < e). unfold J.
    rewrite RInt_sub by auto.
    eapply Rle_lt_trans; [apply (abs_RInt_le_const _ c d (e / (d - c + 1))); auto|].
    - apply sub_ex; auto.
    - intros w _. left. apply K; auto. rewrite Rminus_diag_eq, Rabs_R0; auto.
    - apply Rmult_lt_reg_r with (d - c + 1); [lra|]. replace ((d - c) * (e / (d - c + 1)) * (d - c + 1)) with ((d - c) * e) by (field; lra). nra. }
  assert (DA : forall t, is_derive (fun t => RInt J a t) t (J t)).
  { intros t. apply (is_derive_RInt (V := R_CompleteNormedModule) J (fun t => RInt J a t) a t); [|apply CJ].
    exists (mkposreal 1 Rlt_0_1). intros y _. apply (RInt_correct (V := R_CompleteNormedModule)). apply (ex_RInt_continuous (V := R_CompleteNormedModule)). auto. }
  assert (D1 : forall w t, is_derive (fun t => RInt (fun v => G v w) a t) t (G t w)).
  { intros w t. apply (is_derive_RInt (V := R_CompleteNormedModule) (fun v => G v w) _ a t); [|apply C1].
    exists (mkposreal 1 Rlt_0_1). intros y _. apply (RInt_correct (V := R_CompleteNormedModule)). auto. }
  assert (DB : forall t, is_derive (fun t => RInt (fun w => RInt (fun v => G v w) a t) c d) t (J t)).
  { intros t. assert (EJ : J t = RInt (fun w => Derive (fun t => RInt (fun v => G v w) a t) t) c d).
    { unfold J. apply RInt_eqb; auto. intros w _. symmetry. apply is_derive_unique. apply D1. }
    rewrite EJ. apply (is_derive_RInt_param (fun t w => RInt (fun v => G v w) a t) c d t).
    - exists (mkposreal 1 Rlt_0_1). intros y _ w _. exists (G y w). apply D1.
    - intros w _. apply (continuity_2d_pt_ext G).
      + intros x y. symmetry. apply is_derive_unique. apply D1.
      + intros e. destruct (UG e (cond_pos e)) as [dl [Hd K]]. exists (mkposreal dl Hd). intros u v A B. apply K; auto.
    - exists (mkposreal 1 Rlt_0_1). intros y _. apply (ex_RInt_continuous (V := R_CompleteNormedModule)). intros w _.
      apply continuity_pt_filterlim. intros e He. assert (E : 0 < e / (Rabs (y - a) + 1)) by (apply Rdiv_lt_0_compat; auto; pose proof (Rabs_pos (y - a)); lra).
      destruct (UG _ E) as [dl [Hd K]]. exists dl. split; auto. intros x [_ Hx]. change (Rabs (RInt (fun v => G v x) a y - RInt (fun v => G v w) a y) < e).
      rewrite RInt_sub by auto.
      assert (EX : forall u v, ex_RInt (V := R_CompleteNormedModule) (fun v => G v x - G v w) u v) by (intros; apply sub_ex; auto).
      assert (BD : forall v : R, Rabs (G v x - G v w) <= e / (Rabs (y - a) + 1)).
      { intros v. left. apply K; auto. rewrite Rminus_diag_eq, Rabs_R0; auto. }
      assert (LE : Rabs (RInt (fun v => G v x - G v w) a y) <= Rabs (y - a) * (e / (Rabs (y - a) + 1))).
      { destruct (Rle_dec a y) as [L|L].
        - rewrite (Rabs_pos_eq (y - a)) at 1 by lra. apply (abs_RInt_le_const _ a y); auto.
        - rewrite <- (opp_RInt_swap (V := R_CompleteNormedModule)) by auto. unfold opp. cbn. rewrite Rabs_Ropp. rewrite (Rabs_left (y - a)) at 1 by lra.
          replace (- (y - a)) with (a - y) by ring. apply (abs_RInt_le_const _ y a); auto. lra. }
      eapply Rle_lt_trans; [exact LE|]. pose proof (Rabs_pos (y - a)). apply Rmult_lt_reg_r with (Rabs (y - a) + 1); [lra|].
      replace (Rabs (y - a) * (e / (Rabs (y - a) + 1)) * (Rabs (y - a) + 1)) with (Rabs (y - a) * e) by (field; lra). nra. }
  change (RInt J a b = RInt (fun w => RInt (fun v => G v w) a b) c d).
  set (Df := fun t => RInt J a t - RInt (fun w => RInt (fun v => G v w) a t) c d).
  assert (DD : forall t, is_derive Df t 0).
  { intros t. replace 0 with (J t - J t) by ring. apply (is_derive_minus (K := R_AbsRing) (V := R_NormedModule)); auto. }
  assert (DE : Df b = Df a).
  { destruct (MVT_gen Df a b (fun _ => 0)) as [z [_ Hz]].
    - intros x _. apply DD.
    - intros x _. apply continuity_pt_filterlim. apply (ex_derive_continuous (K := R_AbsRing) (V := R_NormedModule)). exists 0. apply DD.
    - lra. }
  assert (Z : Df a = 0).
  { unfold Df. rewrite (RInt_point (V := R_CompleteNormedModule)).
    rewrite (RInt_eqb c d _ (fun _ => 0)); auto.
    - rewrite RInt_cst. unfold zero. cbn. ring.
    - intros w _. exact (RInt_point (V := R_CompleteNormedModule) a (fun v => G v w)). }
  rewrite Z in DE. unfold Df in DE. lra.
Qed.

(** the iterated integral over a box *)
Fixpoint bint (box : list (R * R)) (f : list R -> R) : R :=
  match box with
  | [] => f []
  | (lo, hi) :: b => RInt (fun v => bint b (fun t => f (v :: t))) lo hi
  end.
Definition wide (box : list (R * R)) : Prop := List.Forall (fun p => fst p <= snd p) box.
Fixpoint vol (box : list (R * R)) : R := match box with [] => 1 | (lo, hi) :: b => (hi - lo) * vol b end.
Lemma vol_pos : forall box, wide box -> 0 <= vol box.
Proof. induction 1 as [|[lo hi] b H _ IH]; cbn in *; [lra|]. apply Rmult_le_pos; lra. Qed.

Lemma smooth_head : forall P lo hi box T, smooth P (seg lo hi) T -> smooth (prodD P (boxD box)) (boxD ((lo, hi) :: box)) (fun z => T (fst z) :: snd z).
Proof. intros. apply smooth_cons; [apply (smooth_comp (prodD P (boxD box)) P (seg lo hi) fst T); auto using smooth_fst|apply smooth_snd]. Qed.

(** partial integrals over a box are nice again; the integral is linear and monotone *)
Lemma bint_all : forall box, wide box ->
  (forall P (F : pt P -> list R -> R), reflD P -> nice (prodD P (boxD box)) (fun z => F (fst z) (snd z)) -> nice P (fun p => bint box (F p))) /\
  (forall f g : list R -> R, (forall x, inside box x -> f x = g x) -> bint box f = bint box g) /\
  (forall k l (f g : list R -> R), nice (boxD box) f -> nice (boxD box) g -> bint box (fun x => k * f x + l * g x) = k * bint box f + l * bint box g).
Proof.
  induction box as [|[lo hi] box IH]; intros W.
  - cbn. split; [|split].
    + intros P F RP N. apply (nice_map P (prodD P (boxD [])) (fun p => (p, [])) (fun z => F (fst z) (snd z))); auto.
      apply smooth_pair; [apply smooth_id|apply smooth_const; [intros; apply box_refl; auto|constructor]].
    + intros f g H. apply H. constructor.
    + auto.
  - inversion W as [|? ? H W']; subst. cbn in H. destruct (IH W') as [N1 [N2 N3]]. clear IH.
    assert (NN : forall P F, reflD P -> nice (prodD P (boxD ((lo, hi) :: box))) (fun z => F (fst z) (snd z)) ->
      nice (prodD P (seg lo hi)) (fun z => bint box (fun t => F (fst z) (snd z :: t)))).
    { intros P F RP N. apply (N1 (prodD P (seg lo hi)) (fun z t => F (fst z) (snd z :: t))).
      - intros d [p v] Hd. split; [apply RP; auto|apply seg_refl; auto].
      - apply (nice_map (prodD (prodD P (seg lo hi)) (boxD box)) (prodD P (boxD ((lo, hi) :: box))) (fun z => (fst (fst z), snd (fst z) :: snd z)) (fun z => F (fst z) (snd z))); auto.
        apply smooth_pair.
        + apply (smooth_comp (prodD (prodD P (seg lo hi)) (boxD box)) (prodD P (seg lo hi)) P fst fst); apply smooth_fst.
        + apply (smooth_head (prodD P (seg lo hi)) lo hi box snd). apply smooth_snd. }
    assert (N1' : forall f, nice (boxD ((lo, hi) :: box)) f -> nice (seg lo hi) (fun v => bint box (fun t => f (v :: t)))).
    { intros f N. apply (N1 (seg lo hi) (fun v t => f (v :: t))); [intros d v Hd; apply seg_refl; auto|].
      apply (nice_map (prodD (seg lo hi) (boxD box)) (boxD ((lo, hi) :: box)) (fun z => fst z :: snd z) f); auto.
      apply (smooth_head (seg lo hi) lo hi box (fun v => v)). apply smooth_id. }
    split; [|split].
    + intros P F RP N. cbn [bint]. apply (nice_RInt P lo hi (fun p v => bint box (fun t => F p (v :: t)))); auto.
    + intros f g E. cbn [bint]. apply RInt_eqb; auto. intros v Hv. apply N2. intros x Hx. apply E. constructor; auto.
    + intros k l f g F G. cbn [bint]. rewrite <- RInt_lin by auto. apply RInt_eqb; auto. intros v Hv.
      apply N3; apply (nice_map (boxD box) (boxD ((lo, hi) :: box)) (fun x => v :: x)); auto; (apply smooth_cons; [apply smooth_const; [intros; apply seg_refl; auto|exact Hv]|apply smooth_id]).
Qed.

Lemma nice_bint : forall box P (F : pt P -> list R -> R), wide box -> reflD P -> nice (prodD P (boxD box)) (fun z => F (fst z) (snd z)) -> nice P (fun p => bint box (F p)).
Proof. intros box P F W. apply (bint_all box W). Qed.
Lemma bint_eqb : forall box (f g : list R -> R), wide box -> (forall x, inside box x -> f x = g x) -> bint box f = bint box g.
Proof. intros box f g W. apply (bint_all box W). Qed.
Lemma bint_lin : forall box k l (f g : list R -> R), wide box -> nice (boxD box) f -> nice (boxD box) g -> bint box (fun x => k * f x + l * g x) = k * bint box f + l * bint box g.
Proof. intros box k l f g W. apply (bint_all box W). Qed.
Lemma bint_scal : forall box k (f : list R -> R), wide box -> nice (boxD box) f -> bint box (fun x => k * f x) = k * bint box f.
Proof.
  intros box k f W N. transitivity (bint box (fun x => k * f x + 0 * f x)); [apply bint_eqb; auto; intros; ring|]. rewrite bint_lin by auto. ring.
Qed.
Lemma bint_plus : forall box (f g : list R -> R), wide box -> nice (boxD box) f -> nice (boxD box) g -> bint box (fun x => f x + g x) = bint box f + bint box g.
Proof.
  intros box f g W F G. transitivity (bint box (fun x => 1 * f x + 1 * g x)); [apply bint_eqb; auto; intros; ring|]. rewrite bint_lin by auto. ring.
Qed.
Lemma bint_minus : forall box (f g : list R -> R), wide box -> nice (boxD box) f -> nice (boxD box) g -> bint box (fun x => f x - g x) = bint box f - bint box g.
Proof.
  intros box f g W F G. transitivity (bint box (fun x => 1 * f x + -1 * g x)); [apply bint_eqb; auto; intros; ring|]. rewrite bint_lin by auto. ring.
Qed.

(** the order of integration over two boxes can be exchanged *)
Lemma fubini_mid : forall b2 lo hi (F : R -> list R -> R), wide b2 -> lo <= hi -> nice (prodD (seg lo hi) (boxD b2)) (fun z => F (fst z) (snd z)) ->
  RInt (fun v => bint b2 (F v)) lo hi = bint b2 (fun y => RInt (fun v => F v y) lo hi).
Proof.
  induction b2 as [|[c d] b2 IH]; intros lo hi F W H N; [reflexivity|]. inversion W as [|? ? H2 W']; subst. cbn in H2. cbn [bint].
  assert (NG : nice (prodD (prodD (seg lo hi) (seg c d)) (boxD b2)) (fun z => F (fst (fst z)) (snd (fst z) :: snd z))).
  { apply (nice_map (prodD (prodD (seg lo hi) (seg c d)) (boxD b2)) (prodD (seg lo hi) (boxD ((c, d) :: b2))) (fun z => (fst (fst z), snd (fst z) :: snd z)) (fun z => F (fst z) (snd z))); auto.
    apply smooth_pair.
    - apply (smooth_comp (prodD (prodD (seg lo hi) (seg c d)) (boxD b2)) (prodD (seg lo hi) (seg c d)) (seg lo hi) fst fst); apply smooth_fst.
    - apply (smooth_head (prodD (seg lo hi) (seg c d)) c d b2 snd). apply smooth_snd. }
  rewrite (fubini1 lo hi c d (fun v w => bint b2 (fun t => F v (w :: t)))); auto.
  - apply RInt_eqb; auto. intros w Hw. apply (IH lo hi (fun v t => F v (w :: t))); auto.
    apply (nice_map (prodD (seg lo hi) (boxD b2)) (prodD (prodD (seg lo hi) (seg c d)) (boxD b2)) (fun z => ((fst z, w), snd z)) (fun z => F (fst (fst z)) (snd (fst z) :: snd z))); auto.
    apply smooth_pair; [apply smooth_pair; [apply smooth_fst|apply smooth_const; [intros; apply seg_refl; auto|exact Hw]]|apply smooth_snd].
  - apply (nice_bint b2 (prodD (seg lo hi) (seg c d)) (fun z t => F (fst z) (snd z :: t))); auto.
    intros dd [p v] Hd. split; apply seg_refl; auto.
Qed.

Lemma fubini : forall b1 b2 (F : list R -> list R -> R), wide b1 -> wide b2 -> nice (prodD (boxD b1) (boxD b2)) (fun z => F (fst z) (snd z)) ->
  bint b1 (fun x => bint b2 (F x)) = bint b2 (fun y => bint b1 (fun x => F x y)).
Proof.
  induction b1 as [|[lo hi] b1 IH]; intros b2 F W1 W2 N; [reflexivity|]. inversion W1 as [|? ? H W']; subst. cbn in H. cbn [bint].
  rewrite (RInt_eqb lo hi _ (fun v => bint b2 (fun y => bint b1 (fun x => F (v :: x) y)))); auto.
  - apply (fubini_mid b2 lo hi (fun v y => bint b1 (fun x => F (v :: x) y))); auto.
    apply (nice_bint b1 (prodD (seg lo hi) (boxD b2)) (fun z x => F (fst z :: x) (snd z))); auto.
    + intros d [p v] Hd. split; [apply seg_refl; auto|apply box_refl; auto].
    + apply (nice_map (prodD (prodD (seg lo hi) (boxD b2)) (boxD b1)) (prodD (boxD ((lo, hi) :: b1)) (boxD b2)) (fun z => (fst (fst z) :: snd z, snd (fst z))) (fun z => F (fst z) (snd z))); auto.
      apply smooth_pair.
      * apply (smooth_head (prodD (seg lo hi) (boxD b2)) lo hi b1 fst). apply smooth_fst.
      * apply (smooth_comp (prodD (prodD (seg lo hi) (boxD b2)) (boxD b1)) (prodD (seg lo hi) (boxD b2)) (boxD b2) fst snd); [apply smooth_fst|apply smooth_snd].
  - intros v Hv. apply IH; auto.
    apply (nice_map (prodD (boxD b1) (boxD b2)) (prodD (boxD ((lo, hi) :: b1)) (boxD b2)) (fun z => (v :: fst z, snd z)) (fun z => F (fst z) (snd z))); auto.
    apply smooth_pair; [|apply smooth_snd]. apply smooth_cons; [apply smooth_const; [intros; apply seg_refl; auto|exact Hv]|apply smooth_fst].
Qed.
