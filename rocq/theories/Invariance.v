(** The kernel of a Metropolis step with the boundary map of the shipped models, and of a swap, over exact reals. *)
From Coq Require Import ZArith List Bool Reals Lia Lra.
From Coquelicot Require Import Coquelicot.
From Verif Require Import Base Arith UserModels Boundary BounceDensity.
From Verif Require Import Nice.
Import ListNotations.
Open Scope R_scope.

(** density of the step of a whole row, and the row after the step *)
Fixpoint dens (phis : list (R -> R)) (s : list R) : R :=
  match phis, s with phi :: ps, v :: t => phi v * dens ps t | _, _ => 1 end.
Fixpoint addl (x s : list R) : list R := match x, s with v :: t, w :: u => v + w :: addl t u | _, _ => [] end.
Definition widths (box : list (R * R)) : list (R * R) := map (fun p => (- (snd p - fst p), snd p - fst p)) box.
Definition even_density (phi : R -> R) : Prop := (forall s, continuous phi s) /\ forall s, phi (- s) = phi s.

Definition q1 (phi : R -> R) (lo hi x y : R) : R := phi (y - x) + phi (Rmin (2 * hi - x - y) (x + y - 2 * lo)).
Fixpoint kern (phis : list (R -> R)) (box : list (R * R)) (x y : list R) : R :=
  match phis, box, x, y with phi :: ps, (lo, hi) :: b, v :: t, w :: u => q1 phi lo hi v w * kern ps b t u | _, _, _, _ => 1 end.

Lemma q1_sym : forall phi lo hi x y, even_density phi -> q1 phi lo hi x y = q1 phi lo hi y x.
Proof.
  intros phi lo hi x y [_ E]. unfold q1. replace (x - y) with (- (y - x)) by ring. rewrite E.
  replace (2 * hi - y - x) with (2 * hi - x - y) by ring. replace (y + x - 2 * lo) with (x + y - 2 * lo) by ring. reflexivity.
Qed.
Lemma kern_sym : forall phis, List.Forall even_density phis -> forall box x y, kern phis box x y = kern phis box y x.
Proof.
  induction 1 as [|phi ps E _ IH]; intros [|[lo hi] b] [|v t] [|w u]; cbn; auto. rewrite q1_sym by auto. rewrite IH. reflexivity.
Qed.

(** one coordinate: the steps of at most the width of the box, folded back *)
Lemma fold1 : forall phi lo hi x h, even_density phi -> lo <= hi -> lo <= x <= hi -> nice (seg lo hi) h ->
  RInt (fun s : R => phi s * h (bounce_inside (A := RArith) (x + s) lo hi)) (- (hi - lo)) (hi - lo) = RInt (fun y => q1 phi lo hi x y * h y) lo hi.
Proof.
  intros phi lo hi x h [C E] H Hx N. set (hc := fun v => h (clamp lo hi v)).
  assert (HC : forall v, continuous hc v) by (apply nice_clamp_cont; auto).
  assert (CA : forall u s, continuous (fun s => u - s) s).
  { intros u s. apply (continuous_minus (fun _ => u) (fun s => s)); [apply continuous_const|apply continuous_id]. }
  assert (CP : forall u s, continuous (fun s => u + s) s).
  { intros u s. apply (continuous_plus (fun _ => u) (fun s => s)); [apply continuous_const|apply continuous_id]. }
  assert (CF : forall u s, continuous (fun s => phi s * hc (u - s)) s).
  { intros u s. apply (continuous_mult phi (fun s => hc (u - s))); [auto|]. apply (continuous_comp (fun s => u - s) hc); auto. }
  assert (CG : forall u s, continuous (fun s => phi s * hc (u + s)) s).
  { intros u s. apply (continuous_mult phi (fun s => hc (u + s))); [auto|]. apply (continuous_comp (fun s => u + s) hc); auto. }
  set (B := fun s => phi s * h (bounce_inside (A := RArith) (x + s) lo hi)).
  assert (BE : forall s, - (hi - lo) <= s <= hi - lo -> B s = phi s * hc (if Rlt_dec hi (x + s) then 2 * hi - x - s else if Rlt_dec (x + s) lo then 2 * lo - x - s else x + s)).
  { intros s Hs. unfold B, hc.
    assert (K : bounce_inside (A := RArith) (x + s) lo hi = clamp lo hi (if Rlt_dec hi (x + s) then 2 * hi - x - s else if Rlt_dec (x + s) lo then 2 * lo - x - s else x + s) :> R).
    { refine (eq_trans (Rbounce_eq (x + s) lo hi H) _). match goal with |- @eq _ ?a ?b => change (@eq R a b) end.
      destruct (Rlt_dec hi (x + s)); [rewrite Rmax_left by lra; rewrite clamp_id by lra; ring|].
      destruct (Rlt_dec (x + s) lo); [rewrite Rmin_left by lra; rewrite clamp_id by lra; ring|]. rewrite clamp_id by lra; ring. }
    f_equal. exact (f_equal h K). }
  assert (I1 : is_RInt (V := R_CompleteNormedModule) B (- (hi - lo)) (lo - x) (RInt (fun s => phi s * hc (2 * lo - x - s)) (- (hi - lo)) (lo - x))).
  { apply (is_RInt_ext (fun s => phi s * hc (2 * lo - x - s))).
    - intros s Hs. rewrite Rmin_left, Rmax_right in Hs by lra. rewrite BE by lra. destruct (Rlt_dec hi (x + s)); [lra|]. destruct (Rlt_dec (x + s) lo); [reflexivity|lra].
    - apply (RInt_correct (V := R_CompleteNormedModule)), ex_RInt_cont. auto. }
  assert (I2 : is_RInt (V := R_CompleteNormedModule) B (lo - x) (hi - x) (RInt (fun s => phi s * hc (x + s)) (lo - x) (hi - x))).
  { apply (is_RInt_ext (fun s => phi s * hc (x + s))).
    - intros s Hs. rewrite Rmin_left, Rmax_right in Hs by lra. rewrite BE by lra. destruct (Rlt_dec hi (x + s)); [lra|]. destruct (Rlt_dec (x + s) lo); [lra|reflexivity].
    - apply (RInt_correct (V := R_CompleteNormedModule)), ex_RInt_cont. auto. }
  assert (I3 : is_RInt (V := R_CompleteNormedModule) B (hi - x) (hi - lo) (RInt (fun s => phi s * hc (2 * hi - x - s)) (hi - x) (hi - lo))).
  { apply (is_RInt_ext (fun s => phi s * hc (2 * hi - x - s))).
    - intros s Hs. rewrite Rmin_left, Rmax_right in Hs by lra. rewrite BE by lra. destruct (Rlt_dec hi (x + s)); [reflexivity|lra].
    - apply (RInt_correct (V := R_CompleteNormedModule)), ex_RInt_cont. auto. }
  pose proof (is_RInt_unique (V := R_CompleteNormedModule) _ _ _ _ (is_RInt_Chasles _ _ _ _ _ _ (is_RInt_Chasles _ _ _ _ _ _ I1 I2) I3)) as EL.
  change (RInt B (- (hi - lo)) (hi - lo) = RInt (fun y => q1 phi lo hi x y * h y) lo hi).
  refine (eq_trans EL _). clear EL I1 I2 I3 BE.
  (* right hand side *)
  set (R1 := fun y => phi (y - x) * hc y). set (R2 := fun y => phi (x + y - 2 * lo) * hc y). set (R3 := fun y => phi (2 * hi - x - y) * hc y).
  assert (K1 : forall s, continuous R1 s).
  { intros s. apply (continuous_mult (fun y => phi (y - x)) hc); [|auto]. apply (continuous_comp (fun y => y - x) phi); [|auto].
    apply (continuous_minus (fun y => y) (fun _ => x)); [apply continuous_id|apply continuous_const]. }
  assert (K2 : forall s, continuous R2 s).
  { intros s. apply (continuous_mult (fun y => phi (x + y - 2 * lo)) hc); [|auto]. apply (continuous_comp (fun y => x + y - 2 * lo) phi); [|auto].
    apply (continuous_minus (fun y => x + y) (fun _ => 2 * lo)); [apply CP|apply continuous_const]. }
  assert (K3 : forall s, continuous R3 s).
  { intros s. apply (continuous_mult (fun y => phi (2 * hi - x - y)) hc); [|auto]. apply (continuous_comp (fun y => 2 * hi - x - y) phi); [apply CA|auto]. }
  assert (J1 : is_RInt (V := R_CompleteNormedModule) (fun y => q1 phi lo hi x y * h y) lo (lo + hi - x) (RInt (fun y => R1 y + R2 y) lo (lo + hi - x))).
  { apply (is_RInt_ext (fun y => R1 y + R2 y)).
    - intros s Hs. rewrite Rmin_left, Rmax_right in Hs by lra. unfold R1, R2, q1, hc. rewrite clamp_id by lra. rewrite Rmin_right by lra. match goal with |- @eq _ ?a ?b => change (@eq R a b) end. ring.
    - apply (RInt_correct (V := R_CompleteNormedModule)), ex_RInt_cont. intros s. apply (continuous_plus R1 R2); auto. }
  assert (J2 : is_RInt (V := R_CompleteNormedModule) (fun y => q1 phi lo hi x y * h y) (lo + hi - x) hi (RInt (fun y => R1 y + R3 y) (lo + hi - x) hi)).
  { apply (is_RInt_ext (fun y => R1 y + R3 y)).
    - intros s Hs. rewrite Rmin_left, Rmax_right in Hs by lra. unfold R1, R3, q1, hc. rewrite clamp_id by lra. rewrite Rmin_left by lra. match goal with |- @eq _ ?a ?b => change (@eq R a b) end. ring.
    - apply (RInt_correct (V := R_CompleteNormedModule)), ex_RInt_cont. intros s. apply (continuous_plus R1 R3); auto. }
  symmetry. pose proof (is_RInt_unique (V := R_CompleteNormedModule) _ _ _ _ (is_RInt_Chasles _ _ _ _ _ _ J1 J2)) as ER.
  refine (eq_trans ER _). clear ER J1 J2.
  assert (PL : forall (f g : R -> R) a b, (forall s, continuous f s) -> (forall s, continuous g s) -> RInt (fun y => f y + g y) a b = RInt f a b + RInt g a b).
  { intros f g a b F G. exact (RInt_plus (V := R_CompleteNormedModule) f g a b (ex_RInt_cont f a b F) (ex_RInt_cont g a b G)). }
  assert (CH : forall (f : R -> R) a b c, (forall s, continuous f s) -> RInt f a b + RInt f b c = RInt f a c).
  { intros f a b c F. exact (RInt_Chasles (V := R_CompleteNormedModule) f a b c (ex_RInt_cont f a b F) (ex_RInt_cont f b c F)). }
  assert (E1 : RInt R1 lo hi = RInt (fun s => phi s * hc (x + s)) (lo - x) (hi - x)).
  { pose proof (RInt_shift (fun s => phi s * hc (x + s)) (- x) lo hi (CG x)) as K. replace (lo + - x) with (lo - x) in K by ring. replace (hi + - x) with (hi - x) in K by ring.
    rewrite <- K. apply RInt_eqb; auto. intros v _. unfold R1. replace (v + - x) with (v - x) by ring. replace (x + (v - x)) with v by ring. reflexivity. }
  assert (E2 : RInt R2 lo (lo + hi - x) = RInt (fun s => phi s * hc (2 * lo - x - s)) (- (hi - lo)) (lo - x)).
  { pose proof (RInt_reflect (fun s => phi s * hc (2 * lo - x - s)) (2 * lo - x) lo (lo + hi - x) (CF _)) as K.
    replace (2 * lo - x - (lo + hi - x)) with (- (hi - lo)) in K by ring. replace (2 * lo - x - lo) with (lo - x) in K by ring.
    rewrite <- K. apply RInt_eqb; [lra|]. intros v _. unfold R2. rewrite <- (E (x + v - 2 * lo)). replace (- (x + v - 2 * lo)) with (2 * lo - x - v) by ring.
    replace (2 * lo - x - (2 * lo - x - v)) with v by ring. reflexivity. }
  assert (E3 : RInt R3 (lo + hi - x) hi = RInt (fun s => phi s * hc (2 * hi - x - s)) (hi - x) (hi - lo)).
  { pose proof (RInt_reflect (fun s => phi s * hc (2 * hi - x - s)) (2 * hi - x) (lo + hi - x) hi (CF _)) as K.
    replace (2 * hi - x - (lo + hi - x)) with (hi - lo) in K by ring. replace (2 * hi - x - hi) with (hi - x) in K by ring.
    rewrite <- K. apply RInt_eqb; [lra|]. intros v _. unfold R3. replace (2 * hi - x - (2 * hi - x - v)) with v by ring. reflexivity. }
  rewrite (PL R1 R2), (PL R1 R3) by auto. rewrite E2, E3. rewrite <- (CH R1 lo (lo + hi - x) hi) in E1 by auto.
  enough (K : forall a b c d e : R, a + c = e -> a + b + (c + d) = b + e + d) by exact (K _ _ _ _ _ E1).
  intros; lra.
Qed.

(** ** nice functions built from the model *)
Lemma smooth_lip : forall P (f : pt P -> R) lo hi, nice P f -> (forall x, inD P x -> lo <= f x <= hi) -> smooth P (seg lo hi) f.
Proof. intros P f lo hi [_ C] I. split; [exact I|]. intros d Hd. destruct (C d Hd) as [d' [Hd' K]]. exists d'. split; auto. Qed.
Lemma nice_of_smooth : forall P (f : pt P -> R) lo hi, smooth P (seg lo hi) f -> nice P f.
Proof.
  intros P f lo hi [I C]. split.
  - exists (Rabs lo + Rabs hi). intros x Hx. destruct (I x Hx) as [A B]. apply Rabs_le.
    pose proof (Rle_abs hi). pose proof (Rle_abs (- lo)). rewrite Rabs_Ropp in *. pose proof (Rabs_pos lo). pose proof (Rabs_pos hi). lra.
  - intros e He. destruct (C e He) as [d [Hd K]]. exists d. split; auto.
Qed.

Lemma nice_min : forall P f g, nice P f -> nice P g -> nice P (fun x => Rmin (f x) (g x)).
Proof.
  intros P f g F G. apply nice_ext with (fun x => / 2 * (f x + g x) + - / 2 * Rabs (f x - g x)).
  - intros x _. unfold Rmin, Rabs. destruct (Rle_dec _ _); destruct (Rcase_abs _); lra.
  - apply nice_lin; [apply nice_plus; auto|]. apply (nice_comp P Rabs (fun x => f x - g x)); [|apply nice_minus; auto].
    intros z. apply continuity_pt_filterlim. apply Rcontinuity_abs.
Qed.

Lemma nice_q1 : forall P phi lo hi u v, even_density phi -> nice P u -> nice P v -> nice P (fun z => q1 phi lo hi (u z) (v z)).
Proof.
  intros P phi lo hi u v [C _] U V. unfold q1. apply nice_plus.
  - apply (nice_comp P phi (fun z => v z - u z)); auto. apply nice_minus; auto.
  - apply (nice_comp P phi (fun z => Rmin (2 * hi - u z - v z) (u z + v z - 2 * lo))); auto. apply nice_min.
    + apply nice_minus; auto. apply nice_minus; auto using nice_const.
    + apply nice_minus; auto using nice_const. apply nice_plus; auto.
Qed.

Lemma smooth_hd : forall lo hi box, smooth (boxD ((lo, hi) :: box)) (seg lo hi) (fun x => hd 0 x).
Proof.
  intros lo hi box. split; [intros x Hx; inversion Hx; subst; cbn in *; auto|]. intros d Hd. exists d. split; auto.
  intros x y Hx Hy N. inversion Hx; subst. inversion Hy; subst. inversion N; subst. cbn. auto.
Qed.
Lemma smooth_tl : forall lo hi box, smooth (boxD ((lo, hi) :: box)) (boxD box) (fun x => tl x).
Proof.
  intros lo hi box. split; [intros x Hx; inversion Hx; subst; cbn in *; auto|]. intros d Hd. exists d. split; auto.
  intros x y Hx Hy N. inversion Hx; subst. inversion Hy; subst. inversion N; subst. cbn. auto.
Qed.

Lemma nice_kern : forall phis, List.Forall even_density phis -> forall box P u v, length phis = length box ->
  smooth P (boxD box) u -> smooth P (boxD box) v -> nice P (fun z => kern phis box (u z) (v z)).
Proof.
  induction 1 as [|phi ps E _ IH]; intros [|[lo hi] box] P u v HL U V; try discriminate; cbn [kern].
  - apply nice_const.
  - injection HL as HL. apply nice_ext with (fun z => q1 phi lo hi (hd 0 (u z)) (hd 0 (v z)) * kern ps box (tl (u z)) (tl (v z))).
    + intros z Hz. destruct U as [U _]. destruct V as [V _]. specialize (U z Hz). specialize (V z Hz). inversion U; subst. inversion V; subst. reflexivity.
    + apply nice_mult.
      * apply nice_q1; auto; apply nice_of_smooth with lo hi.
        -- apply (smooth_comp P (boxD ((lo, hi) :: box)) (seg lo hi) u (fun x => hd 0 x)); auto using smooth_hd.
        -- apply (smooth_comp P (boxD ((lo, hi) :: box)) (seg lo hi) v (fun x => hd 0 x)); auto using smooth_hd.
      * apply (IH box P (fun z => tl (u z)) (fun z => tl (v z))); auto.
        -- apply (smooth_comp P (boxD ((lo, hi) :: box)) (boxD box) u (fun x => tl x)); auto using smooth_tl.
        -- apply (smooth_comp P (boxD ((lo, hi) :: box)) (boxD box) v (fun x => tl x)); auto using smooth_tl.
Qed.

Lemma nice_dens : forall phis, List.Forall even_density phis -> forall box P u, length phis = length box -> smooth P (boxD box) u -> nice P (fun z => dens phis (u z)).
Proof.
  induction 1 as [|phi ps E _ IH]; intros [|[lo hi] box] P u HL U; try discriminate; cbn [dens].
  - apply nice_const.
  - injection HL as HL. apply nice_ext with (fun z => phi (hd 0 (u z)) * dens ps (tl (u z))).
    + intros z Hz. destruct U as [U _]. specialize (U z Hz). inversion U; subst. reflexivity.
    + apply nice_mult.
      * apply (nice_comp P phi (fun z => hd 0 (u z))); [apply E|]. apply nice_of_smooth with lo hi.
        apply (smooth_comp P (boxD ((lo, hi) :: box)) (seg lo hi) u (fun x => hd 0 x)); auto using smooth_hd.
      * apply (IH box P (fun z => tl (u z))); auto.
        apply (smooth_comp P (boxD ((lo, hi) :: box)) (boxD box) u (fun x => tl x)); auto using smooth_tl.
Qed.

(** the boundary map is continuous along the steps of at most the width, and ends in the box *)
Lemma bounce_lip : forall lo hi v w, lo <= hi ->
  Rabs (bounce_inside (A := RArith) v lo hi - bounce_inside (A := RArith) w lo hi) <= Rabs (v - w).
Proof.
  intros lo hi v w H. rewrite !Rbounce_eq by lra. unfold Rmax, Rmin.
  destruct (Rlt_dec hi v); destruct (Rlt_dec hi w);
  repeat (match goal with |- context [Rlt_dec ?a ?b] => destruct (Rlt_dec a b) | |- context [Rle_dec ?a ?b] => destruct (Rle_dec a b) end);
  unfold Rabs; repeat destruct (Rcase_abs _); lra.
Qed.
Lemma bounce_in : forall lo hi v, lo <= hi -> lo <= bounce_inside (A := RArith) v lo hi <= hi.
Proof.
  intros lo hi v H. rewrite Rbounce_eq by lra. unfold Rmax, Rmin. destruct (Rlt_dec hi v); [destruct (Rle_dec _ _); lra|].
  destruct (Rlt_dec v lo); [destruct (Rle_dec _ _); lra|lra].
Qed.

Notation bound := (para_boundary (A := RArith)).
Lemma smooth_bound : forall box P u s, wide box -> smooth P (boxD box) u -> smooth P (boxD (widths box)) s -> smooth P (boxD box) (fun z => bound box (addl (u z) (s z))).
Proof.
  induction box as [|[lo hi] box IH]; intros P u s W U S.
  - assert (EU : forall x, inD P x -> bound [] (addl (u x) (s x)) = []).
    { intros x Hx. destruct U as [U _]. specialize (U x Hx). change (inside [] (u x)) in U. destruct (u x) as [|v t]; [reflexivity|inversion U]. }
    split.
    + intros x Hx. change (inside [] (bound [] (addl (u x) (s x)))). rewrite EU by auto. constructor.
    + intros d Hd. exists 1. split; [lra|]. intros x y Hx Hy _. change (close d (bound [] (addl (u x) (s x))) (bound [] (addl (u y) (s y)))). rewrite !EU by auto. constructor.
  - inversion W as [|? ? H W']; subst. cbn in H.
    assert (UH : smooth P (seg lo hi) (fun z => hd 0 (u z))) by (apply (smooth_comp P (boxD ((lo, hi) :: box)) (seg lo hi) u (fun x => hd 0 x)); auto using smooth_hd).
    assert (UT : smooth P (boxD box) (fun z => tl (u z))) by (apply (smooth_comp P (boxD ((lo, hi) :: box)) (boxD box) u (fun x => tl x)); auto using smooth_tl).
    assert (SH : smooth P (seg (- (hi - lo)) (hi - lo)) (fun z => hd 0 (s z))) by (apply (smooth_comp P (boxD (widths ((lo, hi) :: box))) (seg (- (hi - lo)) (hi - lo)) s (fun x => hd 0 x)); auto; apply smooth_hd).
    assert (ST : smooth P (boxD (widths box)) (fun z => tl (s z))) by (apply (smooth_comp P (boxD (widths ((lo, hi) :: box))) (boxD (widths box)) s (fun x => tl x)); auto; apply smooth_tl).
    assert (EQ : forall z, inD P z -> bound ((lo, hi) :: box) (addl (u z) (s z)) = bounce_inside (A := RArith) (hd 0 (u z) + hd 0 (s z)) lo hi :: bound box (addl (tl (u z)) (tl (s z)))).
    { intros z Hz. destruct U as [U _]. destruct S as [S _]. specialize (U z Hz). specialize (S z Hz). inversion U; subst. inversion S; subst. reflexivity. }
    assert (BH : smooth P (seg lo hi) (fun z => bounce_inside (A := RArith) (hd 0 (u z) + hd 0 (s z)) lo hi)).
    { split; [intros x Hx; apply bounce_in; auto|]. intros d Hd. destruct UH as [U1 U2]. destruct SH as [S1 S2].
      destruct (U2 (d / 2)) as [d1 [D1 K1]]; [lra|]. destruct (S2 (d / 2)) as [d2 [D2 K2]]; [lra|]. exists (Rmin d1 d2). split; [apply Rmin_glb_lt; auto|].
      intros x y Hx Hy N. specialize (K1 x y Hx Hy (nr_mono P _ _ _ _ (Rmin_l d1 d2) N)). specialize (K2 x y Hx Hy (nr_mono P _ _ _ _ (Rmin_r d1 d2) N)).
      pose proof (U1 x Hx) as A1. pose proof (U1 y Hy) as A2. pose proof (S1 x Hx) as A3. pose proof (S1 y Hy) as A4. cbn in K1, K2, A1, A2, A3, A4.
      cbn [seg nr]. eapply Rle_lt_trans; [apply bounce_lip; lra|].
      replace (hd 0 (u x) + hd 0 (s x) - (hd 0 (u y) + hd 0 (s y))) with ((hd 0 (u x) - hd 0 (u y)) + (hd 0 (s x) - hd 0 (s y))) by ring.
      eapply Rle_lt_trans; [apply Rabs_triang|]. lra. }
    pose proof (smooth_cons P lo hi box _ _ BH (IH P _ _ W' UT ST)) as [G1 G2]. split.
    + intros x Hx. pose proof (G1 x Hx) as K. rewrite <- EQ in K by auto. exact K.
    + intros d Hd. destruct (G2 d Hd) as [d' [Hd' K]]. exists d'. split; auto. intros x y Hx Hy N. pose proof (K x y Hx Hy N) as KK. rewrite <- !EQ in KK by auto. exact KK.
Qed.

(** all coordinates *)
Lemma wide_widths : forall box, wide box -> wide (widths box).
Proof. induction 1 as [|[lo hi] b H _ IH]; constructor; cbn in *; auto. lra. Qed.
Lemma widths_length : forall box, length (widths box) = length box.
Proof. intros. apply map_length. Qed.

Lemma fold_all : forall phis, List.Forall even_density phis -> forall box x (h : list R -> R), length phis = length box -> wide box -> inside box x -> nice (boxD box) h ->
  bint (widths box) (fun s => dens phis s * h (bound box (addl x s))) = bint box (fun y => kern phis box x y * h y).
Proof.
  induction 1 as [|phi ps E HF IH]; intros [|[lo hi] box] x h HL W I N; try discriminate.
  - inversion I; subst. reflexivity.
  - injection HL as HL. inversion W as [|? ? H W']; subst. cbn in H. inversion I as [|? v ? t Hv It]; subst. cbn in Hv. cbn [widths map bint fst snd].
    change (map (fun p : R * R => (- (snd p - fst p), snd p - fst p)) box) with (widths box).
    set (Hh := fun y0 => bint box (fun y => kern ps box t y * h (y0 :: y))).
    assert (SEC : forall y0, lo <= y0 <= hi -> nice (boxD box) (fun y => h (y0 :: y))).
    { intros y0 Hy. apply (nice_map (boxD box) (boxD ((lo, hi) :: box)) (fun y => y0 :: y) h); auto. apply smooth_cons; [apply smooth_const; [intros; apply seg_refl; auto|exact Hy]|apply smooth_id]. }
    assert (ST : forall d, 0 < d -> nr (boxD box) d t t) by (intros; apply box_refl; auto).
    assert (NH : nice (seg lo hi) Hh).
    { apply (nice_bint box (seg lo hi) (fun y0 y => kern ps box t y * h (y0 :: y))); auto; [intros d z Hd; apply seg_refl; auto|].
      apply nice_mult.
      - apply (nice_kern ps HF box (prodD (seg lo hi) (boxD box)) (fun _ => t) (fun z => snd z)); auto; [apply smooth_const; auto|apply smooth_snd].
      - apply (nice_map (prodD (seg lo hi) (boxD box)) (boxD ((lo, hi) :: box)) (fun z => fst z :: snd z) h); auto. apply (smooth_head (seg lo hi) lo hi box (fun v => v)). apply smooth_id. }
    transitivity (RInt (fun s : R => phi s * Hh (bounce_inside (A := RArith) (v + s) lo hi)) (- (hi - lo)) (hi - lo)).
    + apply RInt_eqb; [lra|]. intros s Hs. cbn [dens addl para_boundary].
      set (y0 := bounce_inside (A := RArith) (v + s) lo hi). assert (Hy : lo <= y0 <= hi) by (apply bounce_in; auto).
      transitivity (bint (widths box) (fun s' => phi s * (dens ps s' * h (y0 :: bound box (addl t s'))))).
      * apply bint_eqb; [apply wide_widths; auto|]. intros s' _. ring.
      * rewrite bint_scal; [|apply wide_widths; auto|].
        -- f_equal. exact (IH box t (fun y => h (y0 :: y)) HL W' It (SEC y0 Hy)).
        -- apply nice_mult.
           ++ apply (nice_dens ps HF (widths box) (boxD (widths box)) (fun z => z)); [rewrite widths_length; auto|apply smooth_id].
           ++ apply (nice_map (boxD (widths box)) (boxD box) (fun s' => bound box (addl t s')) (fun y => h (y0 :: y))); auto.
              apply (smooth_bound box (boxD (widths box)) (fun _ => t) (fun z => z)); auto; [apply smooth_const; auto|apply smooth_id].
    + rewrite fold1; auto. apply RInt_eqb; auto. intros y0 Hy. cbn [kern]. unfold Hh. rewrite <- bint_scal; auto.
      * apply bint_eqb; auto. intros y _. ring.
      * apply nice_mult; auto. apply (nice_kern ps HF box (boxD box) (fun _ => t) (fun z => z)); auto; [apply smooth_const; auto|apply smooth_id].
Qed.

(** ** the Metropolis step *)
Definition accept (L L' : R) : R := Rmin 1 (exp (L' - L)).
Lemma accept_balance : forall L L', exp L * accept L L' = exp L' * accept L' L.
Proof.
  intros L L'. unfold accept. rewrite !exp_plus || idtac. replace (exp (L' - L)) with (exp L' / exp L) by (unfold Rminus, Rdiv; rewrite exp_plus, exp_Ropp; auto).
  replace (exp (L - L')) with (exp L / exp L') by (unfold Rminus, Rdiv; rewrite exp_plus, exp_Ropp; auto).
  pose proof (exp_pos L) as A. pose proof (exp_pos L') as B. set (a := exp L) in *. set (b := exp L') in *.
  unfold Rmin. destruct (Rle_dec 1 (b / a)) as [H1|H1]; destruct (Rle_dec 1 (a / b)) as [H2|H2].
  - apply Rmult_le_compat_r with (r := a) in H1; [|lra]. apply Rmult_le_compat_r with (r := b) in H2; [|lra].
    unfold Rdiv in *. rewrite Rmult_assoc, Rinv_l in H1, H2 by lra. lra.
  - field. lra.
  - field. lra.
  - exfalso. assert (K1 : b / a < 1) by lra. assert (K2 : a / b < 1) by lra. apply Rmult_lt_compat_r with (r := a) in K1; [|lra]. apply Rmult_lt_compat_r with (r := b) in K2; [|lra].
    unfold Rdiv in *. rewrite Rmult_assoc, Rinv_l in K1, K2 by lra. lra.
Qed.

Lemma cont_exp : forall z, continuous exp z.
Proof. intros z. apply (ex_derive_continuous exp). auto_derive. auto. Qed.
Lemma nice_exp : forall P f, nice P f -> nice P (fun x => exp (f x)).
Proof. intros P f N. apply (nice_comp P exp f); auto using cont_exp. Qed.
Lemma nice_accept : forall P f g, nice P f -> nice P g -> nice P (fun x => accept (f x) (g x)).
Proof. intros P f g F G. unfold accept. apply nice_min; [apply nice_const|]. apply nice_exp. apply nice_minus; auto. Qed.

(** mean of g after one step of the chain from x, over the steps of at most the width of the box *)
Definition step (phis : list (R -> R)) (box : list (R * R)) (L g : list R -> R) (x : list R) : R :=
  bint (widths box) (fun s => dens phis s *
    (let y := bound box (addl x s) in accept (L x) (L y) * g y + (1 - accept (L x) (L y)) * g x)).

Lemma step_invariant : forall phis box (L g : list R -> R), List.Forall even_density phis -> length phis = length box -> wide box ->
  nice (boxD box) L -> nice (boxD box) g ->
  bint box (fun x => exp (L x) * step phis box L g x) = bint (widths box) (dens phis) * bint box (fun x => exp (L x) * g x).
Proof.
  intros phis box L g HF HL W NL NG.
  set (B2 := prodD (boxD box) (boxD box)).
  assert (S1 : smooth B2 (boxD box) fst) by apply smooth_fst. assert (S2 : smooth B2 (boxD box) snd) by apply smooth_snd.
  assert (R2 : reflD (boxD box)) by (intros d x Hd; apply box_refl; auto).
  set (m := fun x y : list R => exp (L x) * kern phis box x y * accept (L x) (L y)).
  assert (M : forall x y, m x y = m y x).
  { intros x y. unfold m. rewrite (kern_sym phis HF box x y). replace (exp (L x) * kern phis box y x * accept (L x) (L y)) with (kern phis box y x * (exp (L x) * accept (L x) (L y))) by ring.
    rewrite accept_balance. ring. }
  assert (N1 : nice B2 (fun z => L (fst z))) by (apply (nice_map B2 (boxD box) fst L); auto).
  assert (N2 : nice B2 (fun z => L (snd z))) by (apply (nice_map B2 (boxD box) snd L); auto).
  assert (N3 : nice B2 (fun z => g (fst z))) by (apply (nice_map B2 (boxD box) fst g); auto).
  assert (N4 : nice B2 (fun z => g (snd z))) by (apply (nice_map B2 (boxD box) snd g); auto).
  assert (NK : nice B2 (fun z => kern phis box (fst z) (snd z))) by (apply nice_kern; auto).
  assert (NM : nice B2 (fun z => m (fst z) (snd z))).
  { unfold m. apply nice_mult; [apply nice_mult; auto; apply nice_exp; auto|apply nice_accept; auto]. }
  assert (NMg : nice B2 (fun z => m (fst z) (snd z) * g (snd z))) by (apply nice_mult; auto).
  assert (NMf : nice B2 (fun z => m (fst z) (snd z) * g (fst z))) by (apply nice_mult; auto).
  assert (NE : nice (boxD box) (fun x => exp (L x) * g x)) by (apply nice_mult; auto; apply nice_exp; auto).
  assert (SECx : forall F x, inside box x -> nice B2 (fun z => F (fst z) (snd z)) -> nice (boxD box) (F x)).
  { intros F x Hx N. apply (nice_section (boxD box) (boxD box) F x); auto. }
  assert (TOT : forall x, inside box x -> bint box (kern phis box x) = bint (widths box) (dens phis)).
  { intros x Hx. pose proof (fold_all phis HF box x (fun _ => 1) HL W Hx (nice_const _ 1)) as K.
    transitivity (bint box (fun y => kern phis box x y * 1)); [apply bint_eqb; auto; intros; ring|]. rewrite <- K. apply bint_eqb; [apply wide_widths; auto|]. intros; ring. }
  transitivity (bint box (fun x => bint box (fun y => m x y * g y) - bint box (fun y => m x y * g x) + bint (widths box) (dens phis) * (exp (L x) * g x))).
  - apply bint_eqb; auto. intros x Hx. unfold step. cbv zeta.
    rewrite (fold_all phis HF box x (fun y => accept (L x) (L y) * g y + (1 - accept (L x) (L y)) * g x)); auto.
    2:{ assert (NA : nice (boxD box) (fun y => accept (L x) (L y))) by (apply nice_accept; auto using nice_const).
        apply nice_plus; apply nice_mult; auto using nice_const. apply nice_minus; auto using nice_const. }
    rewrite <- (TOT x Hx).
    assert (NKx : nice (boxD box) (kern phis box x)) by (apply (SECx (kern phis box)); auto).
    assert (NMgx : nice (boxD box) (fun y => m x y * g y)) by (apply (SECx (fun x y => m x y * g y)); auto).
    assert (NMfx : nice (boxD box) (fun y => m x y * g x)) by (apply (SECx (fun x y => m x y * g x)); auto).
    rewrite <- bint_minus by auto. rewrite (Rmult_comm (bint box (kern phis box x))). rewrite <- (bint_scal box (exp (L x) * g x) (kern phis box x)) by auto.
    rewrite <- bint_plus.
    + rewrite <- bint_scal; auto.
      * apply bint_eqb; auto. intros y _. unfold m. ring.
      * apply nice_mult; auto. assert (NA : nice (boxD box) (fun y => accept (L x) (L y))) by (apply nice_accept; auto using nice_const).
        apply nice_plus; apply nice_mult; auto using nice_const. apply nice_minus; auto using nice_const.
    + auto.
    + apply nice_minus; auto.
    + apply nice_mult; auto using nice_const.
  - assert (P1 : nice (boxD box) (fun x => bint box (fun y => m x y * g y))) by (apply (nice_bint box (boxD box) (fun x y => m x y * g y)); auto).
    assert (P2 : nice (boxD box) (fun x => bint box (fun y => m x y * g x))) by (apply (nice_bint box (boxD box) (fun x y => m x y * g x)); auto).
    rewrite bint_plus; [|auto|apply nice_minus; auto|apply nice_mult; auto using nice_const]. rewrite bint_minus by auto. rewrite bint_scal by auto.
    rewrite (fubini box box (fun x y => m x y * g y)) by auto.
    assert (EQ : bint box (fun y => bint box (fun x => m x y * g y)) = bint box (fun x => bint box (fun y => m x y * g x))).
    { apply bint_eqb; auto. intros y _. apply bint_eqb; auto. intros x _. rewrite M. reflexivity. }
    rewrite EQ. ring.
Qed.

(** ** the swap of two ranks *)
Definition swapk (Li Lj : list R -> R) (g : list R -> list R -> R) (x y : list R) : R :=
  let a := Rmin 1 (exp (Li y + Lj x - Li x - Lj y)) in a * g y x + (1 - a) * g x y.

Lemma swap_invariant : forall box (Li Lj : list R -> R) (g : list R -> list R -> R), wide box -> nice (boxD box) Li -> nice (boxD box) Lj ->
  nice (prodD (boxD box) (boxD box)) (fun z => g (fst z) (snd z)) ->
  bint box (fun x => bint box (fun y => exp (Li x) * exp (Lj y) * swapk Li Lj g x y)) = bint box (fun x => bint box (fun y => exp (Li x) * exp (Lj y) * g x y)).
Proof.
  intros box Li Lj g W NI NJ NG. set (B2 := prodD (boxD box) (boxD box)).
  assert (S1 : smooth B2 (boxD box) fst) by apply smooth_fst. assert (S2 : smooth B2 (boxD box) snd) by apply smooth_snd.
  assert (R2 : reflD (boxD box)) by (intros d x Hd; apply box_refl; auto).
  set (m := fun x y : list R => exp (Li x + Lj y) * accept (Li x + Lj y) (Li y + Lj x)).
  assert (M : forall x y, m x y = m y x) by (intros x y; apply accept_balance).
  assert (I1 : nice B2 (fun z => Li (fst z))) by (apply (nice_map B2 (boxD box) fst Li); auto).
  assert (I2 : nice B2 (fun z => Li (snd z))) by (apply (nice_map B2 (boxD box) snd Li); auto).
  assert (J1 : nice B2 (fun z => Lj (fst z))) by (apply (nice_map B2 (boxD box) fst Lj); auto).
  assert (J2 : nice B2 (fun z => Lj (snd z))) by (apply (nice_map B2 (boxD box) snd Lj); auto).
  assert (NS : nice B2 (fun z => g (snd z) (fst z))).
  { apply (nice_map B2 B2 (fun z => (snd z, fst z)) (fun z => g (fst z) (snd z))); auto. apply smooth_pair; auto. }
  assert (NM : nice B2 (fun z => m (fst z) (snd z))).
  { unfold m. apply nice_mult; [apply nice_exp; apply nice_plus; auto|apply nice_accept; apply nice_plus; auto]. }
  assert (N1 : nice B2 (fun z => m (fst z) (snd z) * g (snd z) (fst z))) by (apply nice_mult; auto).
  assert (N2 : nice B2 (fun z => m (fst z) (snd z) * g (fst z) (snd z))) by (apply nice_mult; auto).
  assert (N3 : nice B2 (fun z => exp (Li (fst z)) * exp (Lj (snd z)) * g (fst z) (snd z))) by (apply nice_mult; [apply nice_mult; apply nice_exp; auto|auto]).
  assert (SECx : forall F x, inside box x -> nice B2 (fun z => F (fst z) (snd z)) -> nice (boxD box) (F x)).
  { intros F x Hx N. apply (nice_section (boxD box) (boxD box) F x); auto. }
  transitivity (bint box (fun x => (bint box (fun y => m x y * g y x) - bint box (fun y => m x y * g x y)) + bint box (fun y => exp (Li x) * exp (Lj y) * g x y))).
  - apply bint_eqb; auto. intros x Hx.
    assert (A1 : nice (boxD box) (fun y => m x y * g y x)) by (apply (SECx (fun x y => m x y * g y x)); auto).
    assert (A2 : nice (boxD box) (fun y => m x y * g x y)) by (apply (SECx (fun x y => m x y * g x y)); auto).
    assert (A3 : nice (boxD box) (fun y => exp (Li x) * exp (Lj y) * g x y)) by (apply (SECx (fun x y => exp (Li x) * exp (Lj y) * g x y)); auto).
    rewrite <- bint_minus by auto. rewrite <- bint_plus; [|auto|apply nice_minus; auto|auto]. apply bint_eqb; auto. intros y _.
    unfold swapk, m, accept. replace (Li y + Lj x - (Li x + Lj y)) with (Li y + Lj x - Li x - Lj y) by ring. rewrite exp_plus. ring.
  - assert (P1 : nice (boxD box) (fun x => bint box (fun y => m x y * g y x))) by (apply (nice_bint box (boxD box) (fun x y => m x y * g y x)); auto).
    assert (P2 : nice (boxD box) (fun x => bint box (fun y => m x y * g x y))) by (apply (nice_bint box (boxD box) (fun x y => m x y * g x y)); auto).
    assert (P3 : nice (boxD box) (fun x => bint box (fun y => exp (Li x) * exp (Lj y) * g x y))) by (apply (nice_bint box (boxD box) (fun x y => exp (Li x) * exp (Lj y) * g x y)); auto).
    rewrite bint_plus; [|auto|apply nice_minus; auto|auto]. rewrite bint_minus by auto.
    rewrite (fubini box box (fun x y => m x y * g y x)) by auto.
    assert (EQ : bint box (fun y => bint box (fun x => m x y * g y x)) = bint box (fun x => bint box (fun y => m x y * g x y))).
    { apply bint_eqb; auto. intros y _. apply bint_eqb; auto. intros x _. rewrite M. reflexivity. }
    rewrite EQ. ring.
Qed.
