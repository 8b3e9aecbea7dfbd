(** Constants of convergence that do not depend on the ladder and the widths. *)
From Coq Require Import ZArith List Bool Reals Lia Lra.
From Coquelicot Require Import Coquelicot.
From Verif Require Import Base Arith UserModels Boundary BounceDensity Nice Invariance Tempering Converge Average.
Import ListNotations.
Open Scope R_scope.

(** densities between c and 1 on steps up to d *)
Definition dens_in (c d : R) (phi : R -> R) : Prop := (forall s, phi s <= 1) /\ forall s, Rabs s <= d -> c <= phi s.

Lemma kern_low_u : forall c d, 0 < c -> forall phis, List.Forall (dens_in c d) phis -> (forall phi, In phi phis -> forall s, 0 < phi s) ->
  forall box, length phis = length box -> (forall p, In p box -> snd p - fst p <= d) ->
  forall x y, inside box x -> inside box y -> c ^ length box <= kern phis box x y.
Proof.
  intros c d Hc. induction 1 as [|phi ps E HF IH]; intros P [|[lo hi] box] HL HD x y Hx Hy; try discriminate; [cbn; lra|].
  inversion Hx as [|? v ? t Hv Ht]; subst. inversion Hy as [|? w ? u Hw Hu]; subst. cbn in Hv, Hw.
  pose proof (HD (lo, hi) (or_introl eq_refl)) as D0. cbn in D0. cbn [kern length pow].
  apply Rmult_le_compat; [lra|apply pow_le; lra| |].
  - unfold q1. assert (c <= phi (w - v)) by (apply E; apply Rabs_le; lra).
    assert (0 < phi (Rmin (2 * hi - v - w) (v + w - 2 * lo))) by (apply P; left; auto). lra.
  - apply IH; auto. intros q Hq. apply P. right; auto. intros p Hp. apply HD. right; auto.
Qed.
Lemma dens_le : forall phis s, (forall phi, In phi phis -> forall s, 0 < phi s <= 1) -> dens phis s <= 1.
Proof.
  induction phis as [|phi ps IH]; intros [|v s] P; cbn; try lra.
  assert (dens ps s <= 1) by (apply IH; intros q Hq; apply P; right; auto).
  assert (0 < dens ps s) by (apply dens_pos; intros q Hq u; apply P; right; auto).
  pose proof (P phi (or_introl eq_refl) v) as [A B]. rewrite <- (Rmult_1_l 1). apply Rmult_le_compat; lra.
Qed.

Section U.
Variable box : list (R * R).
Hypothesis W : wide box.
Hypothesis V : 0 < vol box.
Variables c d M : R.
Hypothesis Hc : 0 < c.
Hypothesis HD : forall p, In p box -> snd p - fst p <= d.

Definition low : R := c ^ length box * exp (- (2 * Rabs M)) / vol (widths box).
Lemma vol_widths : 0 < vol (widths box).
Proof.
  clear HD. unfold wide in W. revert V. induction W as [|[lo hi] b H HW IH]; intros V; cbn [widths map vol fst snd]; [lra|]. cbn in H, V.
  change (map (fun p : R * R => (- (snd p - fst p), snd p - fst p)) b) with (widths b).
  assert (0 <= vol b) by (clear - HW; induction HW as [|[lo hi] b H HW IH]; cbn; [lra|]; cbn in H; apply Rmult_le_pos; lra).
  assert (0 < vol b) by (destruct (Rle_lt_or_eq_dec 0 (vol b) H0) as [|E]; auto; rewrite <- E in V; lra).
  assert (lo < hi) by (destruct (Rle_lt_or_eq_dec lo hi H) as [|E]; auto; rewrite E in V; lra).
  apply Rmult_lt_0_compat; [lra|auto].
Qed.
Lemma low_pos : 0 < low.
Proof. unfold low. apply Rdiv_lt_0_compat; [|apply vol_widths]. apply Rmult_lt_0_compat; [apply pow_lt; auto|apply exp_pos]. Qed.

Lemma accept_u : forall L : list R -> R, (forall x, inside box x -> Rabs (L x) <= M) -> forall x y, inside box x -> inside box y ->
  exp (- (2 * Rabs M)) <= accept (L x) (L y) <= 1.
Proof.
  intros L B x y Hx Hy. unfold accept. split; [|apply Rmin_l]. apply B in Hx. apply B in Hy. apply Rabs_le_between in Hx. apply Rabs_le_between in Hy.
  pose proof (Rle_abs M). pose proof (Rabs_pos M). apply Rmin_glb.
  - rewrite <- exp_0. destruct (Rle_lt_or_eq_dec (- (2 * Rabs M)) 0) as [Q|Q]; [lra|left; apply exp_increasing; auto|rewrite Q; lra].
  - destruct (Rle_lt_or_eq_dec (- (2 * Rabs M)) (L y - L x)) as [Q|Q]; [lra|left; apply exp_increasing; auto|rewrite Q; lra].
Qed.

Section One.
Variable phis : list (R -> R).
Hypothesis EP : List.Forall even_density phis.
Hypothesis PP : forall phi, In phi phis -> forall s, 0 < phi s.
Hypothesis HL : length phis = length box.
Hypothesis DI : List.Forall (dens_in c d) phis.
Variable L : list R -> R.
Hypothesis NL : nice (boxD box) L.
Hypothesis BL : forall x, inside box x -> Rabs (L x) <= M.

Lemma step_low_u : forall g x, inside box x -> nice (boxD box) g -> (forall y, inside box y -> 0 <= g y) ->
  low * bint box g <= step phis box L g x * / bint (widths box) (dens phis).
Proof.
  intros g x Hx N G. set (a := exp (- (2 * Rabs M))). set (k := c ^ length box).
  pose proof (wide_widths box W) as WW.
  assert (M1 : bint (widths box) (dens phis) <= vol (widths box)).
  { rewrite <- (Rmult_1_r (vol (widths box))). rewrite <- (bint_c (widths box) 1 WW). apply bint_mono; [auto|apply nice_ds; auto|apply nice_const|].
    intros s _. apply dens_le. intros phi Hp u. split; [apply PP; auto|]. rewrite List.Forall_forall in DI. apply (DI phi Hp). }
  assert (M0 : 0 < bint (widths box) (dens phis)).
  { apply Rlt_le_trans with (bint (widths box) (fun _ => c ^ length box)).
    - rewrite bint_c by auto. apply Rmult_lt_0_compat; [apply vol_widths|apply pow_lt; auto].
    - apply bint_mono; [auto|apply nice_const|apply nice_ds; auto|]. intros s Hs. clear - Hs HL DI HD Hc PP.
      revert phis HL DI PP s Hs. induction box as [|[lo hi] b IH]; intros [|phi ps] HL DI PP s Hs; try discriminate; [cbn; destruct s; lra|].
      inversion Hs as [|? v ? t Hv Ht]; subst. cbn in Hv. inversion DI as [|? ? D1 D2]; subst. cbn [length pow dens].
      pose proof (HD (lo, hi) (or_introl eq_refl)) as D0. cbn in D0.
      apply Rmult_le_compat; [lra|apply pow_le; lra|apply D1; apply Rabs_le; lra|].
      apply IH; auto. intros p Hp; apply HD; right; auto. intros q Hq; apply PP; right; auto. }
  assert (S1 : k * a * bint box g <= step phis box L g x).
  { unfold step. cbv zeta.
    rewrite (fold_all phis EP box x (fun y => accept (L x) (L y) * g y + (1 - accept (L x) (L y)) * g x)) by (auto; apply nice_h; auto).
    rewrite <- bint_scal by auto.
    assert (NK : nice (boxD box) (kern phis box x)).
    { apply (nice_kern phis EP box (boxD box) (fun _ => x) (fun z => z)); auto; [apply smooth_const; [intros; apply box_refl; auto|auto]|apply smooth_id]. }
    apply bint_mono; auto.
    - apply nice_mult; auto using nice_const.
    - apply nice_mult; auto. apply nice_h; auto.
    - intros y Hy. pose proof (kern_low_u c d Hc phis DI PP box HL HD x y Hx Hy) as K2. fold k in K2.
      pose proof (accept_u L BL x y Hx Hy) as A2. fold a in A2. specialize (G y Hy) as G1. specialize (G x Hx) as G2.
      assert (0 < k) by (apply pow_lt; auto). assert (0 < a) by apply exp_pos.
      rewrite Rmult_assoc. apply Rmult_le_compat; try lra.
      + apply Rmult_le_pos; lra.
      + assert (a * g y <= accept (L x) (L y) * g y) by (apply Rmult_le_compat_r; lra). assert (0 <= (1 - accept (L x) (L y)) * g x) by (apply Rmult_le_pos; lra). lra. }
  assert (B0 : 0 <= bint box g) by (apply bint_pos; auto).
  unfold low. fold k a. apply Rle_trans with (k * a * bint box g * / bint (widths box) (dens phis)).
  - assert (KA : 0 <= k * a * bint box g) by (apply Rmult_le_pos; auto; left; apply Rmult_lt_0_compat; [apply pow_lt; auto|apply exp_pos]).
    replace (k * a / vol (widths box) * bint box g) with (k * a * bint box g * / vol (widths box)) by (unfold Rdiv; ring).
    apply Rmult_le_compat_l; auto. apply Rinv_le_contravar; auto.
  - apply Rmult_le_compat_r; auto. left. apply Rinv_0_lt_compat; auto.
Qed.
End One.

Lemma steps_low_u : forall (Ls : list (list R -> R)) (phis : list (list (R -> R))),
  List.Forall (nice (boxD box)) Ls -> length phis = length Ls -> (forall L, In L Ls -> forall x, inside box x -> Rabs (L x) <= M) ->
  (forall ps, In ps phis -> List.Forall even_density ps /\ (forall phi, In phi ps -> forall s, 0 < phi s) /\ length ps = length box /\ List.Forall (dens_in c d) ps) ->
  steps_low box Ls phis low.
Proof.
  intros Ls phis NL HP BL HE i Hi g X HX N G. cbn [mean].
  assert (Hp : In (nth i phis []) phis) by (apply nth_In; lia). destruct (HE _ Hp) as [E1 [E2 [E3 E4]]].
  assert (HLi : In (nth i Ls nol) Ls) by (apply nth_In; auto).
  apply (step_low_u (nth i phis []) E1 E2 E3 E4 (nth i Ls nol) (nice_L box Ls NL i) (BL _ HLi) (fun y => g (rep i y X)) (nth i X [])).
  - apply (row_in box Ls i X Hi HX).
  - apply (nice_rep box Ls i X g); auto.
  - intros y Hy. apply G. apply (rep_in box Ls i X y); auto.
Qed.
End U.
