(** Convergence of the sampler: every batch brings the distribution of the rows of all ranks closer to the product of the tempered
    posteriors by a factor that does not depend on where it starts. *)
From Coq Require Import ZArith List Bool Reals Lia Lra.
From Coquelicot Require Import Coquelicot.
From Verif Require Import Base Arith UserModels Boundary BounceDensity Nice Invariance Tempering.
Import ListNotations.
Open Scope R_scope.

(** ** order of integrals *)
Lemma bint_pos : forall box f, wide box -> nice (boxD box) f -> (forall x, inside box x -> 0 <= f x) -> 0 <= bint box f.
Proof.
  induction box as [|[lo hi] box IH]; intros f W N H; cbn [bint]; [apply H; constructor|].
  inversion W as [|? ? H0 W']; subst. cbn in H0.
  assert (SEC : forall y0, lo <= y0 <= hi -> nice (boxD box) (fun y => f (y0 :: y))).
  { intros y0 Hy. apply (nice_map (boxD box) (boxD ((lo, hi) :: box)) (fun y => y0 :: y) f); auto. apply smooth_cons; [apply smooth_const; [intros; apply seg_refl; auto|exact Hy]|apply smooth_id]. }
  apply RInt_ge_0; auto.
  - apply nice_ex; auto. apply (nice_bint box (seg lo hi) (fun v t => f (v :: t))); auto; [intros d v Hd; apply seg_refl; auto|].
    apply (nice_map (prodD (seg lo hi) (boxD box)) (boxD ((lo, hi) :: box)) (fun z => fst z :: snd z) f); auto.
    apply (smooth_head (seg lo hi) lo hi box (fun v => v)). apply smooth_id.
  - intros v Hv. apply IH; auto; [apply SEC; lra|]. intros x Hx. apply H. constructor; auto. cbn. lra.
Qed.
Lemma bint_mono : forall box f g, wide box -> nice (boxD box) f -> nice (boxD box) g -> (forall x, inside box x -> f x <= g x) -> bint box f <= bint box g.
Proof.
  intros box f g W F G H. pose proof (bint_pos box (fun x => g x - f x) W (nice_minus _ _ _ G F)) as P. rewrite bint_minus in P by auto.
  enough (0 <= bint box g - bint box f) by lra. apply P. intros x Hx. specialize (H x Hx). lra.
Qed.

Lemma nint_mono : forall box n F G, wide box -> nice (stD box n) F -> nice (stD box n) G -> (forall X, inD (stD box n) X -> F X <= G X) -> nint box n F <= nint box n G.
Proof.
  intros box. induction n as [|n IH]; intros F G W NF NG H; cbn [nint].
  - apply H. split; [reflexivity|constructor].
  - apply bint_mono; auto.
    + apply (nice_nint box W n (boxD box) (fun x T => F (x :: T))); [apply bx_refl|]. apply nice_front2; auto.
    + apply (nice_nint box W n (boxD box) (fun x T => G (x :: T))); [apply bx_refl|]. apply nice_front2; auto.
    + intros x Hx. apply IH; [auto|apply nice_front; auto|apply nice_front; auto|]. intros T [H1 H2]. apply H. split; [cbn; lia|constructor; auto].
Qed.

Lemma nint_plus : forall box n F G, wide box -> nice (stD box n) F -> nice (stD box n) G -> nint box n (fun X => F X + G X) = nint box n F + nint box n G.
Proof.
  intros box. induction n as [|n IH]; intros F G W NF NG; cbn [nint]; auto.
  rewrite <- bint_plus; auto.
  - apply bint_eqb; auto. intros x Hx. apply IH; [auto|apply nice_front; auto|apply nice_front; auto].
  - apply (nice_nint box W n (boxD box) (fun x T => F (x :: T))); [apply bx_refl|]. apply nice_front2; auto.
  - apply (nice_nint box W n (boxD box) (fun x T => G (x :: T))); [apply bx_refl|]. apply nice_front2; auto.
Qed.
Lemma nint0 : forall box n, wide box -> nint box n (fun _ => 0) = 0.
Proof. intros box n W. pose proof (nint_scal box W n 0 (fun _ => 0) (nice_const _ 0)) as K. rewrite Rmult_0_l in K. refine (eq_trans _ K). apply nint_eqb; auto. intros; ring. Qed.

(** ** lower bounds *)
Lemma seg_min : forall (phi : R -> R) w, 0 <= w -> (forall s, continuous phi s) -> (forall s, 0 < phi s) -> exists k, 0 < k /\ forall s, - w <= s <= w -> k <= phi s.
Proof.
  intros phi w Hw C P. destruct (continuity_ab_min phi (- w) w) as [s0 [H1 H2]]; [lra|intros c _; apply continuity_pt_filterlim, C|].
  exists (phi s0). split; auto.
Qed.
Lemma kern_low : forall phis, List.Forall even_density phis -> (forall phi, In phi phis -> forall s, 0 < phi s) -> forall box, wide box ->
  exists k, 0 < k /\ forall x y, inside box x -> inside box y -> k <= kern phis box x y.
Proof.
  induction 1 as [|phi ps E HF IH]; intros P [|[lo hi] box] W; try (exists 1; split; [lra|]; intros; cbn; lra).
  inversion W as [|? ? H0 W']; subst. cbn in H0. destruct E as [C _].
  destruct (IH (fun q Hq => P q (or_intror Hq)) box W') as [k [K1 K2]].
  destruct (seg_min phi (hi - lo)) as [c [C1 C2]]; [lra|auto|apply P; left; auto|].
  exists (c * k). split; [apply Rmult_lt_0_compat; auto|]. intros x y Hx Hy.
  inversion Hx as [|? v ? t Hv Ht]; subst. inversion Hy as [|? w ? u Hw Hu]; subst. cbn in Hv, Hw. cbn [kern].
  apply Rmult_le_compat; try lra; [|apply K2; auto]. unfold q1. pose proof (C2 (w - v)). assert (0 < phi (Rmin (2 * hi - v - w) (v + w - 2 * lo))) by (apply P; left; auto). lra.
Qed.
Lemma dens_pos : forall phis s, (forall phi, In phi phis -> forall s, 0 < phi s) -> 0 < dens phis s.
Proof.
  induction phis as [|phi ps IH]; intros [|v s] P; cbn; try lra. apply Rmult_lt_0_compat; [apply P; left; auto|]. apply IH. intros q Hq. apply P. right; auto.
Qed.
Lemma accept_low : forall (P : Dom) L, nice P L -> exists a, 0 < a /\ forall x y, inD P x -> inD P y -> a <= accept (L x) (L y) <= 1.
Proof.
  intros P L [[M B] _]. exists (Rmin 1 (exp (- (2 * M)))). split; [apply Rmin_glb_lt; [lra|apply exp_pos]|].
  intros x y Hx Hy. unfold accept. split; [|apply Rmin_l]. apply Rle_min_compat_l.
  apply B in Hx. apply B in Hy. apply Rabs_le_between in Hx. apply Rabs_le_between in Hy.
  destruct (Rle_lt_or_eq_dec (- (2 * M)) (L y - L x)) as [H|H]; [lra|left; apply exp_increasing; auto|rewrite H; lra].
Qed.
Lemma accept_01 : forall a b, 0 <= accept a b <= 1.
Proof. intros. unfold accept. split; [apply Rmin_glb; [lra|left; apply exp_pos]|apply Rmin_l]. Qed.

(** ** one step *)
Section Step.
Variable box : list (R * R).
Hypothesis W : wide box.
Variable phis : list (R -> R).
Hypothesis EP : List.Forall even_density phis.
Hypothesis PP : forall phi, In phi phis -> forall s, 0 < phi s.
Hypothesis HL : length phis = length box.
Variable L : list R -> R.
Hypothesis NL : nice (boxD box) L.

Lemma nice_h : forall x g, inside box x -> nice (boxD box) g -> nice (boxD box) (fun y => accept (L x) (L y) * g y + (1 - accept (L x) (L y)) * g x).
Proof.
  intros x g Hx N. assert (A : nice (boxD box) (fun y => accept (L x) (L y))) by (apply nice_accept; auto using nice_const).
  apply nice_plus; apply nice_mult; auto using nice_const. apply nice_minus; auto using nice_const.
Qed.
Lemma nice_ds : nice (boxD (widths box)) (dens phis).
Proof. apply (nice_dens phis EP (widths box) (boxD (widths box)) (fun s => s)); [rewrite widths_length; auto|apply smooth_id]. Qed.
Lemma nice_int : forall x h, inside box x -> nice (boxD box) h -> nice (boxD (widths box)) (fun s => dens phis s * h (bound box (addl x s))).
Proof.
  intros x h Hx N. apply nice_mult; [apply nice_ds|].
  apply (nice_map (boxD (widths box)) (boxD box) (fun s => bound box (addl x s)) h); auto.
  apply (smooth_bound box (boxD (widths box)) (fun _ => x) (fun z => z)); auto; [apply smooth_const; [intros; apply box_refl; auto|auto]|apply smooth_id].
Qed.
Lemma step_mono : forall g g' x, inside box x -> nice (boxD box) g -> nice (boxD box) g' -> (forall y, inside box y -> g y <= g' y) -> step phis box L g x <= step phis box L g' x.
Proof.
  intros g g' x Hx N N' H. unfold step. cbv zeta. pose proof (wide_widths box W) as WW.
  rewrite (fold_all phis EP box x (fun y => accept (L x) (L y) * g y + (1 - accept (L x) (L y)) * g x)) by auto using nice_h.
  rewrite (fold_all phis EP box x (fun y => accept (L x) (L y) * g' y + (1 - accept (L x) (L y)) * g' x)) by auto using nice_h.
  destruct (kern_low phis EP PP box W) as [k [K1 K2]].
  assert (NK : nice (boxD box) (kern phis box x)).
  { apply (nice_kern phis EP box (boxD box) (fun _ => x) (fun z => z)); auto; [apply smooth_const; [intros; apply box_refl; auto|auto]|apply smooth_id]. }
  apply bint_mono; auto.
  - apply nice_mult; auto. apply nice_h; auto.
  - apply nice_mult; auto. apply nice_h; auto.
  - intros y Hy. specialize (K2 x y Hx Hy). pose proof (accept_01 (L x) (L y)). apply Rmult_le_compat_l; [lra|].
    apply Rplus_le_compat; apply Rmult_le_compat_l; auto; lra.
Qed.
Lemma step_aff : forall g k c x, inside box x -> nice (boxD box) g ->
  step phis box L (fun y => k * g y + c) x = k * step phis box L g x + c * bint (widths box) (dens phis).
Proof.
  intros g k c x Hx N. unfold step. cbv zeta. rewrite <- (bint_lin (widths box) k c).
  - apply bint_eqb; [apply wide_widths; auto|]. intros s _. ring.
  - apply wide_widths; auto.
  - apply (nice_int x (fun y => accept (L x) (L y) * g y + (1 - accept (L x) (L y)) * g x)); auto. apply nice_h; auto.
  - apply nice_ds.
Qed.
Lemma step_low : exists e, 0 < e /\ forall g x, inside box x -> nice (boxD box) g -> (forall y, inside box y -> 0 <= g y) -> e * bint box g <= step phis box L g x.
Proof.
  destruct (kern_low phis EP PP box W) as [k [K1 K2]]. destruct (accept_low (boxD box) L NL) as [a [A1 A2]].
  exists (k * a). split; [apply Rmult_lt_0_compat; auto|]. intros g x Hx N G. unfold step. cbv zeta.
  rewrite (fold_all phis EP box x (fun y => accept (L x) (L y) * g y + (1 - accept (L x) (L y)) * g x)) by auto using nice_h.
  rewrite <- bint_scal by auto.
  assert (NK : nice (boxD box) (kern phis box x)).
  { apply (nice_kern phis EP box (boxD box) (fun _ => x) (fun z => z)); auto; [apply smooth_const; [intros; apply box_refl; auto|auto]|apply smooth_id]. }
  apply bint_mono; auto.
  - apply nice_mult; auto using nice_const.
  - apply nice_mult; auto. apply nice_h; auto.
  - intros y Hy. specialize (K2 x y Hx Hy). specialize (A2 x y Hx Hy). specialize (G y Hy) as G1. specialize (G x Hx) as G2.
    rewrite Rmult_assoc. apply Rmult_le_compat; try lra.
    + apply Rmult_le_pos; lra.
    + assert (a * g y <= accept (L x) (L y) * g y) by (apply Rmult_le_compat_r; lra). assert (0 <= (1 - accept (L x) (L y)) * g x) by (apply Rmult_le_pos; lra). lra.
Qed.
End Step.
(** ** all ranks *)
Section Chain.
Variable box : list (R * R).
Hypothesis W : wide box.
Variable Ls : list (list R -> R).
Variable phis : list (list (R -> R)).
Notation n := (length Ls).
Notation stD := (stD box).
Notation nint := (nint box).
Notation mean := (mean box Ls phis).
Notation means := (means box Ls phis).
Notation op_ok := (op_ok Ls).
Hypothesis NL : List.Forall (nice (boxD box)) Ls.
Hypothesis HP : length phis = n.
Hypothesis EP : List.Forall (fun ps => List.Forall even_density ps /\ length ps = length box /\ bint (widths box) (dens ps) <> 0) phis.
Hypothesis PP : forall ps, In ps phis -> forall phi, In phi ps -> forall s, 0 < phi s.

Lemma phi_i : forall i, (i < n)%nat -> let ps := nth i phis [] in
  List.Forall even_density ps /\ length ps = length box /\ 0 < bint (widths box) (dens ps) /\ forall phi, In phi ps -> forall s, 0 < phi s.
Proof.
  intros i Hi ps. assert (I : In ps phis) by (apply nth_In; lia). rewrite List.Forall_forall in EP. destruct (EP ps I) as [E1 [E2 E3]].
  split; [auto|]. split; [auto|]. split; [|apply PP; auto].
  assert (0 <= bint (widths box) (dens ps)); [|lra]. apply bint_pos; [apply wide_widths; auto|apply nice_ds; auto|].
  intros s _. left. apply dens_pos. apply PP; auto.
Qed.
Lemma row_in : forall i X, (i < n)%nat -> inD (stD n) X -> inside box (nth i X []).
Proof. intros i X Hi HX. apply (proj1 (smooth_row box n i Hi) X HX). Qed.
Lemma smooth_repc : forall i X, inD (stD n) X -> smooth (boxD box) (stD n) (fun y => rep i y X).
Proof.
  intros i X HX. apply (smooth_rep box (boxD box) n i (fun y => y) (fun _ => X)); [apply smooth_id|apply smooth_const; auto].
  intros d Hd. apply st_refl; auto.
Qed.
Lemma rep_in : forall i X y, inD (stD n) X -> inside box y -> inD (stD n) (rep i y X).
Proof. intros i X y HX Hy. apply (proj1 (smooth_repc i X HX) y Hy). Qed.
Lemma nice_rep : forall i X g, inD (stD n) X -> nice (stD n) g -> nice (boxD box) (fun y => g (rep i y X)).
Proof. intros i X g HX N. apply (nice_map (boxD box) (stD n) (fun y => rep i y X) g); auto. apply smooth_repc; auto. Qed.
Lemma swap_in : forall i j X, op_ok (Swap i j) -> inD (stD n) X -> inD (stD n) (rep i (nth j X []) (rep j (nth i X []) X)).
Proof. intros i j X [Hi [Hj _]] HX. apply rep_in; [apply rep_in; auto; apply row_in; auto|apply row_in; auto]. Qed.

Lemma mean_mono : forall o g g' X, op_ok o -> nice (stD n) g -> nice (stD n) g' -> inD (stD n) X -> (forall Y, inD (stD n) Y -> g Y <= g' Y) -> mean o g X <= mean o g' X.
Proof.
  intros [i|i j] g g' X Ho N N' HX H; cbn [Tempering.mean].
  - destruct (phi_i i Ho) as [E1 [E2 [E3 E4]]]. apply Rmult_le_compat_r; [left; apply Rinv_0_lt_compat; auto|].
    apply step_mono; auto using nice_rep, row_in, rep_in. apply nice_L; auto.
  - set (a := Rmin 1 _). assert (0 <= a <= 1) by (unfold a; split; [apply Rmin_glb; [lra|left; apply exp_pos]|apply Rmin_l]).
    apply Rplus_le_compat; apply Rmult_le_compat_l; try lra; apply H; auto. apply swap_in; auto.
Qed.
Lemma mean_aff : forall o g k c X, op_ok o -> nice (stD n) g -> inD (stD n) X -> mean o (fun Y => k * g Y + c) X = k * mean o g X + c.
Proof.
  intros [i|i j] g k c X Ho N HX; cbn [Tempering.mean].
  - destruct (phi_i i Ho) as [E1 [E2 [E3 E4]]].
    rewrite (step_aff box W (nth i phis []) E1 E2 (nth i Ls nol) (nice_L box Ls NL i) (fun y => g (rep i y X)) k c) by auto using nice_rep, row_in.
    set (m := bint (widths box) (dens (nth i phis []))) in *. set (s0 := step _ _ _ _ _). field. lra.
  - ring.
Qed.
Lemma means_mono : forall os g g' X, List.Forall op_ok os -> nice (stD n) g -> nice (stD n) g' -> inD (stD n) X -> (forall Y, inD (stD n) Y -> g Y <= g' Y) -> means os g X <= means os g' X.
Proof.
  intros os g g' X HO. revert X. induction HO as [|o os Ho Hs IH]; intros X N N' HX H; cbn [Tempering.means]; auto.
  apply mean_mono; auto; apply nice_means; auto.
Qed.
Lemma mean_ext : forall o g g' X, op_ok o -> inD (stD n) X -> (forall Y, inD (stD n) Y -> g Y = g' Y) -> mean o g X = mean o g' X.
Proof.
  intros [i|i j] g g' X Ho HX H; cbn [Tempering.mean].
  - f_equal. unfold step. apply bint_eqb; [apply wide_widths; auto|]. intros s Hs. cbv zeta. pose proof (row_in i X Ho HX) as Hr.
    rewrite !H; auto using rep_in. apply rep_in; auto.
    apply (proj1 (smooth_bound box (boxD (widths box)) (fun _ => nth i X []) (fun s => s) W (smooth_const _ _ _ (fun d Hd => box_refl box d _ Hd) Hr) (smooth_id _)) s Hs).
  - rewrite !H; auto. apply swap_in; auto.
Qed.
Lemma means_aff : forall os g k c X, List.Forall op_ok os -> nice (stD n) g -> inD (stD n) X -> means os (fun Y => k * g Y + c) X = k * means os g X + c.
Proof.
  intros os g k c X HO. revert X. induction HO as [|o os Ho Hs IH]; intros X N HX; cbn [Tempering.means]; auto.
  rewrite (mean_ext o _ (fun Y => k * means os g Y + c)); auto. apply mean_aff; auto. apply nice_means; auto.
Qed.
Lemma means_app : forall a b g, means (a ++ b) g = means a (means b g).
Proof. induction a as [|o a IH]; intros b g; cbn [app Tempering.means]; auto. rewrite IH. reflexivity. Qed.
Lemma means_range : forall os g lo hi X, List.Forall op_ok os -> nice (stD n) g -> inD (stD n) X -> (forall Y, inD (stD n) Y -> lo <= g Y <= hi) -> lo <= means os g X <= hi.
Proof.
  intros os g lo hi X HO N HX H. split.
  - rewrite <- (means_one box W Ls phis HP EP os lo X HO HX). apply means_mono; [auto|apply nice_const|auto|auto|intros Y HY; apply H; auto].
  - rewrite <- (means_one box W Ls phis HP EP os hi X HO HX). apply means_mono; [auto|auto|apply nice_const|auto|intros Y HY; apply H; auto].
Qed.

(** one rank *)
Lemma rank_low : forall i, (i < n)%nat -> exists e, 0 < e /\ forall g X, inD (stD n) X -> nice (stD n) g -> (forall Y, inD (stD n) Y -> 0 <= g Y) ->
  e * bint box (fun y => g (rep i y X)) <= mean (Move i) g X.
Proof.
  intros i Hi. destruct (phi_i i Hi) as [E1 [E2 [E3 E4]]].
  destruct (step_low box W (nth i phis []) E1 E4 E2 (nth i Ls nol) (nice_L box Ls NL i)) as [e [He K]].
  set (m := bint (widths box) (dens (nth i phis []))) in *. exists (e / m). split; [apply Rdiv_lt_0_compat; auto|].
  intros g X HX N G. cbn [Tempering.mean]. fold m. unfold Rdiv. rewrite Rmult_assoc, (Rmult_comm (/ m)), <- Rmult_assoc.
  apply Rmult_le_compat_r; [left; apply Rinv_0_lt_compat; auto|]. apply K; auto using nice_rep, row_in, rep_in.
Qed.
Lemma all_low : forall m, (m <= n)%nat -> exists e, 0 < e /\ forall i, (i < m)%nat -> forall g X, inD (stD n) X -> nice (stD n) g -> (forall Y, inD (stD n) Y -> 0 <= g Y) ->
  e * bint box (fun y => g (rep i y X)) <= mean (Move i) g X.
Proof.
  induction m as [|m IH]; intros Hm; [exists 1; split; [lra|]; intros; lia|].
  destruct IH as [e [He K]]; [lia|]. destruct (rank_low m) as [f [Hf Q]]; [lia|].
  exists (Rmin e f). split; [apply Rmin_glb_lt; auto|]. intros i Hi g X HX N G.
  assert (0 <= bint box (fun y => g (rep i y X))) by (apply bint_pos; auto using nice_rep; intros y Hy; apply G, rep_in; auto).
  destruct (Nat.eq_dec i m) as [->|D].
  - eapply Rle_trans; [|apply Q; auto]. apply Rmult_le_compat_r; auto. apply Rmin_r.
  - eapply Rle_trans; [|apply K; auto; lia]. apply Rmult_le_compat_r; auto. apply Rmin_l.
Qed.

Lemma rep_rep : forall {T} i (y z : T) X, rep i y (rep i z X) = rep i y X.
Proof. intros T. induction i as [|i IH]; intros y z [|x X]; cbn; auto. f_equal. apply IH. Qed.
Lemma mean_row : forall i c g X, (i < n)%nat -> inD (stD n) X -> (forall y, inside box y -> g (rep i y X) = c) -> mean (Move i) g X = c.
Proof.
  intros i c g X Hi HX H. transitivity (means [Move i] (fun _ => c) X); [|apply means_one; auto; repeat constructor; exact Hi].
  cbn [Tempering.means Tempering.mean]. f_equal. unfold step. apply bint_eqb; [apply wide_widths; auto|]. intros s Hs. cbv zeta. pose proof (row_in i X Hi HX) as Hr.
  rewrite !H; auto.
  apply (proj1 (smooth_bound box (boxD (widths box)) (fun _ => nth i X []) (fun s => s) W (smooth_const _ _ _ (fun d Hd => box_refl box d _ Hd) Hr) (smooth_id _)) s Hs).
Qed.

Lemma ok_rep : forall i len, (i < n)%nat -> List.Forall op_ok (repeat (Move i) len).
Proof. intros i len Hi. apply List.Forall_forall. intros o Ho. apply repeat_spec in Ho. subst. exact Hi. Qed.
Lemma nice_I : forall i g, nice (stD n) g -> nice (stD n) (fun X => bint box (fun y => g (rep i y X))).
Proof.
  intros i g N. apply (nice_bint box (stD n) (fun X y => g (rep i y X))); auto; [apply st_refl|].
  apply (nice_map (prodD (stD n) (boxD box)) (stD n) (fun z => rep i (snd z) (fst z)) g); auto.
  apply (smooth_rep box (prodD (stD n) (boxD box)) n i snd fst); [apply smooth_snd|apply smooth_fst].
Qed.

Section Low.
Variable e : R.
Hypothesis He : 0 < e.
Hypothesis LOW : forall i, (i < n)%nat -> forall g X, inD (stD n) X -> nice (stD n) g -> (forall Y, inD (stD n) Y -> 0 <= g Y) ->
  e * bint box (fun y => g (rep i y X)) <= mean (Move i) g X.

Lemma block_low : forall i len g X, (i < n)%nat -> inD (stD n) X -> nice (stD n) g -> (forall Y, inD (stD n) Y -> 0 <= g Y) ->
  e * bint box (fun y => g (rep i y X)) <= means (repeat (Move i) (Datatypes.S len)) g X.
Proof.
  intros i. induction len as [|len IH]; intros g X Hi HX N G; [apply LOW; auto|].
  change (repeat (Move i) (Datatypes.S (Datatypes.S len))) with (Move i :: repeat (Move i) (Datatypes.S len)). cbn [Tempering.means].
  rewrite <- (mean_row i (e * bint box (fun y => g (rep i y X))) (fun Y => e * bint box (fun y => g (rep i y Y))) X Hi HX).
  - apply mean_mono; auto.
    + apply nice_mult; [apply nice_const|]. apply nice_I; auto.
    + apply nice_means; auto. apply ok_rep; auto.
  - intros y Hy. f_equal. apply bint_eqb; auto. intros z _. rewrite rep_rep. reflexivity.
Qed.

Definition sweep (len i m : nat) : list op := concat (map (fun r => repeat (Move r) len) (seq i m)).
Lemma sweep_ok : forall len i m, (i + m <= n)%nat -> List.Forall op_ok (sweep len i m).
Proof.
  intros len i m. revert i. unfold sweep. induction m as [|m IH]; intros i H; cbn; [constructor|]. apply List.Forall_app. split; [apply ok_rep; lia|apply IH; lia].
Qed.

Lemma smooth_pre : forall C P m V, List.Forall (inside box) C -> smooth P (stD m) V -> smooth P (stD (length C + m)) (fun p => C ++ V p).
Proof.
  induction 1 as [|x C Hx _ IH]; intros S; cbn [length app Nat.add]; auto.
  apply (smooth_push box P (length C + m) (fun _ => x) (fun p => C ++ V p)); auto. apply smooth_const; auto. intros d Hd. apply box_refl; auto.
Qed.
Lemma firstn_rep : forall {T} i (y : T) X, (i < length X)%nat -> firstn (Datatypes.S i) (rep i y X) = firstn i X ++ [y].
Proof. intros T. induction i as [|i IH]; intros y [|x X] H; cbn in H; try lia; [reflexivity|]. cbn [rep firstn app]. f_equal. apply IH. lia. Qed.
Lemma pre_in : forall i X, inD (stD n) X -> List.Forall (inside box) (firstn i X).
Proof. intros i X [_ F]. apply List.Forall_forall. intros x Hx. rewrite List.Forall_forall in F. apply F. rewrite <- (firstn_skipn i X). apply in_or_app. left; auto. Qed.
Lemma pre_len : forall i X, (i <= n)%nat -> inD (stD n) X -> length (firstn i X) = i.
Proof. intros i X Hi [F _]. rewrite firstn_length. lia. Qed.

Lemma nice_pre : forall i m g X, (i + m = n)%nat -> inD (stD n) X -> nice (stD n) g -> nice (stD m) (fun Y => g (firstn i X ++ Y)).
Proof.
  intros i m g X E HX N. apply (nice_map (stD m) (stD n) (fun Y => firstn i X ++ Y) g); auto.
  pose proof (smooth_pre (firstn i X) (stD m) m (fun Y => Y) (pre_in i X HX) (smooth_id _)) as K. rewrite (pre_len i X ltac:(lia) HX), E in K. exact K.
Qed.

Lemma sweep_low : forall len m i g X, (i + m = n)%nat -> inD (stD n) X -> nice (stD n) g -> (forall Y, inD (stD n) Y -> 0 <= g Y) ->
  e ^ m * nint m (fun Y => g (firstn i X ++ Y)) <= means (sweep (Datatypes.S len) i m) g X.
Proof.
  intros len. induction m as [|m IH]; intros i g X E HX N G.
  - cbn [Tempering.nint pow sweep seq map concat Tempering.means]. rewrite app_nil_r. destruct HX as [HX _]. rewrite firstn_all2 by lia. lra.
  - change (sweep (Datatypes.S len) i (Datatypes.S m)) with (repeat (Move i) (Datatypes.S len) ++ sweep (Datatypes.S len) (Datatypes.S i) m). rewrite means_app.
    assert (OK : List.Forall op_ok (sweep (Datatypes.S len) (Datatypes.S i) m)) by (apply sweep_ok; lia).
    assert (NM : nice (stD n) (means (sweep (Datatypes.S len) (Datatypes.S i) m) g)) by (apply nice_means; auto).
    eapply Rle_trans; [|apply block_low; auto; [lia|]].
    2:{ intros Y HY. destruct N as [[M B] N]. apply (means_range _ g 0 M Y); auto; [split; auto; exists M; auto|].
        intros Z HZ. split; [apply G; auto|]. specialize (B Z HZ). apply Rabs_le_between in B. lra. }
    cbn [pow]. rewrite Rmult_assoc. apply Rmult_le_compat_l; [lra|].
    assert (EQ : forall y, inside box y -> (fun Y => g (firstn (Datatypes.S i) (rep i y X) ++ Y)) = (fun Y => g (firstn i X ++ y :: Y))).
    { intros y Hy. destruct HX as [HX _]. rewrite firstn_rep by lia. apply FunctionalExtensionality.functional_extensionality. intros Y. rewrite <- app_assoc. reflexivity. }
    assert (NN : nice (boxD box) (fun y => nint m (fun Y => g (firstn i X ++ y :: Y)))).
    { apply (nice_nint box W m (boxD box) (fun y Y => g (firstn i X ++ y :: Y))); [apply bx_refl|].
      apply (nice_front2 box m (fun Y => g (firstn i X ++ Y))). apply (nice_pre i (Datatypes.S m)); auto. }
    cbn [Tempering.nint]. rewrite <- bint_scal by auto. apply bint_mono; auto.
    + apply nice_mult; auto using nice_const.
    + apply nice_rep; auto.
    + intros y Hy. eapply Rle_trans; [|apply (IH (Datatypes.S i) g (rep i y X)); auto; [lia|apply rep_in; auto]]. rewrite (EQ y Hy). lra.
Qed.

(** a batch: every rank steps, then anything *)
Definition total : R := nint n (fun _ => 1).
Lemma batch_contract : forall len os g lo hi, List.Forall op_ok os -> nice (stD n) g -> (forall Y, inD (stD n) Y -> lo <= g Y <= hi) ->
  exists lo' hi', lo <= lo' /\ hi' <= hi /\ hi' - lo' = (1 - e ^ n * total) * (hi - lo) /\
    forall X, inD (stD n) X -> lo' <= means (sweep (Datatypes.S len) 0 n ++ os) g X <= hi'.
Proof.
  intros len os g lo hi HO N R.
  set (h := means os g). assert (Nh : nice (stD n) h) by (apply nice_means; auto).
  assert (Rh : forall Y, inD (stD n) Y -> lo <= h Y <= hi) by (intros Y HY; apply means_range; auto).
  pose proof (sweep_ok (Datatypes.S len) 0 n ltac:(lia)) as OK.
  set (c := e ^ n). assert (C0 : 0 < c) by (apply pow_lt; auto).
  assert (NA : forall k d, nice (stD n) (fun Y => k * h Y + d)) by (intros; apply nice_plus; [apply nice_mult; auto using nice_const|apply nice_const]).
  assert (IN : forall k d, nint n (fun Y => k * h Y + d) = k * nint n h + d * total).
  { intros k d. unfold total. rewrite <- (nint_scal box W n k h) by auto. rewrite <- (nint_scal box W n d (fun _ => 1)) by apply nice_const. rewrite <- nint_plus; [|auto|apply nice_mult; [apply nice_const|auto]|apply nice_mult; apply nice_const]. apply nint_eqb; auto. intros; ring. }
  assert (LO : forall k d X, inD (stD n) X -> (forall Y, inD (stD n) Y -> 0 <= k * h Y + d) -> c * (k * nint n h + d * total) <= k * means (sweep (Datatypes.S len) 0 n) h X + d).
  { intros k d X HX P. rewrite <- IN. rewrite <- (means_aff _ h k d X OK Nh HX).
    apply (sweep_low len n 0 (fun Y => k * h Y + d) X); auto. }
  exists (lo + c * (nint n h - lo * total)), (hi - c * (hi * total - nint n h)).
  assert (P1 : 0 <= nint n h - lo * total).
  { pose proof (IN 1 (- lo)) as K. assert (0 <= nint n (fun Y => 1 * h Y + - lo)); [|lra].
    rewrite <- (nint0 box n W). apply nint_mono; [auto|apply nice_const|apply NA|]. intros Y HY. specialize (Rh Y HY). lra. }
  assert (P2 : 0 <= hi * total - nint n h).
  { pose proof (IN (-1) hi) as K. assert (0 <= nint n (fun Y => -1 * h Y + hi)); [|lra].
    rewrite <- (nint0 box n W). apply nint_mono; [auto|apply nice_const|apply NA|]. intros Y HY. specialize (Rh Y HY). lra. }
  split; [assert (0 <= c * (nint n h - lo * total)) by (apply Rmult_le_pos; lra); lra|].
  split; [assert (0 <= c * (hi * total - nint n h)) by (apply Rmult_le_pos; lra); lra|].
  split; [ring|]. intros X HX. rewrite means_app. fold h. split.
  - pose proof (LO 1 (- lo) X HX) as K. assert (K1 := K (fun Y HY => ltac:(specialize (Rh Y HY); lra))). clear K. lra.
  - pose proof (LO (-1) hi X HX) as K. assert (K1 := K (fun Y HY => ltac:(specialize (Rh Y HY); lra))). clear K. lra.
Qed.

Lemma st_inh : exists X, inD (stD n) X.
Proof.
  exists (repeat (map fst box) n). split; [apply repeat_length|]. apply List.Forall_forall. intros x Hx. apply repeat_spec in Hx. subst x.
  unfold inside. clear - W. unfold wide in W. induction W as [|[lo hi] b H HW IH]; cbn [map]; constructor; auto. cbn in *. lra.
Qed.

(** several batches *)
Definition is_batch (os : list op) : Prop := exists len rest, os = sweep (Datatypes.S len) 0 n ++ rest /\ List.Forall op_ok rest.
Lemma batch_ok : forall b, is_batch b -> List.Forall op_ok b.
Proof. intros b [len [rest [-> H]]]. apply List.Forall_app. split; auto. apply sweep_ok. lia. Qed.
Lemma batches_ok : forall bs, List.Forall is_batch bs -> List.Forall op_ok (concat bs).
Proof. induction 1 as [|b bs Hb _ IH]; cbn; [constructor|]. apply List.Forall_app. split; auto. apply batch_ok; auto. Qed.

Lemma batches_contract : forall bs g lo hi, List.Forall is_batch bs -> nice (stD n) g -> lo <= hi -> (forall Y, inD (stD n) Y -> lo <= g Y <= hi) ->
  exists lo' hi', lo <= lo' /\ hi' <= hi /\ hi' - lo' <= Rmax 0 (1 - e ^ n * total) ^ length bs * (hi - lo) /\ forall X, inD (stD n) X -> lo' <= means (concat bs) g X <= hi'.
Proof.
  intros bs g lo hi HB N H R. induction HB as [|b bs Hb Hs IH]; cbn [concat length pow].
  - exists lo, hi. repeat split; try lra; apply R; auto.
  - destruct IH as [lo1 [hi1 [A [B [C D]]]]]. destruct Hb as [len [rest [-> HR]]]. rewrite <- app_assoc.
    set (q := Rmax 0 (1 - e ^ n * total)) in *. assert (Q0 : 0 <= q) by apply Rmax_l. assert (Q1 : 1 - e ^ n * total <= q) by apply Rmax_r.
    assert (OK : List.Forall op_ok (concat bs)) by (apply batches_ok; auto).
    destruct (batch_contract len rest (means (concat bs) g) lo1 hi1 HR) as [lo2 [hi2 [A2 [B2 [C2 D2]]]]]; auto; [apply nice_means; auto|].
    exists lo2, hi2. split; [lra|]. split; [lra|]. split.
    + rewrite C2. destruct (Rle_dec 0 (hi1 - lo1)) as [P|P].
      * rewrite Rmult_assoc. eapply Rle_trans; [apply Rmult_le_compat_r; [exact P|exact Q1]|]. apply Rmult_le_compat_l; auto.
      * assert (HX : exists X, inD (stD n) X) by apply st_inh. destruct HX as [X HX]. specialize (D X HX). lra.
    + intros X HX. specialize (D2 X HX). rewrite means_app in D2. rewrite !means_app. exact D2.
Qed.
End Low.

(** the product of the posteriors *)
Lemma joint_low : forall Ls', List.Forall (nice (boxD box)) Ls' -> exists c, 0 < c /\ forall X, List.Forall (inside box) X -> c <= joint Ls' X.
Proof.
  induction 1 as [|L Ls' [[M B] _] _ [c [C1 C2]]]; [exists 1; split; [lra|]; intros; cbn; lra|].
  exists (Rmin 1 (exp (- M) * c)). pose proof (exp_pos (- M)) as EM. split; [apply Rmin_glb_lt; [lra|apply Rmult_lt_0_compat; auto]|].
  intros [|x X] HX; cbn [joint]; [apply Rmin_l|]. inversion HX as [|? ? Hx HX']; subst. eapply Rle_trans; [apply Rmin_r|].
  apply Rmult_le_compat; try lra; [|auto]. specialize (B x Hx). apply Rabs_le_between in B.
  destruct (Rle_lt_or_eq_dec (- M) (L x)) as [H|H]; [lra|left; apply exp_increasing; auto|rewrite <- H; lra].
Qed.

Lemma bint_c : forall b c, wide b -> bint b (fun _ => c) = vol b * c.
Proof.
  induction b as [|[lo hi] b IH]; intros c Wb; cbn [bint vol]; [lra|]. inversion Wb as [|? ? H0 W']; subst. cbn in H0.
  rewrite (RInt_eqb lo hi _ (fun _ => vol b * c)); auto. rewrite RInt_cst. ring.
Qed.
Lemma nint_c : forall m c, nint m (fun _ => c) = vol box ^ m * c.
Proof. induction m as [|m IH]; intros c; cbn [Tempering.nint pow]; [lra|]. rewrite (bint_eqb box _ (fun _ => vol box ^ m * c)); auto. rewrite bint_c by auto. ring. Qed.

Hypothesis V : 0 < vol box.
Definition gap (e : R) : R := 1 - Rmax 0 (1 - e ^ n * total).
Lemma gap_in : forall e, 0 < e -> 0 < gap e <= 1.
Proof.
  intros e He. assert (T : 0 < total) by (unfold total; rewrite nint_c, Rmult_1_r; apply pow_lt; auto).
  assert (D : 0 < e ^ n * total) by (apply Rmult_lt_0_compat; auto; apply pow_lt; auto).
  unfold gap. pose proof (Rmax_l 0 (1 - e ^ n * total)). split; [|lra]. assert (Rmax 0 (1 - e ^ n * total) < 1); [apply Rmax_lub_lt; lra|lra].
Qed.
Definition steps_low (e : R) : Prop := forall i, (i < n)%nat -> forall g X, inD (stD n) X -> nice (stD n) g -> (forall Y, inD (stD n) Y -> 0 <= g Y) ->
  e * bint box (fun y => g (rep i y X)) <= mean (Move i) g X.
Lemma converge_low : forall e, 0 < e -> steps_low e -> forall bs, List.Forall is_batch bs -> forall g lo hi, nice (stD n) g -> (forall Y, inD (stD n) Y -> lo <= g Y <= hi) ->
  forall X, inD (stD n) X ->
  Rabs (means (concat bs) g X - nint n (fun Y => joint Ls Y * g Y) / nint n (joint Ls)) <= (1 - gap e) ^ length bs * (hi - lo).
Proof.
  intros e He LOW bs HB g lo hi NG R X HX. unfold gap. replace (1 - (1 - Rmax 0 (1 - e ^ n * total))) with (Rmax 0 (1 - e ^ n * total)) by ring.
  assert (LH : lo <= hi) by (specialize (R X HX); lra).
  destruct (batches_contract e He LOW bs g lo hi HB NG LH R) as [lo' [hi' [_ [_ [B C]]]]].
  pose proof (batches_ok bs HB) as OK. pose proof (nice_means box W Ls phis NL HP EP _ g OK NG) as NM.
  pose proof (nice_joint box Ls NL) as NJ.
  destruct (joint_low Ls NL) as [c [C1 C2]].
  assert (Z : 0 < nint n (joint Ls)).
  { apply Rlt_le_trans with (nint n (fun _ => c)); [rewrite nint_c; apply Rmult_lt_0_compat; auto; apply pow_lt; auto|].
    apply nint_mono; [auto|apply nice_const|auto|]. intros Y [_ HY]. apply C2; auto. }
  rewrite <- (ops_inv box W Ls phis NL HP EP (concat bs) g OK NG).
  set (z := nint n (joint Ls)) in *. set (m := nint n (fun Y => joint Ls Y * means (concat bs) g Y)).
  assert (JP : forall Y, inD (stD n) Y -> 0 < joint Ls Y) by (intros Y [_ HY]; specialize (C2 Y HY); lra).
  assert (M1 : lo' * z <= m).
  { unfold z. rewrite <- nint_scal by auto. apply nint_mono; [auto|apply nice_mult; [apply nice_const|auto]|apply nice_mult; auto|].
    intros Y HY. rewrite Rmult_comm. apply Rmult_le_compat_l; [left; auto|apply C; auto]. }
  assert (M2 : m <= hi' * z).
  { unfold z. rewrite <- nint_scal by auto. apply nint_mono; [auto|apply nice_mult; auto|apply nice_mult; [apply nice_const|auto]|].
    intros Y HY. rewrite (Rmult_comm hi'). apply Rmult_le_compat_l; [left; auto|apply C; auto]. }
  assert (Q : lo' <= m / z <= hi').
  { split; [apply Rmult_le_reg_r with z|apply Rmult_le_reg_r with z]; auto; unfold Rdiv; rewrite Rmult_assoc, Rinv_l, Rmult_1_r by lra; auto. }
  specialize (C X HX). apply Rabs_le_between. lra.
Qed.
Lemma converge : exists delta, 0 < delta <= 1 /\ forall bs, List.Forall is_batch bs -> forall g lo hi, nice (stD n) g -> (forall Y, inD (stD n) Y -> lo <= g Y <= hi) ->
  forall X, inD (stD n) X ->
  Rabs (means (concat bs) g X - nint n (fun Y => joint Ls Y * g Y) / nint n (joint Ls)) <= (1 - delta) ^ length bs * (hi - lo).
Proof. destruct (all_low n (Nat.le_refl _)) as [e [He LOW]]. exists (gap e). split; [apply gap_in; auto|]. apply converge_low; auto. Qed.
End Chain.
