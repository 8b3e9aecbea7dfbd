(** Order and range of the adapted betas: three ranks keep both, longer ladders need not. *)
From Coq Require Import ZArith Reals Lra Lia List Bool Psatz.
From Verif Require Import Base Arith Mh Ladder ListAux LadderReal.
Import ListNotations.
Open Scope R_scope.
Local Notation N := NArith.
Local Notation num := (option R).

Lemma half_sqrt : forall x, 0 < x -> Rpower x (/ 2) = sqrt x.
Proof. intros. apply Rpower_sqrt. auto. Qed.
Lemma half_sq : forall x y, 0 < y -> x = y * y -> Rpower x (/ 2) = y.
Proof. intros x y Hy ->. rewrite half_sqrt by nra. apply sqrt_square. lra. Qed.

(** ** Values of one turn *)
Section Vals.
Variables (sc zs : R) (b : nat -> R) (a : nat -> num) (t : nat -> R) (i : nat).
Lemma newT_nan : a i = None \/ a (i - 1)%nat = None -> newT sc zs b a t i = geomT b t i.
Proof. intros [E|E]; unfold newT; rewrite E; [destruct (a (i - 1)%nat)|]; reflexivity. Qed.
Variables (x y : R).
Hypothesis Ex : a (i - 1)%nat = Some x.
Hypothesis Ey : a i = Some y.
Lemma newT_zero : x + y <= 0 -> newT sc zs b a t i = geomT b t i.
Proof. intro H. unfold newT. rewrite Ex, Ey. rewrite (proj2 (Rltb_false _ _) H). reflexivity. Qed.
Lemma newT_inc : 0 < x + y -> forall d, (y - x) / (y + x) = d -> 0 < d -> newT sc zs b a t i = incT sc zs b t i d.
Proof. intros H d <- Hd. unfold newT. rewrite Ex, Ey. rewrite (proj2 (Rltb_true _ _) H), (proj2 (Rltb_true _ _) Hd). reflexivity. Qed.
Lemma newT_dec : 0 < x + y -> forall d, (y - x) / (y + x) = d -> d < 0 -> newT sc zs b a t i = decT sc zs b t i d.
Proof.
  intros H d <- Hd. unfold newT. rewrite Ex, Ey. rewrite (proj2 (Rltb_true _ _) H), (proj2 (Rltb_false _ _)) by lra.
  rewrite Reqb_false by lra. reflexivity.
Qed.
End Vals.

(** ** Three ranks *)
Lemma geom_between : forall x z, 0 < z < x -> z < x / Rpower (x / z) (/ 2) < x.
Proof.
  intros x z H. assert (Hr : 1 < x / z). { apply Rmult_lt_reg_r with z; [lra|]. unfold Rdiv. rewrite Rmult_assoc, Rinv_l by lra. lra. }
  rewrite half_sqrt by lra. set (r := x / z) in *.
  assert (S1 : 1 < sqrt r) by (rewrite <- sqrt_1; apply sqrt_lt_1_alt; lra).
  assert (S2 : sqrt r * sqrt r = r) by (apply sqrt_sqrt; lra).
  assert (Ex : x = r * z) by (unfold r; field; lra).
  assert (x / sqrt r = sqrt r * z). { rewrite Ex at 1. rewrite <- S2 at 1. field. lra. }
  rewrite H0. clearbody r. subst x. clear H0. set (q := sqrt r) in *. clearbody q. subst r.
  assert (0 < z * (q - 1)) by nra. assert (0 < q * (z * (q - 1))) by (apply Rmult_lt_0_compat; lra). lra.
Qed.

Lemma inv_lt : forall x y, 0 < x -> x < y -> 1 / y < 1 / x.
Proof. intros. unfold Rdiv. rewrite !Rmult_1_l. apply Rinv_lt_contravar; [nra|lra]. Qed.

Section Three.
Variables (sc zs : R) (b : nat -> R) (a : nat -> num).
Hypothesis Hsc : 0 <= sc <= 1.
Hypothesis Hzs : 0 < zs < 1.
Hypothesis Ha : forall k, rate (a k).
Hypothesis H0 : 0 < b 0%nat.
Hypothesis H1 : b 0%nat < b 1%nat.
Hypothesis H2 : b 1%nat < b 2%nat.
Hypothesis Hgap : b 0%nat < 99 / 100 * b 2%nat.

Lemma gapT : 1 / b 2%nat < 99 / 100 * (1 / b 0%nat).
Proof.
  replace (99 / 100 * (1 / b 0%nat)) with (1 / (b 0%nat / (99 / 100))) by (field; lra).
  apply inv_lt; lra.
Qed.

Lemma newT_three : 1 / b 2%nat < newT sc zs b a (fun k => 1 / b k) 1 < 1 / b 0%nat.
Proof.
  pose proof gapT as G. pose proof (inv_lt _ _ H0 H1) as L1. pose proof (inv_lt (b 1%nat) (b 2%nat) ltac:(lra) H2) as L2.
  pose proof (inv_pos (b 2%nat) ltac:(lra)) as P2.
  assert (HG : 1 / b 2%nat < geomT b (fun k => 1 / b k) 1 < 1 / b 0%nat).
  { unfold geomT. cbn [Nat.sub Nat.add]. apply geom_between. lra. }
  unfold newT. cbn [Nat.sub]. destruct (a 0%nat) as [x|] eqn:Ex; [|auto]. destruct (a 1%nat) as [y|] eqn:Ey; [|auto].
  pose proof (Ha 0%nat) as Rx. pose proof (Ha 1%nat) as Ry. rewrite Ex in Rx. rewrite Ey in Ry. cbn [rate] in Rx, Ry.
  destruct (Rltb_cases 0 (x + y)) as [[-> Hp]|[-> Hp]]; [|auto].
  pose proof (devi_range x y Rx Ry Hp) as Hd. set (d := (y - x) / (y + x)) in *.
  destruct (Rltb_cases 0 d) as [[-> Hd0]|[-> Hd0]].
  - unfold incT. cbn [Nat.sub]. destruct (factor sc zs Hsc ltac:(lra) d ltac:(lra) (1 / b 0%nat - 1 / b 1%nat)) as [f [Hf ->]].
    split.
    + apply Rmin_glb_lt; [nra|lra].
    + eapply Rle_lt_trans; [apply Rmin_r|]. lra.
  - destruct (Reqb_cases d 0) as [[-> _]|[-> Hne]]; [auto|]. unfold decT. cbn [Nat.add].
    assert (exists f, 0 <= f <= 1 /\ (if Reqb d (-1) then (1 / b 1%nat - 1 / b 2%nat) * (1 - zs) else (1 / b 1%nat - 1 / b 2%nat) * - d * sc) = (1 / b 1%nat - 1 / b 2%nat) * f).
    { destruct (Reqb d (-1)); [exists (1 - zs); split; [lra|reflexivity]|exists (- d * sc); split; [nra|ring]]. }
    destruct H as [f [Hf ->]]. split.
    + eapply Rlt_le_trans; [|apply Rmax_r]. lra.
    + apply Rmax_lub_lt; [nra|lra].
Qed.

Lemma tuned_three : b 0%nat < tuned sc zs 3 b a 1 < b 2%nat.
Proof.
  assert (K : 1 / b 2%nat < temps sc zs 3 b a 1 1 < 1 / b 0%nat).
  { pose proof newT_three as HN. pose proof gapT as G. pose proof (inv_pos (b 2%nat) ltac:(lra)) as P2. 
    cbn [temps]. unfold bodyT. set (v := newT sc zs b a (fun k => 1 / b k) 1) in *.
    unfold edge1, edge0. cbn [Nat.sub]. destruct (low (a 0%nat)), (low (a 1%nat)); unfold upd; cbn [Nat.eqb]; nra. }
  unfold tuned. cbn [Nat.leb Nat.sub andb]. set (T := temps sc zs 3 b a 1 1) in *.
  pose proof (inv_pos (b 2%nat) ltac:(lra)) as P2.
  replace (b 0%nat) with (1 / (1 / b 0%nat)) by (field; lra). replace (b 2%nat) with (1 / (1 / b 2%nat)) by (field; lra).
  split; apply inv_lt; lra.
Qed.
End Three.

(** betas of three ranks in strict order, the ends not too close *)
Definition ordered3 (b0 b1 b2 : R) : Prop := 0 < b0 /\ b0 < b1 /\ b1 < b2 /\ b0 < 99 / 100 * b2.

Lemma adapt_three : forall sc zs b0 b1 b2 nsw npr, 0 <= sc <= 1 -> 0 < zs < 1 -> ordered3 b0 b1 b2 -> counts 3 nsw npr ->
  exists b1', tune_ladder (A := N) (Some sc) (Some zs) 3 nsw npr [Some b0; Some b1; Some b2] = OK [Some b0; Some b1'; Some b2] /\
    ordered3 b0 b1' b2.
Proof.
  intros sc zs b0 b1 b2 nsw npr Hsc Hzs [H0 [H1 [H2 Hg]]] HC.
  destruct (counts_vals 3 nsw npr HC) as [Vs [Vp HR]]. destruct HC as [Ls [Lp _]].
  set (b := fun k => match k with O => b0 | 1%nat => b1 | _ => b2 end).
  assert (Vb : vals [Some b0; Some b1; Some b2] b).
  { intros [|[|[|k]]] Hk; cbn in *; auto. lia. }
  assert (Pb : forall k, (k < 3)%nat -> 0 < b k) by (intros [|[|[|k]]] Hk; cbn; lra || lia).
  pose proof (tuned_three sc zs b _ Hsc Hzs HR H0 H1 H2 Hg) as HT.
  destruct (tune_ladder_val sc zs 3 [Some b0; Some b1; Some b2] b nsw npr _ _ _ ltac:(lia) eq_refl Vb Pb Ls Vs Lp Vp (fun k _ => eq_refl)) as [beta' [E [L' V']]].
  - intros k Hk. assert (k = 1)%nat by lia. subst k.
    assert (0 < tuned sc zs 3 b (rates_of (fun k => val (nth k nsw None)) (fun k => val (nth k npr None))) 1) by (cbn [b] in HT; lra).
    unfold tuned in H. cbn [Nat.leb Nat.sub andb] in H. cbn [Nat.sub]. intro K. rewrite K in H. unfold Rdiv in H. rewrite Rinv_0 in H. lra.
  - eexists. split.
    + change (Z.of_nat 3) with 3%Z in E. etransitivity; [exact E|]. f_equal. apply (nth_ext _ _ None None).
      * rewrite L'. reflexivity.
      * intros k Hk. rewrite (V' k Hk). rewrite L' in Hk. destruct k as [|[|[|k]]]; [reflexivity|reflexivity|reflexivity|lia].
    + cbn [b] in HT. unfold ordered3. lra.
Qed.

Lemma adapted_three : forall sc zs b0 b1 b2 beta', 0 <= sc <= 1 -> 0 < zs < 1 -> ordered3 b0 b1 b2 ->
  adapted sc zs 3 [Some b0; Some b1; Some b2] beta' -> exists b1', beta' = [Some b0; Some b1'; Some b2] /\ ordered3 b0 b1' b2.
Proof.
  intros sc zs b0 b1 b2 beta' Hsc Hzs HO H. remember [Some b0; Some b1; Some b2] as beta eqn:Eb. revert b1 HO Eb.
  induction H as [|beta nsw npr beta1 beta2 HC HT H IH]; intros b1 HO ->; [eauto|].
  destruct (adapt_three sc zs b0 b1 b2 nsw npr Hsc Hzs HO HC) as [b1' [E HO']].
  assert (Eb : OK [Some b0; Some b1'; Some b2] = OK beta1) by (rewrite <- E; exact HT). injection Eb; intros <-. eauto.
Qed.
