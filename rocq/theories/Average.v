(** Averages along the chain: the mean square of the difference between the average of the rows of a rank and the posterior mean. *)
From Coq Require Import ZArith List Bool Reals Lia Lra.
From Coquelicot Require Import Coquelicot.
From Verif Require Import Base Arith UserModels Boundary BounceDensity Nice Invariance Tempering Converge.
Import ListNotations.
Open Scope R_scope.

Section Average.
Variable box : list (R * R).
Hypothesis W : wide box.
Variable Ls : list (list R -> R).
Variable phis : list (list (R -> R)).
Notation n := (length Ls).
Notation stD := (stD box).
Notation nint := (nint box).
Notation mean := (mean box Ls phis).
Notation means := (means box Ls phis).
Notation op_ok := (op_ok Ls).
Hypothesis NL : List.Forall (nice (boxD box)) Ls.
Hypothesis HP : length phis = n.
Hypothesis EP : List.Forall (fun ps => List.Forall even_density ps /\ length ps = length box /\ bint (widths box) (dens ps) <> 0) phis.
Hypothesis PP : forall ps, In ps phis -> forall phi, In phi ps -> forall s, 0 < phi s.

(** mean of F of the states after each operation *)
Fixpoint paths (os : list op) (F : list (list (list R)) -> R) (X : list (list R)) : R :=
  match os with [] => F [] | o :: os => mean o (fun Y => paths os (fun p => F (Y :: p)) Y) X end.

(** the steps of rank r, whose rows are appended to its chain file, and the sum of g over them *)
Definition is_row (r : nat) (o : op) : bool := match o with Move i => Nat.eqb i r | Swap _ _ => false end.
Fixpoint rowsum (r : nat) (g : list R -> R) (os : list op) (p : list (list (list R))) : R :=
  match os, p with o :: os, Y :: p => (if is_row r o then g (nth r Y []) else 0) + rowsum r g os p | _, _ => 0 end.
Definition rows (r : nat) (os : list op) : nat := length (filter (is_row r) os).

Section Rank.
Variable r : nat.
Hypothesis Hr : (r < n)%nat.
Variable g : list R -> R.
Hypothesis NG : nice (boxD box) g.

Definition c (o : op) (Y : list (list R)) : R := if is_row r o then g (nth r Y []) else 0.
Fixpoint u (os : list op) : list (list R) -> R :=
  match os with [] => fun _ => 0 | o :: os => mean o (fun Y => c o Y + u os Y) end.
Fixpoint v (os : list op) : list (list R) -> R :=
  match os with [] => fun _ => 0 | o :: os => mean o (fun Y => c o Y * c o Y + 2 * (c o Y * u os Y) + v os Y) end.

Lemma nice_c : forall o, nice (stD n) (c o).
Proof.
  intros o. unfold c. destruct (is_row r o); [|apply nice_const].
  apply (nice_map (stD n) (boxD box) (fun X => nth r X []) g); auto. apply smooth_row; auto.
Qed.
Lemma nice_u : forall os, List.Forall op_ok os -> nice (stD n) (u os).
Proof. induction 1 as [|o os Ho _ IH]; cbn [u]; [apply nice_const|]. apply nice_mean; auto. apply nice_plus; auto using nice_c. Qed.
Lemma nice_v : forall os, List.Forall op_ok os -> nice (stD n) (v os).
Proof.
  induction 1 as [|o os Ho Hs IH]; cbn [v]; [apply nice_const|]. apply nice_mean; auto. pose proof (nice_c o). pose proof (nice_u os Hs).
  apply nice_plus; auto. apply nice_plus; [apply nice_mult; auto|]. apply nice_mult; [apply nice_const|]. apply nice_mult; auto.
Qed.

Lemma mean_plus : forall o f h X, op_ok o -> nice (stD n) f -> nice (stD n) h -> inD (stD n) X -> mean o (fun Y => f Y + h Y) X = mean o f X + mean o h X.
Proof.
  intros [i|i j] f h X Ho NF NH HX; cbn [Tempering.mean].
  - destruct (phi_i box W Ls phis HP EP PP i Ho) as [E1 [E2 [E3 E4]]].
    pose proof (row_in box Ls i X Ho HX) as Hx.
    set (m := bint (widths box) (dens (nth i phis []))) in *.
    assert (S : step (nth i phis []) box (nth i Ls nol) (fun y => f (rep i y X) + h (rep i y X)) (nth i X [])
      = step (nth i phis []) box (nth i Ls nol) (fun y => f (rep i y X)) (nth i X []) + step (nth i phis []) box (nth i Ls nol) (fun y => h (rep i y X)) (nth i X [])).
    { unfold step. cbv zeta. rewrite <- bint_plus.
      - apply bint_eqb; [apply wide_widths; auto|]. intros s _. ring.
      - apply wide_widths; auto.
      - apply (nice_int box W (nth i phis []) E1 E2 (nth i X []) (fun y => accept (nth i Ls nol (nth i X [])) (nth i Ls nol y) * f (rep i y X) + (1 - accept (nth i Ls nol (nth i X [])) (nth i Ls nol y)) * f (rep i (nth i X []) X))); auto.
        apply (nice_h box (nth i Ls nol) (nice_L box Ls NL i) (nth i X []) (fun y => f (rep i y X))); auto. apply (nice_rep box Ls); auto.
      - apply (nice_int box W (nth i phis []) E1 E2 (nth i X []) (fun y => accept (nth i Ls nol (nth i X [])) (nth i Ls nol y) * h (rep i y X) + (1 - accept (nth i Ls nol (nth i X [])) (nth i Ls nol y)) * h (rep i (nth i X []) X))); auto.
        apply (nice_h box (nth i Ls nol) (nice_L box Ls NL i) (nth i X []) (fun y => h (rep i y X))); auto. apply (nice_rep box Ls); auto. }
    rewrite S. unfold Rdiv. ring.
  - ring.
Qed.

(** the square of the sum along the path *)
Lemma paths_square : forall os, List.Forall op_ok os -> forall a X, inD (stD n) X ->
  paths os (fun p => (a + rowsum r g os p) * (a + rowsum r g os p)) X = a * a + 2 * a * u os X + v os X.
Proof.
  induction 1 as [|o os Ho Hs IH]; intros a X HX; cbn [paths rowsum u v]; [ring|].
  pose proof (nice_c o) as NC. pose proof (nice_u os Hs) as NU. pose proof (nice_v os Hs) as NV.
  rewrite (mean_ext box W Ls phis o _ (fun Y => (2 * a * (c o Y + u os Y) + a * a) + (c o Y * c o Y + 2 * (c o Y * u os Y) + v os Y))); auto.
  - assert (N1 : nice (stD n) (fun Y => c o Y + u os Y)) by (apply nice_plus; auto).
    rewrite (mean_plus o (fun Y => 2 * a * (c o Y + u os Y) + a * a) (fun Y => c o Y * c o Y + 2 * (c o Y * u os Y) + v os Y)); auto.
    + rewrite (mean_aff box W Ls phis NL HP EP PP o (fun Y => c o Y + u os Y) (2 * a) (a * a)); auto.
      enough (K : forall A B : R, 2 * a * A + a * a + B = a * a + 2 * a * A + B) by exact (K _ _). intros; ring.
    + apply nice_plus; [apply nice_mult; [apply nice_const|auto]|apply nice_const].
    + apply nice_plus; auto. apply nice_plus; [apply nice_mult; auto|]. apply nice_mult; [apply nice_const|]. apply nice_mult; auto.
  - intros Y HY. fold (c o Y).
    transitivity (paths os (fun p => (a + c o Y + rowsum r g os p) * (a + c o Y + rowsum r g os p)) Y).
    + f_equal. apply FunctionalExtensionality.functional_extensionality. intros p. unfold c. ring.
    + rewrite IH by auto. ring.
Qed.

(** ranges *)
Definition ranged (s : R) (h : list (list R) -> R) : Prop := exists lo hi, lo <= hi /\ hi - lo <= s /\ forall Y, inD (stD n) Y -> lo <= h Y <= hi.
Lemma ranged_le : forall s t h, s <= t -> ranged s h -> ranged t h.
Proof. intros s t h H [lo [hi [A [B C]]]]. exists lo, hi. split; auto. split; auto. lra. Qed.
Lemma ranged_plus : forall s t f h, ranged s f -> ranged t h -> ranged (s + t) (fun Y => f Y + h Y).
Proof. intros s t f h [a [b [A [B C]]]] [a' [b' [A' [B' C']]]]. exists (a + a'), (b + b'). split; [lra|]. split; [lra|]. intros Y HY. specialize (C Y HY). specialize (C' Y HY). lra. Qed.
Lemma ranged_means : forall os s h, List.Forall op_ok os -> nice (stD n) h -> ranged s h -> ranged s (means os h).
Proof. intros os s h HO N [lo [hi [A [B C]]]]. exists lo, hi. split; auto. split; auto. intros Y HY. apply (means_range box W Ls phis NL HP EP PP); auto. Qed.

Definition pmean (h : list (list R) -> R) : R := nint n (fun Y => joint Ls Y * h Y).
Lemma pm_plus : forall f h, nice (stD n) f -> nice (stD n) h -> pmean (fun Y => f Y + h Y) = pmean f + pmean h.
Proof.
  intros f h F H. unfold pmean. pose proof (nice_joint box Ls NL) as NJ. rewrite <- nint_plus; auto; try (apply nice_mult; auto). apply nint_eqb; auto. intros; ring.
Qed.
Hypothesis V : 0 < vol box.
Lemma centred_abs : forall s h, nice (stD n) h -> ranged s h -> pmean h = 0 -> forall Y, inD (stD n) Y -> Rabs (h Y) <= s.
Proof.
  intros s h N [lo [hi [A [B C]]]] Z Y HY. pose proof (nice_joint box Ls NL) as NJ.
  destruct (joint_low box Ls NL) as [k [K1 K2]].
  assert (JP : forall Y, inD (stD n) Y -> 0 < joint Ls Y) by (intros Y' [_ HY']; specialize (K2 Y' HY'); lra).
  assert (Z0 : 0 < nint n (joint Ls)).
  { apply Rlt_le_trans with (nint n (fun _ => k)); [rewrite (nint_c box W); apply Rmult_lt_0_compat; auto; apply pow_lt; auto|].
    apply nint_mono; [auto|apply nice_const|auto|]. intros Y' [_ HY']. apply K2; auto. }
  assert (M1 : lo * nint n (joint Ls) <= pmean h).
  { unfold pmean. rewrite <- nint_scal by auto. apply nint_mono; [auto|apply nice_mult; [apply nice_const|auto]|apply nice_mult; auto|].
    intros Y' HY'. rewrite Rmult_comm. apply Rmult_le_compat_l; [left; auto|apply C; auto]. }
  assert (M2 : pmean h <= hi * nint n (joint Ls)).
  { unfold pmean. rewrite <- nint_scal by auto. apply nint_mono; [auto|apply nice_mult; auto|apply nice_mult; [apply nice_const|auto]|].
    intros Y' HY'. rewrite (Rmult_comm hi). apply Rmult_le_compat_l; [left; auto|apply C; auto]. }
  rewrite Z in M1, M2. specialize (C Y HY).
  assert (lo <= 0) by (destruct (Rle_dec lo 0) as [?|Hn]; auto; exfalso; assert (0 < lo * nint n (joint Ls)) by (apply Rmult_lt_0_compat; lra); lra).
  assert (0 <= hi) by (destruct (Rle_dec 0 hi) as [?|Hn]; auto; exfalso; assert (0 < - hi * nint n (joint Ls)) by (apply Rmult_lt_0_compat; lra); lra).
  apply Rabs_le_between. lra.
Qed.

(** g with posterior mean 0 and range s *)
Variable s : R.
Hypothesis S0 : 0 <= s.
Hypothesis GC : pmean (fun Y => g (nth r Y [])) = 0.
Hypothesis GR : ranged s (fun Y => g (nth r Y [])).

Lemma c_ranged : forall o, ranged (if is_row r o then s else 0) (c o).
Proof. intros o. unfold c. destruct (is_row r o); auto. exists 0, 0. repeat split; lra. Qed.
Lemma c_centred : forall o, pmean (c o) = 0.
Proof. intros o. unfold c. destruct (is_row r o); auto. unfold pmean. refine (eq_trans _ (nint0 box n W)). apply nint_eqb; auto. intros; ring. Qed.
Lemma u_centred : forall os, List.Forall op_ok os -> pmean (u os) = 0.
Proof.
  induction 1 as [|o os Ho Hs IH]; cbn [u].
  - unfold pmean. refine (eq_trans _ (nint0 box n W)). apply nint_eqb; auto. intros; ring.
  - pose proof (nice_c o) as NC. pose proof (nice_u os Hs) as NU. assert (N1 : nice (stD n) (fun Y => c o Y + u os Y)) by (apply nice_plus; auto).
    pose proof (ops_inv box W Ls phis NL HP EP [o] (fun Y => c o Y + u os Y) ltac:(constructor; auto) N1) as K. cbn [Tempering.means] in K.
    unfold pmean. refine (eq_trans K _). fold (pmean (fun Y => c o Y + u os Y)). rewrite (pm_plus (c o) (u os)) by auto. rewrite IH, c_centred. ring.
Qed.
Lemma u_app : forall a b, List.Forall op_ok a -> List.Forall op_ok b -> forall X, inD (stD n) X -> u (a ++ b) X = u a X + means a (u b) X.
Proof.
  induction a as [|o a IH]; intros b Ha Hb X HX; cbn [app u Tempering.means]; [ring|]. inversion Ha as [|? ? Ho Ha']; subst.
  pose proof (nice_c o) as NC. pose proof (nice_u a Ha') as NU.
  assert (NM : nice (stD n) (means a (u b))) by (apply nice_means; auto; apply nice_u; auto).
  rewrite (mean_ext box W Ls phis o _ (fun Y => (c o Y + u a Y) + means a (u b) Y)); auto.
  - rewrite (mean_plus o (fun Y => c o Y + u a Y) (means a (u b))); auto. apply nice_plus; auto.
  - intros Y HY. rewrite IH by auto. ring.
Qed.
Lemma rows_cons : forall o os, INR (rows r (o :: os)) * s = (if is_row r o then s else 0) + INR (rows r os) * s.
Proof. intros o os. unfold rows. cbn [filter]. destruct (is_row r o); [cbn [length]; rewrite S_INR; ring|ring]. Qed.
(** at most one s for each row *)
Lemma u_ranged : forall os t h, List.Forall op_ok os -> nice (stD n) h -> ranged t h -> ranged (INR (rows r os) * s + t) (fun X => u os X + means os h X).
Proof.
  induction os as [|o os IH]; intros t h HO N H.
  - cbn [u Tempering.means rows filter length INR]. apply (ranged_le t); [cbn; lra|]. destruct H as [lo [hi [A [B C]]]]. exists lo, hi. split; auto. split; auto. intros Y HY. specialize (C Y HY). lra.
  - inversion HO as [|? ? Ho Hs]; subst. pose proof (IH t h Hs N H) as K. rewrite rows_cons.
    pose proof (nice_c o) as NC. pose proof (nice_u os Hs) as NU. assert (NM : nice (stD n) (means os h)) by (apply nice_means; auto).
    assert (N1 : nice (stD n) (fun Y => c o Y + (u os Y + means os h Y))) by (apply nice_plus; auto; apply nice_plus; auto).
    pose proof (ranged_plus _ _ _ _ (c_ranged o) K) as Q. apply (ranged_means [o]) in Q; [|constructor; auto|auto]. cbn [Tempering.means] in Q.
    rewrite <- Rplus_assoc in Q. destruct Q as [lo [hi [A [B C]]]]. exists lo, hi. split; auto. split; auto. intros Y HY. specialize (C Y HY). cbn [u Tempering.means].
    rewrite <- (mean_plus o (fun Y => c o Y + u os Y) (means os h)); auto; [|apply nice_plus; auto].
    rewrite (mean_ext box W Ls phis o _ (fun Y => c o Y + (u os Y + means os h Y))); auto. intros; ring.
Qed.

(** batches of at most LM rows of rank r, each shrinking ranges by the factor q *)
Variable LM : nat.
Variable q : R.
Hypothesis Q01 : 0 <= q < 1.
Hypothesis QB : forall b, is_batch Ls b -> forall t h, nice (stD n) h -> ranged t h -> ranged (q * t) (means b h).
Definition small (b : list op) : Prop := is_batch Ls b /\ (rows r b <= LM)%nat.
Definition U : R := INR LM * s / (1 - q).
Lemma U0 : 0 <= U.
Proof. unfold U. apply Rmult_le_pos; [apply Rmult_le_pos; auto; apply pos_INR|]. left. apply Rinv_0_lt_compat. lra. Qed.
Lemma rows_s : forall os, (rows r os <= LM)%nat -> INR (rows r os) * s <= INR LM * s.
Proof. intros os H. apply Rmult_le_compat_r; auto. apply le_INR; auto. Qed.

Lemma smalls_ok : forall bs, List.Forall small bs -> List.Forall op_ok (concat bs).
Proof. intros bs H. apply (batches_ok Ls phis HP). revert H. apply List.Forall_impl. intros b [H _]. exact H. Qed.
Lemma u_batches : forall bs, List.Forall small bs -> ranged U (u (concat bs)).
Proof.
  induction 1 as [|b bs [Hb Hl] Hs IH]; cbn [concat].
  - cbn [u]. exists 0, 0. split; [lra|]. split; [pose proof U0; lra|]. intros; lra.
  - pose proof (batch_ok Ls phis HP b Hb) as OB. pose proof (smalls_ok bs Hs) as OS. pose proof (nice_u _ OS) as NU.
    pose proof (QB b Hb U (u (concat bs)) NU IH) as K1.
    assert (Z : ranged 0 (fun _ => 0)) by (exists 0, 0; repeat split; intros; lra).
    pose proof (u_ranged b 0 (fun _ => 0) OB (nice_const _ 0) Z) as K2. rewrite Rplus_0_r in K2.
    pose proof (ranged_plus _ _ _ _ K2 K1) as K3. apply (ranged_le _ U) in K3.
    + destruct K3 as [lo [hi [A [B C]]]]. exists lo, hi. split; auto. split; auto. intros Y HY. specialize (C Y HY).
      pose proof (means_one box W Ls phis HP EP b 0 Y OB HY) as M0. rewrite u_app by auto. cbv beta in C. match type of C with _ <= _ + ?m + _ <= _ => change m with (means b (fun _ => 0) Y) in C end. rewrite M0 in C. rewrite Rplus_0_r in C. exact C.
    + pose proof (rows_s b Hl). replace U with (INR LM * s + q * U) at 2; [lra|]. unfold U. field. lra.
Qed.

(** the rest of a sequence of batches *)
Definition tail (os : list op) : Prop := exists a bs, os = a ++ concat bs /\ List.Forall op_ok a /\ (rows r a <= LM)%nat /\ List.Forall small bs.
Lemma tail_tl : forall o os, tail (o :: os) -> tail os.
Proof.
  intros o os [a [bs [E [OA [HA HB]]]]]. destruct a as [|o' a].
  - cbn in E. induction HB as [|b bs [B1 B2] HB IH]; [discriminate|]. cbn in E. destruct b as [|o' b]; [auto|].
    injection E as <- ->. exists b, bs. split; auto. pose proof (batch_ok Ls phis HP _ B1) as K. inversion K; subst. split; auto. split; auto.
    unfold rows in *. cbn [filter] in B2. destruct (is_row r o); cbn in B2; lia.
  - injection E as <- ->. exists a, bs. split; auto. inversion OA; subst. split; auto. split; auto.
    unfold rows in *. cbn [filter] in HA. destruct (is_row r o); cbn in HA; lia.
Qed.
Lemma tail_ok : forall os, tail os -> List.Forall op_ok os.
Proof. intros os [a [bs [-> [OA [_ HB]]]]]. apply List.Forall_app. split; auto. apply smalls_ok; auto. Qed.
Lemma u_tail : forall os, tail os -> ranged (INR LM * s + U) (u os).
Proof.
  intros os [a [bs [-> [OA [HA HB]]]]]. pose proof (smalls_ok bs HB) as OS. pose proof (nice_u _ OS) as NU.
  pose proof (u_ranged a U (u (concat bs)) OA NU (u_batches bs HB)) as K. apply (ranged_le _ (INR LM * s + U)) in K; [|pose proof (rows_s a HA); lra].
  destruct K as [lo [hi [A [B C]]]]. exists lo, hi. split; auto. split; auto. intros Y HY. rewrite u_app by auto. apply C; auto.
Qed.

Definition K : R := s * s + 2 * (s * (INR LM * s + U)).
Lemma K0 : 0 <= K.
Proof.
  unfold K. pose proof U0. pose proof (pos_INR LM). assert (0 <= s * s) by (apply Rmult_le_pos; auto). assert (0 <= INR LM * s) by (apply Rmult_le_pos; auto).
  assert (0 <= s * (INR LM * s + U)) by (apply Rmult_le_pos; lra). lra.
Qed.
Lemma v_le : forall os, tail os -> forall X, inD (stD n) X -> v os X <= INR (rows r os) * K.
Proof.
  induction os as [|o os IH]; intros HT X HX; [cbn; lra|].
  pose proof (tail_tl o os HT) as HT'. pose proof (tail_ok _ HT) as OK. inversion OK as [|? ? Ho Hs]; subst.
  pose proof (nice_c o) as NC. pose proof (nice_u os Hs) as NU. pose proof (nice_v os Hs) as NV.
  set (k := INR (rows r (o :: os)) * K). cbn [v].
  assert (M : mean o (fun _ => k) X = k).
  { pose proof (means_one box W Ls phis HP EP [o] k X ltac:(constructor; auto) HX) as Q. exact Q. }
  rewrite <- M. apply (mean_mono box W Ls phis NL HP EP PP); auto; [|apply nice_const|].
  - apply nice_plus; auto. apply nice_plus; [apply nice_mult; auto|]. apply nice_mult; [apply nice_const|]. apply nice_mult; auto.
  - intros Y HY. specialize (IH HT' Y HY).
    assert (CU : Rabs (u os Y) <= INR LM * s + U) by (apply centred_abs; auto; [apply u_tail; auto|apply u_centred; auto]).
    assert (CC : Rabs (c o Y) <= if is_row r o then s else 0) by (apply centred_abs; auto; [apply c_ranged|apply c_centred]).
    unfold k, rows. cbn [filter]. fold (rows r os) in *. destruct (is_row r o) eqn:E.
    + cbn [length]. fold (rows r os). rewrite S_INR, Rmult_plus_distr_r, Rmult_1_l.
      assert (A1 : c o Y * c o Y <= s * s).
      { rewrite <- (Rabs_pos_eq (c o Y * c o Y)) by apply Rle_0_sqr. rewrite Rabs_mult. apply Rmult_le_compat; auto; apply Rabs_pos. }
      assert (A2 : c o Y * u os Y <= s * (INR LM * s + U)).
      { eapply Rle_trans; [apply Rle_abs|]. rewrite Rabs_mult. apply Rmult_le_compat; auto; apply Rabs_pos. }
      change (length (filter (is_row r) os)) with (rows r os). unfold K at 2. lra.
    + assert (Z : c o Y = 0) by (unfold c; rewrite E; auto). rewrite Z. change (length (filter (is_row r) os)) with (rows r os). lra.
Qed.
Lemma square_le : forall bs, List.Forall small bs -> forall X, inD (stD n) X ->
  paths (concat bs) (fun p => rowsum r g (concat bs) p * rowsum r g (concat bs) p) X <= INR (rows r (concat bs)) * K.
Proof.
  intros bs HB X HX. pose proof (smalls_ok bs HB) as OK. pose proof (paths_square (concat bs) OK 0 X HX) as E.
  assert (E2 : paths (concat bs) (fun p => rowsum r g (concat bs) p * rowsum r g (concat bs) p) X = v (concat bs) X).
  { transitivity (paths (concat bs) (fun p => (0 + rowsum r g (concat bs) p) * (0 + rowsum r g (concat bs) p)) X).
    - f_equal. apply FunctionalExtensionality.functional_extensionality. intros p. ring.
    - rewrite E. ring. }
  rewrite E2. apply v_le; auto. exists [], bs. split; auto. split; [constructor|]. split; [cbn; lia|auto].
Qed.
End Rank.

Lemma paths_len : forall os F G, (forall p, length p = length os -> F p = G p) -> forall X, paths os F X = paths os G X.
Proof.
  induction os as [|o os IH]; intros F G H X; cbn [paths]; [apply H; reflexivity|]. f_equal. apply FunctionalExtensionality.functional_extensionality. intros Y.
  apply IH. intros p Hp. apply H. cbn. lia.
Qed.
Lemma rowsum_aff : forall r g m t os p, length p = length os -> rowsum r (fun x => (g x - m) * t) os p = (rowsum r g os p - INR (rows r os) * m) * t.
Proof.
  intros r g m t. induction os as [|o os IH]; intros [|Y p] H; cbn in H; try lia; [unfold rows; cbn; ring|]. cbn [rowsum]. rewrite IH by lia.
  unfold rows. cbn [filter]. destruct (is_row r o); [cbn [length]; rewrite S_INR; ring|ring].
Qed.

(** the posterior mean of one rank *)
Lemma one_rank : forall r g, (r < n)%nat -> nice (boxD box) g -> nint n (fun Y => joint Ls Y * g (nth r Y [])) = bint box (fun x => exp (nth r Ls nol x) * g x) * nint (n - 1) (joint (del r Ls)).
Proof.
  intros r g Hr NG. pose proof (nice_joint box Ls NL) as NJ.
  assert (NC : nice (stD n) (fun Y => g (nth r Y []))) by (apply (nice_map (stD n) (boxD box) (fun X => nth r X []) g); auto; apply smooth_row; auto).
  pose proof (del_length r Ls Hr) as DL. set (m := (n - 1)%nat). assert (EN : n = Datatypes.S m) by (unfold m; lia).
  assert (DM : length (del r Ls) = m) by lia.
  assert (NF : nice (stD (Datatypes.S m)) (fun Y => joint Ls Y * g (nth r Y []))) by (rewrite <- EN; apply nice_mult; auto).
  assert (NE : nice (boxD box) (fun x => exp (nth r Ls nol x) * g x)) by (apply nice_mult; auto; apply nice_exp, nice_L; auto).
  assert (ND : nice (stD m) (joint (del r Ls))).
  { rewrite <- DM. apply nice_joint. clear - NL. revert r. induction NL as [|L l H Hl IH]; intros [|r]; cbn; auto. }
  transitivity (nint (Datatypes.S m) (fun Y => joint Ls Y * g (nth r Y []))); [rewrite <- EN; reflexivity|].
  refine (eq_trans (nint_ins box W r m _ ltac:(lia) NF) _). rewrite <- nint_scal by auto. apply nint_eqb; auto. intros T [HT1 HT2].
  rewrite (Rmult_comm (bint _ _)). rewrite <- bint_scal by auto. apply bint_eqb; auto. intros x Hx.
  rewrite joint_ins by lia. rewrite nth_ins by lia. ring.
Qed.
End Average.
