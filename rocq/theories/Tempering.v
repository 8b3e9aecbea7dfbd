(** All ranks together: the state is one row per rank, an operation is a Metropolis step of one rank or a swap of two. *)
From Coq Require Import ZArith List Bool Reals Lia Lra.
From Coquelicot Require Import Coquelicot.
From Verif Require Import Base Arith UserModels Boundary BounceDensity Nice Invariance.
Import ListNotations.
Open Scope R_scope.

Section Tempering.
Variable box : list (R * R).
Hypothesis W : wide box.

(** n rows, each in the box *)
Definition stD (n : nat) : Dom.
Proof.
  refine (mkDom (list (list R)) (fun X => length X = n /\ List.Forall (inside box) X) (fun d X Y => List.Forall2 (close d) X Y) _).
  intros d d' x y H N. induction N as [|a b l l' E N IH]; constructor; auto. exact (nr_mono (boxD box) d d' a b H E).
Defined.

Lemma st_refl : forall n, reflD (stD n).
Proof. intros n d X Hd. cbn. induction X; constructor; auto. apply (box_refl box d a Hd). Qed.
Lemma bx_refl : reflD (boxD box).
Proof. intros d x Hd. apply box_refl; auto. Qed.
Lemma pr_refl : forall P Q, reflD P -> reflD Q -> reflD (prodD P Q).
Proof. intros P Q RP RQ d [p q] Hd. split; [apply RP|apply RQ]; auto. Qed.

(** the integral over all rows *)
Fixpoint nint (n : nat) (F : list (list R) -> R) : R :=
  match n with O => F [] | Datatypes.S n => bint box (fun x => nint n (fun T => F (x :: T))) end.

Lemma smooth_push : forall P n u V, smooth P (boxD box) u -> smooth P (stD n) V -> smooth P (stD (Datatypes.S n)) (fun p => u p :: V p).
Proof.
  intros P n u V [A B] [C D]. split.
  - intros p Hp. destruct (C p Hp) as [C1 C2]. split; [cbn; lia|constructor; auto]. apply (A p Hp).
  - intros d Hd. destruct (B d Hd) as [d1 [H1 K1]]. destruct (D d Hd) as [d2 [H2 K2]]. exists (Rmin d1 d2). split; [apply Rmin_glb_lt; auto|].
    intros x y Hx Hy N. constructor.
    + apply K1; auto. eapply nr_mono; [apply Rmin_l|exact N].
    + apply K2; auto. eapply nr_mono; [apply Rmin_r|exact N].
Qed.

Lemma nice_nint : forall n P (F : pt P -> list (list R) -> R), reflD P -> nice (prodD P (stD n)) (fun z => F (fst z) (snd z)) -> nice P (fun p => nint n (F p)).
Proof.
  induction n as [|n IH]; intros P F RP N; cbn [nint].
  - apply (nice_map P (prodD P (stD 0)) (fun p => (p, [])) (fun z => F (fst z) (snd z))); auto.
    apply smooth_pair; [apply smooth_id|apply smooth_const; [intros; apply st_refl; auto|split; [reflexivity|constructor]]].
  - apply (nice_bint box P (fun p x => nint n (fun T => F p (x :: T)))); auto.
    apply (IH (prodD P (boxD box)) (fun z T => F (fst z) (snd z :: T))); [apply pr_refl; auto using bx_refl|].
    apply (nice_map (prodD (prodD P (boxD box)) (stD n)) (prodD P (stD (Datatypes.S n))) (fun z => (fst (fst z), snd (fst z) :: snd z)) (fun z => F (fst z) (snd z))); auto.
    apply smooth_pair.
    + apply (smooth_comp (prodD (prodD P (boxD box)) (stD n)) (prodD P (boxD box)) P fst fst); apply smooth_fst.
    + apply (smooth_push (prodD (prodD P (boxD box)) (stD n)) n (fun z => snd (fst z)) snd); [|apply smooth_snd].
      apply (smooth_comp (prodD (prodD P (boxD box)) (stD n)) (prodD P (boxD box)) (boxD box) fst snd); [apply smooth_fst|apply smooth_snd].
Qed.

Lemma nint_eqb : forall n (F G : list (list R) -> R), (forall X, inD (stD n) X -> F X = G X) -> nint n F = nint n G.
Proof.
  induction n as [|n IH]; intros F G H; cbn [nint].
  - apply H. split; [reflexivity|constructor].
  - apply bint_eqb; auto. intros x Hx. apply IH. intros T [H1 H2]. apply H. split; [cbn; lia|constructor; auto].
Qed.

(** a row fixed in front *)
Lemma nice_front : forall n x (F : list (list R) -> R), inside box x -> nice (stD (Datatypes.S n)) F -> nice (stD n) (fun T => F (x :: T)).
Proof.
  intros n x F Hx N. apply (nice_map (stD n) (stD (Datatypes.S n)) (fun T => x :: T) F); auto.
  apply (smooth_push (stD n) n (fun _ => x) (fun T => T)); [apply smooth_const; auto; intros; apply bx_refl; auto|apply smooth_id].
Qed.
Lemma nice_front2 : forall n (F : list (list R) -> R), nice (stD (Datatypes.S n)) F -> nice (prodD (boxD box) (stD n)) (fun z => F (fst z :: snd z)).
Proof.
  intros n F N. apply (nice_map (prodD (boxD box) (stD n)) (stD (Datatypes.S n)) (fun z => fst z :: snd z) F); auto.
  apply (smooth_push (prodD (boxD box) (stD n)) n fst snd); [apply smooth_fst|apply smooth_snd].
Qed.

Lemma nint_scal : forall n k (F : list (list R) -> R), nice (stD n) F -> nint n (fun X => k * F X) = k * nint n F.
Proof.
  induction n as [|n IH]; intros k F N; cbn [nint]; auto.
  rewrite <- bint_scal; auto.
  - apply bint_eqb; auto. intros x Hx. apply IH. apply nice_front; auto.
  - apply (nice_nint n (boxD box) (fun x T => F (x :: T))); [apply bx_refl|]. apply nice_front2; auto.
Qed.

(** one row can be integrated last *)
Lemma xch : forall n (F : list R -> list (list R) -> R), nice (prodD (boxD box) (stD n)) (fun z => F (fst z) (snd z)) ->
  bint box (fun x => nint n (F x)) = nint n (fun T => bint box (fun x => F x T)).
Proof.
  induction n as [|n IH]; intros F N; [reflexivity|]. cbn [nint].
  rewrite (fubini box box (fun x y => nint n (fun T => F x (y :: T)))); auto.
  - apply bint_eqb; auto. intros y Hy. apply (IH (fun x T => F x (y :: T))).
    apply (nice_map (prodD (boxD box) (stD n)) (prodD (boxD box) (stD (Datatypes.S n))) (fun z => (fst z, y :: snd z)) (fun z => F (fst z) (snd z))); auto.
    apply smooth_pair; [apply smooth_fst|].
    apply (smooth_push (prodD (boxD box) (stD n)) n (fun _ => y) snd); [apply smooth_const; auto; intros; apply bx_refl; auto|apply smooth_snd].
  - apply (nice_nint n (prodD (boxD box) (boxD box)) (fun z T => F (fst z) (snd z :: T))); [apply pr_refl; apply bx_refl|].
    apply (nice_map (prodD (prodD (boxD box) (boxD box)) (stD n)) (prodD (boxD box) (stD (Datatypes.S n))) (fun z => (fst (fst z), snd (fst z) :: snd z)) (fun z => F (fst z) (snd z))); auto.
    apply smooth_pair.
    + apply (smooth_comp (prodD (prodD (boxD box) (boxD box)) (stD n)) (prodD (boxD box) (boxD box)) (boxD box) fst fst); apply smooth_fst.
    + apply (smooth_push (prodD (prodD (boxD box) (boxD box)) (stD n)) n (fun z => snd (fst z)) snd); [|apply smooth_snd].
      apply (smooth_comp (prodD (prodD (boxD box) (boxD box)) (stD n)) (prodD (boxD box) (boxD box)) (boxD box) fst snd); [apply smooth_fst|apply smooth_snd].
Qed.

(** row x put at place i, row i replaced *)
Fixpoint ins {X} (i : nat) (x : X) (T : list X) : list X :=
  match i, T with O, _ => x :: T | Datatypes.S i, y :: T => y :: ins i x T | Datatypes.S i, [] => [x] end.
Fixpoint rep {X} (i : nat) (y : X) (T : list X) : list X :=
  match i, T with _, [] => [] | O, _ :: T => y :: T | Datatypes.S i, x :: T => x :: rep i y T end.

Lemma nth_ins : forall {X} i (x d : X) T, (i <= length T)%nat -> nth i (ins i x T) d = x.
Proof. induction i as [|i IH]; intros x d [|y T] H; cbn in *; auto; try lia. apply IH. lia. Qed.
Lemma rep_ins : forall {X} i (x y : X) T, (i <= length T)%nat -> rep i y (ins i x T) = ins i y T.
Proof. induction i as [|i IH]; intros x y [|z T] H; cbn in *; auto; try lia. f_equal. apply IH. lia. Qed.
Lemma ins_length : forall {X} i (x : X) T, length (ins i x T) = Datatypes.S (length T).
Proof. induction i as [|i IH]; intros x [|y T]; cbn; auto. Qed.
Lemma rep_length : forall {X} i (x : X) T, length (rep i x T) = length T.
Proof. induction i as [|i IH]; intros x [|y T]; cbn; auto. Qed.
(** a later row seen through an insertion *)
Lemma nth_ins_lt : forall {X} i j (x d : X) T, (i <= j)%nat -> (j < length T)%nat -> nth (Datatypes.S j) (ins i x T) d = nth j T d.
Proof. induction i as [|i IH]; intros [|j] x d [|y T] H1 H2; cbn in *; auto; try lia. apply IH; lia. Qed.
Lemma rep_ins_lt : forall {X} i j (x y : X) T, (i <= j)%nat -> (j < length T)%nat -> rep (Datatypes.S j) y (ins i x T) = ins i x (rep j y T).
Proof. induction i as [|i IH]; intros [|j] x y [|z T] H1 H2; cbn in *; auto; try lia. f_equal. apply IH; lia. Qed.

Lemma smooth_ins : forall P n i u V, (i <= n)%nat -> smooth P (boxD box) u -> smooth P (stD n) V -> smooth P (stD (Datatypes.S n)) (fun p => ins i (u p) (V p)).
Proof.
  intros P n i u V Hi [A B] [C D]. split.
  - intros p Hp. destruct (C p Hp) as [C1 C2]. specialize (A p Hp). split; [rewrite ins_length; lia|].
    clear - A C2. revert i. induction C2; intros [|i]; cbn; constructor; auto; constructor; auto.
  - intros d Hd. destruct (B d Hd) as [d1 [H1 K1]]. destruct (D d Hd) as [d2 [H2 K2]]. exists (Rmin d1 d2). split; [apply Rmin_glb_lt; auto|].
    intros x y Hx Hy N. specialize (K1 x y Hx Hy (nr_mono P _ _ _ _ (Rmin_l d1 d2) N)). specialize (K2 x y Hx Hy (nr_mono P _ _ _ _ (Rmin_r d1 d2) N)).
    cbn in K1, K2 |- *. clear - K1 K2. revert i. induction K2; intros [|i]; cbn; constructor; auto; constructor; auto.
Qed.
Lemma smooth_rep : forall P n i u V, smooth P (boxD box) u -> smooth P (stD n) V -> smooth P (stD n) (fun p => rep i (u p) (V p)).
Proof.
  intros P n i u V [A B] [C D]. split.
  - intros p Hp. destruct (C p Hp) as [C1 C2]. specialize (A p Hp). split; [rewrite rep_length; lia|].
    clear - A C2. revert i. induction C2; intros [|i]; cbn; constructor; auto.
  - intros d Hd. destruct (B d Hd) as [d1 [H1 K1]]. destruct (D d Hd) as [d2 [H2 K2]]. exists (Rmin d1 d2). split; [apply Rmin_glb_lt; auto|].
    intros x y Hx Hy N. specialize (K1 x y Hx Hy (nr_mono P _ _ _ _ (Rmin_l d1 d2) N)). specialize (K2 x y Hx Hy (nr_mono P _ _ _ _ (Rmin_r d1 d2) N)).
    cbn in K1, K2 |- *. clear - K1 K2. revert i. induction K2; intros [|i]; cbn; constructor; auto.
Qed.
Lemma smooth_row : forall n i, (i < n)%nat -> smooth (stD n) (boxD box) (fun X => nth i X []).
Proof.
  intros n i Hi. split.
  - intros X [H1 H2]. rewrite List.Forall_forall in H2. apply H2. apply nth_In. lia.
  - intros d Hd. exists d. split; auto. intros X Y [H1 _] _ N. cbn in N |- *. rewrite <- H1 in Hi. clear H1. revert i Hi. induction N; intros [|i] Hi; cbn in *; auto; try lia. apply IHN. lia.
Qed.

Lemma nint_ins : forall i n (F : list (list R) -> R), (i <= n)%nat -> nice (stD (Datatypes.S n)) F ->
  nint (Datatypes.S n) F = nint n (fun T => bint box (fun x => F (ins i x T))).
Proof.
  induction i as [|i IH]; intros n F Hi N.
  - cbn [nint]. apply (xch n (fun x T => F (x :: T))). apply nice_front2; auto.
  - destruct n as [|n]; [lia|]. change (nint (Datatypes.S (Datatypes.S n)) F) with (bint box (fun y => nint (Datatypes.S n) (fun T => F (y :: T)))).
    cbn [nint]. apply bint_eqb; auto. intros y Hy. apply (IH n (fun T => F (y :: T))); [lia|]. apply nice_front; auto.
Qed.

(** joint density of the rows: the product of the posteriors of the ranks *)
Fixpoint joint (Ls : list (list R -> R)) (X : list (list R)) : R :=
  match Ls, X with L :: Ls, x :: X => exp (L x) * joint Ls X | _, _ => 1 end.
Fixpoint del {X} (i : nat) (l : list X) : list X :=
  match i, l with _, [] => [] | O, _ :: l => l | Datatypes.S i, x :: l => x :: del i l end.
Definition nol : list R -> R := fun _ => 0.

Lemma joint_ins : forall i Ls x T, (i < length Ls)%nat -> (i <= length T)%nat -> joint Ls (ins i x T) = exp (nth i Ls nol x) * joint (del i Ls) T.
Proof.
  induction i as [|i IH]; intros [|L Ls] x [|y T] H1 H2; cbn in *; try lia; auto.
  rewrite IH by lia. ring.
Qed.
Lemma del_length : forall {X} i (l : list X), (i < length l)%nat -> Datatypes.S (length (del i l)) = length l.
Proof. induction i as [|i IH]; intros [|x l] H; cbn in *; try lia; auto. rewrite IH; lia. Qed.
Lemma nth_del : forall {X} i j (l : list X) d, (i <= j)%nat -> nth j (del i l) d = nth (Datatypes.S j) l d.
Proof. induction i as [|i IH]; intros [|j] [|x l] d H; cbn in *; try lia; auto. apply IH. lia. Qed.

Lemma nice_joint : forall Ls, List.Forall (nice (boxD box)) Ls -> nice (stD (length Ls)) (joint Ls).
Proof.
  induction 1 as [|L Ls N _ IH]; cbn [length joint]; [apply nice_const|].
  assert (T1 : smooth (stD (Datatypes.S (length Ls))) (boxD box) (fun X => nth 0 X [])) by (apply smooth_row; lia).
  assert (T2 : smooth (stD (Datatypes.S (length Ls))) (stD (length Ls)) (fun X => tl X)).
  { split.
    - intros [|x X] [H1 H2]; cbn in H1; [lia|]. inversion H2; subst. split; cbn; auto.
    - intros d Hd. exists d. split; auto. intros X Y _ _ N'. cbn in N' |- *. inversion N'; subst; cbn; auto. }
  apply (nice_ext (stD (Datatypes.S (length Ls))) (fun X => exp (L (nth 0 X [])) * joint Ls (tl X))).
  - intros [|x X] [H1 H2]; cbn in H1; [lia|]. reflexivity.
  - apply nice_mult.
    + apply nice_exp. apply (nice_map (stD (Datatypes.S (length Ls))) (boxD box) (fun X => nth 0 X []) L); auto.
    + apply (nice_map (stD (Datatypes.S (length Ls))) (stD (length Ls)) (fun X => tl X) (joint Ls)); auto.
Qed.

(** ** Operations *)
Variable Ls : list (list R -> R).              (* log posteriors of the ranks *)
Variable phis : list (list (R -> R)).          (* densities of the steps of the ranks *)
Notation n := (length Ls).
Hypothesis NL : List.Forall (nice (boxD box)) Ls.
Hypothesis HP : length phis = n.
Hypothesis EP : List.Forall (fun ps => List.Forall even_density ps /\ length ps = length box /\ bint (widths box) (dens ps) <> 0) phis.

Inductive op := Move (i : nat) | Swap (i j : nat).
Definition op_ok (o : op) : Prop :=
  match o with Move i => (i < n)%nat | Swap i j => (i < n)%nat /\ (j < n)%nat /\ i <> j end.

(** mean of g after one operation from X.  [Move i]: a step of rank i, among the steps of at most the widths of the ranges;
    [Swap i j]: the rows of ranks i and j change places with the probability of the code. *)
Definition mean (o : op) (g : list (list R) -> R) (X : list (list R)) : R :=
  match o with
  | Move i => step (nth i phis []) box (nth i Ls nol) (fun y => g (rep i y X)) (nth i X []) / bint (widths box) (dens (nth i phis []))
  | Swap i j =>
      let x := nth i X [] in let y := nth j X [] in
      let a := Rmin 1 (exp (nth i Ls nol y + nth j Ls nol x - nth i Ls nol x - nth j Ls nol y)) in
      a * g (rep i y (rep j x X)) + (1 - a) * g X
  end.
Fixpoint means (os : list op) (g : list (list R) -> R) : list (list R) -> R :=
  match os with [] => g | o :: os => mean o (means os g) end.

Lemma nice_L : forall i, nice (boxD box) (nth i Ls nol).
Proof.
  intros i. destruct (Nat.lt_ge_cases i n) as [H|H].
  - rewrite List.Forall_forall in NL. apply NL. apply nth_In; auto.
  - rewrite nth_overflow by auto. apply nice_const.
Qed.
Lemma ev_phi : forall i, (i < n)%nat -> List.Forall even_density (nth i phis []) /\ length (nth i phis []) = length box /\ bint (widths box) (dens (nth i phis [])) <> 0.
Proof. intros i H. rewrite List.Forall_forall in EP. apply EP. apply nth_In. lia. Qed.

Lemma nice_mean : forall o g, op_ok o -> nice (stD n) g -> nice (stD n) (mean o g).
Proof.
  intros [i|i j] g Ho N; cbn [mean op_ok] in *.
  - destruct (ev_phi i Ho) as [E1 [E2 E3]]. unfold Rdiv. apply nice_mult; [|apply nice_const].
    set (P := stD n). set (ph := nth i phis []) in *. set (L := nth i Ls nol).
    assert (SR : smooth P (boxD box) (fun X => nth i X [])) by (apply smooth_row; auto).
    unfold step. apply (nice_bint (widths box) P (fun X s => dens ph s *
      (let y := bound box (addl (nth i X []) s) in accept (L (nth i X [])) (L y) * g (rep i y X) + (1 - accept (L (nth i X [])) (L y)) * g (rep i (nth i X []) X)))).
    + apply wide_widths; auto.
    + apply st_refl.
    + set (Q := prodD P (boxD (widths box))).
      assert (S1 : smooth Q (boxD box) (fun z => nth i (fst z) [])) by (apply (smooth_comp Q P (boxD box) fst (fun X => nth i X [])); [apply smooth_fst|auto]).
      assert (S2 : smooth Q (boxD box) (fun z => bound box (addl (nth i (fst z) []) (snd z)))).
      { apply (smooth_bound box Q (fun z => nth i (fst z) []) snd); auto. apply smooth_snd. }
      assert (A : nice Q (fun z => accept (L (nth i (fst z) [])) (L (bound box (addl (nth i (fst z) []) (snd z)))))).
      { apply nice_accept.
        - apply (nice_map Q (boxD box) (fun z => nth i (fst z) []) L); auto. apply nice_L.
        - apply (nice_map Q (boxD box) (fun z => bound box (addl (nth i (fst z) []) (snd z))) L); auto. apply nice_L. }
      apply nice_mult; [apply (nice_dens ph E1 (widths box) Q snd); [rewrite widths_length; auto|apply smooth_snd]|].
      apply nice_plus; apply nice_mult; auto.
      * apply (nice_map Q (stD n) (fun z => rep i (bound box (addl (nth i (fst z) []) (snd z))) (fst z)) g); auto.
        apply (smooth_rep Q n i (fun z => bound box (addl (nth i (fst z) []) (snd z))) fst); auto. apply smooth_fst.
      * apply nice_minus; auto. apply nice_const.
      * apply (nice_map Q (stD n) (fun z => rep i (nth i (fst z) []) (fst z)) g); auto.
        apply (smooth_rep Q n i (fun z => nth i (fst z) []) fst); auto. apply smooth_fst.
  - destruct Ho as [Hi [Hj Hij]]. set (P := stD n).
    assert (SI : smooth P (boxD box) (fun X => nth i X [])) by (apply smooth_row; auto).
    assert (SJ : smooth P (boxD box) (fun X => nth j X [])) by (apply smooth_row; auto).
    assert (A : nice P (fun X => Rmin 1 (exp (nth i Ls nol (nth j X []) + nth j Ls nol (nth i X []) - nth i Ls nol (nth i X []) - nth j Ls nol (nth j X []))))).
    { apply nice_min; [apply nice_const|]. apply nice_exp.
      repeat (apply nice_minus || apply nice_plus);
        first [apply (nice_map P (boxD box) (fun X => nth j X [])); auto; apply nice_L|apply (nice_map P (boxD box) (fun X => nth i X [])); auto; apply nice_L]. }
    apply nice_plus; apply nice_mult; auto.
    + apply (nice_map P (stD n) (fun X => rep i (nth j X []) (rep j (nth i X []) X)) g); auto.
      apply (smooth_rep P n i (fun X => nth j X []) (fun X => rep j (nth i X []) X)); auto.
      apply (smooth_rep P n j (fun X => nth i X []) (fun X => X)); auto. apply smooth_id.
    + apply nice_minus; auto. apply nice_const.
Qed.

Lemma nice_means : forall os g, List.Forall op_ok os -> nice (stD n) g -> nice (stD n) (means os g).
Proof. induction 1; intros N; cbn [means]; auto. apply nice_mean; auto. Qed.

Lemma nice_j : forall g, nice (stD n) g -> nice (stD n) (fun X => joint Ls X * g X).
Proof. intros g N. apply nice_mult; auto. apply nice_joint; auto. Qed.

(** a step of one rank leaves the joint posterior unchanged *)
Lemma move_inv : forall i g, (i < n)%nat -> nice (stD n) g ->
  nint n (fun X => joint Ls X * mean (Move i) g X) = nint n (fun X => joint Ls X * g X).
Proof.
  intros i g Hi N. pose proof (nice_j _ (nice_mean (Move i) g Hi N)) as N1. pose proof (nice_j g N) as N2.
  destruct (ev_phi i Hi) as [E1 [E2 E3]].
  remember n as m eqn:Em. destruct m as [|m]; [lia|].
  assert (Hle : (i <= m)%nat) by lia. refine (eq_trans (nint_ins i m _ Hle N1) (eq_trans _ (eq_sym (nint_ins i m _ Hle N2)))). apply nint_eqb. intros T [HT1 HT2].
  assert (IL : (i <= length T)%nat) by lia.
  set (M := bint (widths box) (dens (nth i phis []))) in *. set (c := joint (del i Ls) T).
  assert (NG : nice (boxD box) (fun y => g (ins i y T))).
  { apply (nice_map (boxD box) (stD (Datatypes.S m)) (fun y => ins i y T) g); auto.
    apply (smooth_ins (boxD box) m i (fun y => y) (fun _ => T)); [lia|apply smooth_id|].
    apply smooth_const; [intros; apply st_refl; auto|split; auto]. }
  assert (NE : nice (boxD box) (fun x => exp (nth i Ls nol x) * g (ins i x T))) by (apply nice_mult; [apply nice_exp, nice_L|auto]).
  assert (NS : nice (boxD box) (fun x => exp (nth i Ls nol x) * step (nth i phis []) box (nth i Ls nol) (fun y => g (ins i y T)) x)).
  { assert (K : nice (boxD box) (fun x => joint Ls (ins i x T) * mean (Move i) g (ins i x T))).
    { apply (nice_map (boxD box) (stD (Datatypes.S m)) (fun y => ins i y T) (fun X => joint Ls X * mean (Move i) g X)); auto.
      apply (smooth_ins (boxD box) m i (fun y => y) (fun _ => T)); [lia|apply smooth_id|].
      apply smooth_const; [intros; apply st_refl; auto|split; auto]. }
    destruct (Req_dec c 0) as [C0|C0].
    { exfalso. assert (J : forall ls X, joint ls X <> 0).
      { induction ls as [|l ls IH]; intros [|x X]; cbn; try lra. apply Rmult_integral_contrapositive_currified; [pose proof (exp_pos (l x)); lra|auto]. }
      apply (J _ _ C0). }
    apply (nice_ext (boxD box) (fun x => (M / c) * (joint Ls (ins i x T) * mean (Move i) g (ins i x T)))).
    - intros x Hx. rewrite joint_ins by lia. cbn [mean]. rewrite nth_ins by auto. fold c M.
      replace (step (nth i phis []) box (nth i Ls nol) (fun y => g (rep i y (ins i x T))) x) with (step (nth i phis []) box (nth i Ls nol) (fun y => g (ins i y T)) x).
      + field. split; auto.
      + unfold step. apply bint_eqb; [apply wide_widths; auto|]. intros s _. cbv zeta. rewrite !rep_ins by auto. reflexivity.
    - apply nice_mult; [apply nice_const|auto]. }
  transitivity (c / M * bint box (fun x => exp (nth i Ls nol x) * step (nth i phis []) box (nth i Ls nol) (fun y => g (ins i y T)) x)).
  - rewrite <- bint_scal by auto. apply bint_eqb; auto. intros x Hx. rewrite joint_ins by lia. cbn [mean]. rewrite nth_ins by auto. fold c M.
    replace (step (nth i phis []) box (nth i Ls nol) (fun y => g (rep i y (ins i x T))) x) with (step (nth i phis []) box (nth i Ls nol) (fun y => g (ins i y T)) x).
    + field. auto.
    + unfold step. apply bint_eqb; [apply wide_widths; auto|]. intros s _. cbv zeta. rewrite !rep_ins by auto. reflexivity.
  - rewrite step_invariant by (auto; apply nice_L). fold M. transitivity (c * bint box (fun x => exp (nth i Ls nol x) * g (ins i x T))).
    + field. auto.
    + rewrite <- bint_scal by auto. apply bint_eqb; auto. intros x Hx. rewrite joint_ins by lia. fold c. ring.
Qed.

(** two rows integrated last *)
Lemma nint_ins2 : forall i j m (F : list (list R) -> R), (i <= Datatypes.S m)%nat -> (j <= m)%nat -> nice (stD (Datatypes.S (Datatypes.S m))) F ->
  nint (Datatypes.S (Datatypes.S m)) F = nint m (fun T => bint box (fun y => bint box (fun x => F (ins i x (ins j y T))))).
Proof.
  intros i j m F Hi Hj N. refine (eq_trans (nint_ins i (Datatypes.S m) F Hi N) _).
  apply (nint_ins j m (fun T' => bint box (fun x => F (ins i x T')))); auto.
  apply (nice_bint box (stD (Datatypes.S m)) (fun T' x => F (ins i x T'))); auto; [apply st_refl|].
  apply (nice_map (prodD (stD (Datatypes.S m)) (boxD box)) (stD (Datatypes.S (Datatypes.S m))) (fun z => ins i (snd z) (fst z)) F); auto.
  apply (smooth_ins (prodD (stD (Datatypes.S m)) (boxD box)) (Datatypes.S m) i snd fst); auto; [apply smooth_snd|apply smooth_fst].
Qed.

Lemma rep_comm : forall {X} i j (x y : X) T, i <> j -> rep i y (rep j x T) = rep j x (rep i y T).
Proof. induction i as [|i IH]; intros [|j] x y [|z T] H; cbn; auto; try lia. f_equal. apply IH. lia. Qed.

Lemma swap_inv_lt : forall i j g, (i < j)%nat -> (j < n)%nat -> nice (stD n) g ->
  nint n (fun X => joint Ls X * mean (Swap i j) g X) = nint n (fun X => joint Ls X * g X).
Proof.
  intros i j g Hij Hj N. assert (OK : op_ok (Swap i j)) by (cbn; lia).
  pose proof (nice_j _ (nice_mean (Swap i j) g OK N)) as N1. pose proof (nice_j g N) as N2.
  destruct j as [|j]; [lia|]. remember n as m' eqn:Em. destruct m' as [|[|m]]; [lia|lia|].
  assert (Hi : (i <= Datatypes.S m)%nat) by lia. assert (Hj' : (j <= m)%nat) by lia.
  refine (eq_trans (nint_ins2 i j m _ Hi Hj' N1) (eq_trans _ (eq_sym (nint_ins2 i j m _ Hi Hj' N2)))).
  apply nint_eqb. intros T [HT1 HT2].
  set (Li := nth i Ls nol). set (Lj := nth (Datatypes.S j) Ls nol). set (c := joint (del j (del i Ls)) T).
  assert (JX : forall x y, joint Ls (ins i x (ins j y T)) = exp (Lj y) * exp (Li x) * c).
  { intros x y. rewrite joint_ins by (rewrite ?ins_length; lia). rewrite joint_ins.
    - rewrite nth_del by lia. fold Li Lj c. ring.
    - pose proof (del_length i Ls). lia.
    - lia. }
  assert (SS : forall u v, smooth (prodD (boxD box) (boxD box)) (boxD box) u -> smooth (prodD (boxD box) (boxD box)) (boxD box) v ->
     smooth (prodD (boxD box) (boxD box)) (stD (Datatypes.S (Datatypes.S m))) (fun z => ins i (u z) (ins j (v z) T))).
  { intros u v Su Sv. apply (smooth_ins (prodD (boxD box) (boxD box)) (Datatypes.S m) i u (fun z => ins j (v z) T)); auto.
    apply (smooth_ins (prodD (boxD box) (boxD box)) m j v (fun _ => T)); auto. apply smooth_const; [intros; apply st_refl; auto|split; auto]. }
  set (gg := fun y x => c * g (ins i x (ins j y T))).
  assert (NG : nice (prodD (boxD box) (boxD box)) (fun z => gg (fst z) (snd z))).
  { unfold gg. apply nice_mult; [apply nice_const|].
    apply (nice_map (prodD (boxD box) (boxD box)) (stD (Datatypes.S (Datatypes.S m))) (fun z => ins i (snd z) (ins j (fst z) T)) g); auto.
    apply SS; [apply smooth_snd|apply smooth_fst]. }
  pose proof (swap_invariant box Lj Li gg W (nice_L _) (nice_L _) NG) as E.
  transitivity (bint box (fun y => bint box (fun x => exp (Lj y) * exp (Li x) * swapk Lj Li gg y x))).
  - apply bint_eqb; auto. intros y Hy. apply bint_eqb; auto. intros x Hx. rewrite JX. cbn [mean].
    assert (I1 : nth i (ins i x (ins j y T)) [] = x) by (apply nth_ins; rewrite ins_length; lia).
    assert (I2 : nth (Datatypes.S j) (ins i x (ins j y T)) [] = y) by (rewrite nth_ins_lt by (rewrite ?ins_length; lia); apply nth_ins; lia).
    assert (I3 : rep i y (rep (Datatypes.S j) x (ins i x (ins j y T))) = ins i y (ins j x T)).
    { rewrite rep_ins_lt by (rewrite ?ins_length; lia). rewrite (rep_ins j y x T) by lia. apply rep_ins. rewrite ins_length. lia. }
    rewrite I1, I2, I3. fold Li Lj. unfold swapk, gg. cbv zeta.
    replace (Lj x + Li y - Lj y - Li x) with (Li y + Lj x - Li x - Lj y) by ring. ring.
  - rewrite E. apply bint_eqb; auto. intros y Hy. apply bint_eqb; auto. intros x Hx. rewrite JX. unfold gg. ring.
Qed.

Lemma swap_inv : forall i j g, op_ok (Swap i j) -> nice (stD n) g ->
  nint n (fun X => joint Ls X * mean (Swap i j) g X) = nint n (fun X => joint Ls X * g X).
Proof.
  intros i j g [Hi [Hj Hij]] N. destruct (Nat.lt_total i j) as [H|[H|H]]; [apply swap_inv_lt; auto|contradiction|].
  rewrite <- (swap_inv_lt j i g H Hi N). apply nint_eqb. intros X _. f_equal. cbn [mean].
  replace (nth j Ls nol (nth i X []) + nth i Ls nol (nth j X []) - nth j Ls nol (nth j X []) - nth i Ls nol (nth i X []))
    with (nth i Ls nol (nth j X []) + nth j Ls nol (nth i X []) - nth i Ls nol (nth i X []) - nth j Ls nol (nth j X [])) by ring.
  rewrite (rep_comm i j) by auto. reflexivity.
Qed.

(** any sequence of operations does *)
Lemma ops_inv : forall os g, List.Forall op_ok os -> nice (stD n) g ->
  nint n (fun X => joint Ls X * means os g X) = nint n (fun X => joint Ls X * g X).
Proof.
  induction 1 as [|o os H Hs IH]; intros N; cbn [means]; [reflexivity|].
  pose proof (nice_means os g Hs N) as N'. transitivity (nint n (fun X => joint Ls X * means os g X)); [|auto].
  destruct o as [i|i j]; [apply move_inv|apply swap_inv]; auto.
Qed.

(** the mean of a constant is that constant: each operation has total probability 1 *)
Lemma means_one : forall os k X, List.Forall op_ok os -> inD (stD n) X -> means os (fun _ => k) X = k.
Proof.
  intros os k X H. revert X. induction H as [|o os Ho Hs IH]; intros X HX; cbn [means]; auto.
  destruct o as [i|i j]; cbn [mean].
  - cbn in Ho. destruct (ev_phi i Ho) as [E1 [E2 E3]]. unfold step.
    assert (SR : smooth (stD n) (boxD box) (fun X => nth i X [])) by (apply smooth_row; auto).
    assert (RI : forall y, inside box y -> inD (stD n) (rep i y X)).
    { intros y Hy. apply (proj1 (smooth_rep (boxD box) n i (fun y => y) (fun _ => X) (smooth_id _) (smooth_const (boxD box) (stD n) X (fun d Hd => st_refl n d X Hd) HX)) y Hy). }
    transitivity (bint (widths box) (fun s => k * dens (nth i phis []) s) / bint (widths box) (dens (nth i phis []))).
    + f_equal. apply bint_eqb; [apply wide_widths; auto|]. intros s Hs'. cbv zeta.
      rewrite !IH; [ring|apply RI, (proj1 SR X HX)|apply RI].
      apply (proj1 (smooth_bound box (boxD (widths box)) (fun _ => nth i X []) (fun s => s) W (smooth_const _ _ _ (fun d Hd => bx_refl d _ Hd) (proj1 SR X HX)) (smooth_id _)) s Hs').
    + rewrite bint_scal; [field; auto|apply wide_widths; auto|]. apply (nice_dens _ E1 (widths box) (boxD (widths box)) (fun s => s)); [rewrite widths_length; auto|apply smooth_id].
  - destruct Ho as [Hi [Hj Hij]]. rewrite !IH; auto; [ring|].
    assert (SI : smooth (stD n) (boxD box) (fun X => nth i X [])) by (apply smooth_row; auto).
    assert (SJ : smooth (stD n) (boxD box) (fun X => nth j X [])) by (apply smooth_row; auto).
    apply (proj1 (smooth_rep (stD n) n i (fun X => nth j X []) (fun X => rep j (nth i X []) X) SJ (smooth_rep (stD n) n j (fun X => nth i X []) (fun X => X) SI (smooth_id _))) X HX).
Qed.
End Tempering.
