(** Properties of the scripts of models/eggbox. *)
From Coq Require Import ZArith Ascii String List Bool Reals Lia Lra.
From Flocq Require Import Core IEEE754.BinarySingleNaN.
Require Import Flocq.Prop.Plus_error Flocq.Prop.Mult_error.
From Verif Require Import Base Arith B64 B64Facts Bytes BytesFacts ReadFacts Rand Mh Ladder Tune Mpi MpiMeta Spmd Prog Seq ListAux MhSpec SeqWf Refine
  SeqTotal System Runs Loader LoadFacts Printf PrintFacts TextRuns PropText UserModels Launch Scripts.
Import ListNotations.
Open Scope list_scope.
Open Scope Z_scope.

(** ** numbers *)
Lemma rnd_minus_0 : forall x y : b64, B2R x <> B2R y -> rnd (B2R x - B2R y) <> 0%R.
Proof.
  intros x y H. unfold Rminus. refine (round_plus_neq_0 radix2 (FLT_exp (-1074) 53) ZnearestE _ _ (fmt_B2R x) _ _); [|lra].
  apply generic_format_opp. exact (fmt_B2R y).
Qed.
Definition positive_or_inf (d : b64) : Prop := d = B754_infinity false \/ (is_finite d = true /\ (0 <= B2R d)%R).
Lemma abs_diff : forall x y : b64, is_finite x = true -> is_finite y = true ->
  positive_or_inf (Babs (Bminus mode_NE x y)) /\ (B2R x = B2R y -> B2R (Babs (Bminus mode_NE x y)) = 0%R /\ is_finite (Babs (Bminus mode_NE x y)) = true) /\
  (B2R x <> B2R y -> Babs (Bminus mode_NE x y) = B754_infinity false \/ (is_finite (Babs (Bminus mode_NE x y)) = true /\ (0 < B2R (Babs (Bminus mode_NE x y)))%R)).
Proof.
  intros x y Fx Fy. pose proof (Bminus_correct prec emax _ _ mode_NE x y Fx Fy) as P.
  change (round radix2 (SpecFloat.fexp prec emax) (round_mode mode_NE)) with rnd in P.
  destruct (Rlt_bool_spec (Rabs (rnd (B2R x - B2R y))) (bpow radix2 emax)) as [H|H].
  - destruct P as [P1 [P2 _]].
    assert (F : is_finite (Babs (Bminus mode_NE x y)) = true) by (rewrite is_finite_Babs; exact P2).
    assert (E : B2R (Babs (Bminus mode_NE x y)) = Rabs (rnd (B2R x - B2R y))) by (rewrite B2R_Babs, P1; reflexivity).
    split; [right; split; [exact F|rewrite E; apply Rabs_pos]|]. split.
    + intros Q. split; [|exact F]. rewrite E, Q, Rminus_diag_eq, rnd_0, Rabs_R0 by reflexivity. reflexivity.
    + intros Q. right. split; [exact F|]. rewrite E. apply Rabs_pos_lt. apply rnd_minus_0. exact Q.
  - destruct P as [P _].
    assert (I1 : Babs (Bminus mode_NE x y) = B754_infinity false).
    { destruct (Bminus mode_NE x y); cbn in P |- *; try discriminate; reflexivity. }
    split; [left; exact I1|]. split; [|intros _; left; exact I1].
    intros Q. exfalso. rewrite Q, Rminus_diag_eq, rnd_0, Rabs_R0 in H by reflexivity. pose proof (bpow_gt_0 radix2 emax). lra.
Qed.
Lemma zero_lt : forall d : b64, positive_or_inf d -> (Bltb (bof 0) d = true <-> (d = B754_infinity false \/ (0 < B2R d)%R)).
Proof.
  intros d [->|[F H]]; [split; [auto|reflexivity]|].
  destruct (bof_ok 0 ltac:(cbn; lia)) as [Z0 F0]. rewrite (Bltb_correct prec emax (bof 0) d F0 F), Z0.
  split; [intros E; right; destruct (Rlt_bool_spec 0 (B2R d)); [auto|discriminate]|].
  intros [->|E]; [discriminate F|]. apply Rlt_bool_true. exact E.
Qed.
Lemma plus_pos : forall a b : b64, positive_or_inf a -> positive_or_inf b -> positive_or_inf (Bplus mode_NE a b) /\
  ((Bplus mode_NE a b = B754_infinity false \/ (0 < B2R (Bplus mode_NE a b))%R) <-> ((a = B754_infinity false \/ (0 < B2R a)%R) \/ (b = B754_infinity false \/ (0 < B2R b)%R))).
Proof.
  intros a b Ha Hb. destruct Ha as [->|[Fa Pa]].
  - assert (E : Bplus mode_NE (B754_infinity false) b = B754_infinity false).
    { destruct Hb as [->|[Fb _]]; [reflexivity|]. destruct b; try discriminate Fb; reflexivity. }
    rewrite E. split; [left; reflexivity|tauto].
  - destruct Hb as [->|[Fb Pb]].
    { assert (E : Bplus mode_NE a (B754_infinity false) = B754_infinity false) by (destruct a; try discriminate Fa; reflexivity).
      rewrite E. split; [left; reflexivity|tauto]. }
    pose proof (Bplus_correct prec emax _ _ mode_NE a b Fa Fb) as P.
    change (round radix2 (SpecFloat.fexp prec emax) (round_mode mode_NE)) with rnd in P.
    assert (NF : forall d : b64, is_finite d = true -> d <> B754_infinity false) by (intros d Hd ->; discriminate).
    assert (R0 : (0 <= rnd (B2R a + B2R b))%R) by (rewrite <- rnd_0; apply rnd_le; lra).
    destruct (Rlt_bool_spec (Rabs (rnd (B2R a + B2R b))) (bpow radix2 emax)) as [H|H].
    + destruct P as [P1 [P2 _]]. split; [right; split; [exact P2|rewrite P1; exact R0]|]. rewrite P1. split.
      * intros [E|E]; [exfalso; exact (NF _ P2 E)|]. destruct (Rle_lt_dec (B2R a) 0) as [A|A]; [|auto]. destruct (Rle_lt_dec (B2R b) 0) as [B|B]; [|auto].
        exfalso. replace (B2R a + B2R b)%R with 0%R in E by lra. rewrite rnd_0 in E. lra.
      * intros E. right. assert (X : (B2R a + B2R b <> 0)%R) by (destruct E as [[E|E]|[E|E]]; [exfalso; exact (NF _ Fa E)|lra|exfalso; exact (NF _ Fb E)|lra]).
        pose proof (round_plus_neq_0 radix2 (FLT_exp (-1074) 53) ZnearestE (B2R a) (B2R b) (fmt_B2R a) (fmt_B2R b) X) as Y.
        change (rnd (B2R a + B2R b) <> 0%R) in Y. lra.
    + destruct P as [P SS].
      assert (I1 : Bplus mode_NE a b = B754_infinity false).
      { destruct (Bplus mode_NE a b) as [s|s| |s m e Hm]; cbn in P; try discriminate P. injection P as ->. f_equal.
        destruct (Bsign a) eqn:Sa; [|reflexivity]. exfalso. symmetry in SS.
        assert (A0 : (B2R a <= 0)%R) by (destruct a as [s1|s1| |s1 m1 e1 H1]; cbn in *; try lra; subst s1; apply F2R_le_0; cbn; lia).
        assert (B0 : (B2R b <= 0)%R) by (destruct b as [s1|s1| |s1 m1 e1 H1]; cbn in *; try lra; subst s1; apply F2R_le_0; cbn; lia).
        replace (B2R a + B2R b)%R with 0%R in H by lra. rewrite rnd_0, Rabs_R0 in H. pose proof (bpow_gt_0 radix2 emax). lra. }
      split; [left; exact I1|]. split; [|intros _; left; exact I1]. intros _.
      destruct (Rle_lt_dec (B2R a) 0) as [A|A]; [|auto]. destruct (Rle_lt_dec (B2R b) 0) as [B|B]; [|auto].
      exfalso. replace (B2R a + B2R b)%R with 0%R in H by lra. rewrite rnd_0, Rabs_R0 in H. pose proof (bpow_gt_0 radix2 emax). lra.
Qed.
(** the sum of the absolute differences is positive exactly when two finite points differ: nothing is lost by underflow or overflow *)
Lemma diff_iff : forall p q : b64 * b64, is_finite (fst p) = true -> is_finite (snd p) = true -> is_finite (fst q) = true -> is_finite (snd q) = true ->
  (Bltb (bof 0) (all_diff p q) = true <-> (B2R (fst p) <> B2R (fst q) \/ B2R (snd p) <> B2R (snd q))).
Proof.
  intros p q F1 F2 F3 F4. unfold all_diff. destruct (abs_diff _ _ F1 F3) as [A1 [A2 A3]]. destruct (abs_diff _ _ F2 F4) as [B1 [B2' B3]].
  destruct (plus_pos _ _ A1 B1) as [C1 C2]. rewrite (zero_lt _ C1), C2.
  assert (XA : forall a b : b64, (B2R a = B2R b -> B2R (Babs (Bminus mode_NE a b)) = 0%R /\ is_finite (Babs (Bminus mode_NE a b)) = true) ->
    (B2R a <> B2R b -> Babs (Bminus mode_NE a b) = B754_infinity false \/ (is_finite (Babs (Bminus mode_NE a b)) = true /\ (0 < B2R (Babs (Bminus mode_NE a b)))%R)) ->
    ((Babs (Bminus mode_NE a b) = B754_infinity false \/ (0 < B2R (Babs (Bminus mode_NE a b)))%R) <-> B2R a <> B2R b)).
  { intros a b H1 H2. split.
    - intros H Q. destruct (H1 Q) as [E F]. destruct H as [H|H]; [rewrite H in F; discriminate|lra].
    - intros Q. destruct (H2 Q) as [H|[_ H]]; auto. }
  rewrite (XA _ _ A2 A3), (XA _ _ B2' B3). tauto.
Qed.

(** ** lines *)
Lemma pieces_word : forall t cur r, forallb solid t = true -> pieces gap cur (t ++ r) = pieces gap (cur ++ t) r.
Proof.
  induction t as [|c t IH]; intros cur r H; [rewrite app_nil_r; reflexivity|]. cbn [forallb] in H. apply andb_true_iff in H. destruct H as [H1 H2].
  cbn [app pieces]. assert (G : gap c = false).
  { unfold solid in H1. unfold gap. destruct (Bytes.ch c " "%char); [discriminate|]. destruct (Bytes.ch c NL); [discriminate|reflexivity]. }
  rewrite G, IH by exact H2. rewrite <- app_assoc. reflexivity.
Qed.
Lemma split_fields : forall ts x, Forall word ts -> x = [] \/ x = [NL] -> split (concat (map (fun t => t ++ lit "  ") ts) ++ x) = ts.
Proof.
  intros ts x H Hx. unfold split. induction H as [|t ts [T1 T2] H IH]; [destruct Hx as [->| ->]; reflexivity|].
  cbn [map concat]. rewrite <- !app_assoc. rewrite pieces_word by exact T2. cbn [app lit list_ascii_of_string pieces]. cbn [gap]. 
  change (gap " "%char) with true. cbn iota. destruct t; [congruence|]. cbn [app]. f_equal. exact IH.
Qed.

(** ** C84: the pictures of eggbox *)
(** [picks apart old rows out]: out holds the rows that are apart from the row before them; old is the row before the first *)
Inductive picks {X : Type} (apart : X -> X -> Prop) : X -> list X -> list X -> Prop :=
| picks_nil : forall o, picks apart o [] []
| picks_yes : forall o q t out, apart q o -> picks apart q t out -> picks apart o (q :: t) (q :: out)
| picks_no : forall o q t out, ~ apart q o -> picks apart q t out -> picks apart o (q :: t) out.

Section Merging.
Variable L : Libm.
Variable nan : bytes.
Hypothesis Hnan : nan_print nan.
Variable float : bytes -> option b64.
Notation row := (crow (B64 L)).
(** a parameter of q reads differently from the one of o *)
Definition reads_apart (q o : row) : Prop :=
  exists j x y v w, nth_error (r_parm q) j = Some x /\ nth_error (r_parm o) j = Some y /\
    float (print_e nan x) = Some v /\ float (print_e nan y) = Some w /\ B2R v <> B2R w.
(** two parameters, which float reads as finite numbers *)
Definition readable (q : row) : Prop := List.length (r_parm q) = 2%nat /\
  forall x, In x (r_parm q) -> exists v, float (print_e nan x) = Some v /\ is_finite v = true.
Lemma two_row : forall q, readable q -> exists x1 x2 v1 v2, r_parm q = [x1; x2] /\ float (print_e nan x1) = Some v1 /\ float (print_e nan x2) = Some v2 /\
  is_finite v1 = true /\ is_finite v2 = true /\ two float (row_line nan q ++ [NL]) = Some (v1, v2).
Proof.
  intros q [HL HR]. destruct (r_parm q) as [|x1 [|x2 [|x3 ps]]] eqn:E; try discriminate HL.
  destruct (HR x1) as [v1 [R1 F1]]; [left; auto|]. destruct (HR x2) as [v2 [R2 F2]]; [right; left; auto|].
  exists x1, x2, v1, v2. repeat split; auto. unfold two.
  rewrite (row_line_fields nan). rewrite split_fields; [|apply row_fields_words, nan_word, Hnan|right; reflexivity].
  unfold row_fields. rewrite E. cbn [map app]. rewrite R1. cbn [obind]. rewrite R2. reflexivity.
Qed.
Lemma loop_picks : forall rows old, readable old -> Forall readable rows -> exists out, picks reads_apart old rows out /\
  loop float (row_line nan old ++ [NL]) (map (fun q => row_line nan q ++ [NL]) rows) = Some (map (fun q => row_line nan q ++ [NL]) out).
Proof.
  induction rows as [|q rows IH]; intros old HO HR; [exists []; split; [constructor|reflexivity]|].
  inversion HR as [|? ? Hq HR']; subst. destruct (IH q Hq HR') as [out [P E]].
  destruct (two_row q Hq) as [x1 [x2 [v1 [v2 [EQ [R1 [R2 [F1 [F2 T]]]]]]]]]. destruct (two_row old HO) as [y1 [y2 [w1 [w2 [EO [S1 [S2 [G1 [G2 T']]]]]]]]].
  cbn [map loop]. rewrite T, T'. cbn [obind]. rewrite E. cbn [obind].
  pose proof (diff_iff (v1, v2) (w1, w2) F1 F2 G1 G2) as D. cbn [fst snd] in D.
  assert (A : reads_apart q old <-> (B2R v1 <> B2R w1 \/ B2R v2 <> B2R w2)).
  { split.
    - intros [j [x [y [v [w [X [Y [V [W N]]]]]]]]]. rewrite EQ in X. rewrite EO in Y. destruct j as [|[|j]]; cbn in X, Y; [| |destruct j; discriminate].
      + injection X as <-. injection Y as <-. rewrite R1 in V. rewrite S1 in W. injection V as <-. injection W as <-. left. exact N.
      + injection X as <-. injection Y as <-. rewrite R2 in V. rewrite S2 in W. injection V as <-. injection W as <-. right. exact N.
    - intros [N|N]; [exists 0%nat, x1, y1, v1, w1|exists 1%nat, x2, y2, v2, w2]; rewrite EQ, EO; auto. }
  destruct (Bltb (bof 0) (all_diff (v1, v2) (w1, w2))) eqn:B.
  - exists (q :: out). split; [|reflexivity]. apply picks_yes; [apply A, D; reflexivity|exact P].
  - exists out. split; [|reflexivity]. apply picks_no; [|exact P]. intros K. apply A, D in K. discriminate.
Qed.
End Merging.

(** merge_lines.py on a chain file of a run with two parameters: from the second row on, exactly the rows that read differently from
    the row before are kept, in their order; the first row is always left out *)
Theorem C84_merge : forall L (S : Setup (B64 L)), Legal S -> N_parm (s_cfg S) = 2 -> forall k tr X, execution S k tr X -> forall nan, nan_print nan ->
  forall r, (r < s_n S)%nat -> forall float,
  (forall q x, In (EvRow r q) (file (FChain r) tr) -> In x (r_parm q) -> exists v, float (print_e nan x) = Some v /\ is_finite v = true) ->
  (file (FChain r) tr = [] /\ merge float (file_text nan (FChain r) tr) = Some []) \/
  exists first rows out, file (FChain r) tr = map (EvRow r) (first :: rows) /\ picks (reads_apart L nan float) first rows out /\
    merge float (file_text nan (FChain r) tr) = Some (map (fun q => row_line nan q ++ [NL]) out).
Proof.
  intros L S HL HN k tr X HE nan Hn r Hr float HF. destruct (chain_text L S HL k tr X HE nan Hn r Hr) as [rows [E1 [E2 F]]].
  unfold merge. 
  assert (LN : lines (file_text nan (FChain r) tr) = map (fun q => row_line nan q ++ [NL]) rows).
  { unfold file_text. rewrite E2. pose proof (lines_unlines (map (row_line nan) rows) []) as U. unfold unlines in U. rewrite !app_nil_r in U.
    rewrite U; [rewrite map_map; reflexivity| |intros []].
    rewrite <- E2. apply Forall_forall. intros l Hl. apply (file_clean nan (nan_word nan Hn) _ _ _ Hl). }
  rewrite LN. destruct rows as [|first rows]; [left; split; [exact E1|reflexivity]|]. right.
  assert (RD : Forall (readable L nan float) (first :: rows)).
  { apply Forall_forall. intros q Hq. split.
    - assert (K : haslen (N_parm (s_cfg S)) (r_parm q)).
      { apply (rows_len S HL k tr X HE r Hr). rewrite E1. apply in_map. exact Hq. }
      unfold haslen in K. lia.
    - intros x Hx. apply (HF q x); [rewrite E1; apply in_map; exact Hq|exact Hx]. }
  inversion RD as [|? ? R1 R2]; subst. destruct (loop_picks L nan Hn float (first :: rows) first R1 RD) as [out [P E]].
  inversion P as [|o q t out' A P'|o q t out' A P']; subst.
  - exfalso. destruct A as [j [x [y [v [w [X1 [Y1 [V [W N]]]]]]]]]. rewrite X1 in Y1. injection Y1 as <-. rewrite V in W. injection W as <-. auto.
  - exists first, rows, out. split; [exact E1|]. split; [exact P'|]. exact E.
Qed.
Print Assumptions C84_merge.
(** so a row that repeats the one before (a rejected proposal) leaves no trace, whatever float is *)
Theorem C84_repeats : forall L nan float o rows out, picks (reads_apart L nan float) o rows out ->
  (forall q, In q rows -> r_parm q = r_parm o) -> out = [].
Proof.
  intros L nan float o rows out H. induction H as [o|o q t out A H IH|o q t out A H IH]; intros E; auto.
  - exfalso. destruct A as [j [x [y [v [w [X1 [Y1 [V [W N]]]]]]]]]. rewrite (E q) in X1 by (left; auto). rewrite X1 in Y1. injection Y1 as <-. rewrite V in W. injection W as <-. auto.
  - apply IH. intros q' Hq. rewrite (E q'), (E q); auto; [left; auto|right; auto].
Qed.
Print Assumptions C84_repeats.

(** ** counts *)
Lemma dx_half : B2R dx = (1 / 2)%R.
Proof.
  assert (E1 : B2SF dx = SpecFloat.S754_finite false (2 ^ 52) (-53)) by (vm_compute; reflexivity).
  destruct dx as [| | |s m e H]; try discriminate E1. cbn [B2SF] in E1. injection E1 as -> -> ->. cbn [B2R cond_Zopp]. unfold F2R. cbn [Fnum Fexp].
  replace (IZR (Zpos (2 ^ 52))) with (bpow radix2 52) by (rewrite <- IZR_Zpower by lia; reflexivity). rewrite <- bpow_plus. cbn. lra.
Qed.
Lemma ind_floor : forall x : b64, is_finite x = true -> (0 <= B2R x <= 50)%R -> ind x = Some (Zfloor (2 * B2R x)).
Proof.
  intros x Fx Hx. unfold ind.
  assert (FM : fmt (B2R x * bpow radix2 1)) by (apply (mult_bpow_pos_exact_FLT radix2); [exact (fmt_B2R x)|lia]).
  assert (E : (B2R x / B2R dx = B2R x * bpow radix2 1)%R) by (rewrite dx_half; cbn; lra).
  assert (RN : rnd (B2R x / B2R dx) = (2 * B2R x)%R) by (rewrite E, rnd_id by exact FM; cbn; lra).
  destruct (bdiv_ok x dx Fx) as [D1 D2].
  - rewrite dx_half. lra.
  - rewrite RN. assert (SM : Rlt_bool (Rabs (2 * B2R x)) (bpow radix2 emax) = true).
    { apply small_lt_emax. rewrite Rabs_pos_eq by lra. apply Rle_trans with (IZR 100); [lra|apply IZR_le; lia]. }
    destruct (Rlt_bool_spec (Rabs (2 * B2R x)) (bpow radix2 emax)); [auto|discriminate].
  - rewrite RN in D1. rewrite <- D1.
    assert (T : Btrunc (Bdiv mode_NE x dx) = Zfloor (B2R (Bdiv mode_NE x dx))).
    { apply eq_IZR. rewrite Btrunc_correct. unfold round, F2R, scaled_mantissa, cexp, FIX_exp. cbn [Fnum Fexp].
      change (bpow radix2 (- 0)) with 1%R. change (bpow radix2 0) with 1%R. rewrite !Rmult_1_r.
      rewrite Ztrunc_floor; [reflexivity|]. rewrite D1. lra. exact prec_lt_emax_53. }
    unfold btrunc. destruct (Bdiv mode_NE x dx) eqn:EB; try discriminate D2.
    + cbn [B2R]. rewrite Zfloor_IZR. reflexivity.
    + rewrite T. reflexivity.
Qed.
Lemma ind_edges : forall x : b64, is_finite x = true -> (0 <= B2R x < 50)%R -> exists i, ind x = Some i /\ 0 <= i < 100 /\ (IZR i / 2 <= B2R x < IZR (i + 1) / 2)%R.
Proof.
  intros x Fx Hx. exists (Zfloor (2 * B2R x)). split; [apply ind_floor; [exact Fx|lra]|].
  pose proof (Zfloor_lb (2 * B2R x)) as B1. pose proof (Zfloor_ub (2 * B2R x)) as B2. split.
  - split; [apply Zfloor_lub; lra|]. apply lt_IZR. lra.
  - rewrite plus_IZR. split; lra.
Qed.
Lemma bin_one : forall x i i', (IZR i / 2 <= x < IZR (i + 1) / 2)%R -> (IZR i' / 2 <= x < IZR (i' + 1) / 2)%R -> i = i'.
Proof.
  intros x i i' H H'. assert (i < i' + 1) by (apply lt_IZR; lra). assert (i' < i + 1) by (apply lt_IZR; lra). lia.
Qed.

(** [amount P l n]: n of the members of l meet P *)
Inductive amount {X : Type} (P : X -> Prop) : list X -> Z -> Prop :=
| amount_nil : amount P [] 0
| amount_yes : forall x l n, P x -> amount P l n -> amount P (x :: l) (n + 1)
| amount_no : forall x l n, ~ P x -> amount P l n -> amount P (x :: l) n.

(** sampling_static.py: when all points are in [0, 50) x [0, 50), row 100 i + j of the table holds how many of them are in the bin
    [i/2, (i+1)/2) x [j/2, (j+1)/2), the one whose middle is written in the same row: no rounding, no double count *)
Definition in_bin (i j : Z) (p : b64 * b64) : Prop :=
  (IZR i / 2 <= B2R (fst p) < IZR (i + 1) / 2 /\ IZR j / 2 <= B2R (snd p) < IZR (j + 1) / 2)%R.
Lemma bins : forall pts c, (forall p, In p pts -> is_finite (fst p) = true /\ is_finite (snd p) = true /\ (0 <= B2R (fst p) < 50)%R /\ (0 <= B2R (snd p) < 50)%R) ->
  exists c', histogram c pts = Some c' /\ forall i j, 0 <= i < 100 -> 0 <= j < 100 -> exists n, amount (in_bin i j) pts n /\ c' (i * 100 + j) = c (i * 100 + j) + n.
Proof.
  induction pts as [|[x y] pts IH]; intros c H.
  - exists c. split; [reflexivity|]. intros i j _ _. exists 0. split; [constructor|lia].
  - destruct (H (x, y)) as [Fx [Fy [Bx By]]]; [left; reflexivity|]. cbn [fst snd] in *.
    destruct (ind_edges x Fx Bx) as [i0 [I1 [I2 I3]]]. destruct (ind_edges y Fy By) as [j0 [J1 [J2 J3]]].
    cbn [histogram]. unfold place. rewrite I1, J1. cbn [obind].
    assert (T : (0 <=? i0 * 100 + j0) && (i0 * 100 + j0 <? 10000) = true) by (apply andb_true_iff; split; [apply Z.leb_le|apply Z.ltb_lt]; lia).
    rewrite T. cbn [obind].
    destruct (IH (fun i => if i =? i0 * 100 + j0 then c i + 1 else c i)) as [c' [E K]]; [intros p Hp; apply H; right; exact Hp|].
    exists c'. split; [exact E|]. intros i j Hi Hj. destruct (K i j Hi Hj) as [n [A N]]. rewrite N.
    destruct (Z.eqb_spec (i * 100 + j) (i0 * 100 + j0)) as [Q|Q].
    + assert (i = i0 /\ j = j0) as [-> ->] by lia. exists (n + 1). split; [|lia]. apply amount_yes; [split; assumption|exact A].
    + exists n. split; [|lia]. apply amount_no; [|exact A]. intros [P1 P2]. cbn [fst snd] in *. apply Q.
      rewrite (bin_one _ _ _ P1 I3), (bin_one _ _ _ P2 J3). reflexivity.
Qed.
Theorem C84_bins : forall pts, (forall p, In p pts -> is_finite (fst p) = true /\ is_finite (snd p) = true /\ (0 <= B2R (fst p) < 50)%R /\ (0 <= B2R (snd p) < 50)%R) ->
  exists c, histogram (fun _ => 0) pts = Some c /\
    forall i j, 0 <= i < 100 -> 0 <= j < 100 -> amount (fun p => (IZR i / 2 <= B2R (fst p) < IZR (i + 1) / 2 /\ IZR j / 2 <= B2R (snd p) < IZR (j + 1) / 2)%R) pts (c (i * 100 + j)).
Proof.
  intros pts H. destruct (bins pts (fun _ => 0) H) as [c [E K]]. exists c. split; [exact E|]. intros i j Hi Hj.
  destruct (K i j Hi Hj) as [n [A N]]. rewrite N. exact A.
Qed.
Print Assumptions C84_bins.

Definition below50 : b64 := @B754_finite prec emax false 7036874417766399 (-47) eq_refl.
Definition at50 : b64 := @B754_finite prec emax false 7036874417766400 (-47) eq_refl.
(** The priors of models/eggbox/input.ini:70-73 go from 0 to 50 and both ends are allowed: at x = 50 the script stops with an IndexError, at y = 50 it counts
    the point in the first bin of the next x.  And a double below 50 can be written as 5.000000000000e+01. *)
Theorem C84_edge_refuted : exists u x y : b64, (0 <= B2R y /\ B2R y < B2R u /\ B2R u < B2R x /\ B2R x <= 50)%R /\
  histogram (fun _ => 0) [(x, y)] = None /\
  (exists c, histogram (fun _ => 0) [(y, x)] = Some c /\ exists i, c (i * 100 + 0) = 1 /\ ~ (IZR i / 2 <= B2R y < IZR (i + 1) / 2)%R) /\
  forall nan, print_e nan u = lit "5.000000000000e+01" /\ print_e nan x = lit "5.000000000000e+01".
Proof.
  assert (X : B2SF (bof 50) = SpecFloat.S754_finite false (50 * 2 ^ 47) (-47)) by (vm_compute; reflexivity).
  assert (R50 : B2R (bof 50) = 50%R) by (apply bof_ok; lia).
  assert (R25 : B2R (bof 25) = 25%R) by (apply bof_ok; lia).
  exists below50, (bof 50), (bof 25). rewrite R50, R25.
  assert (U : (49 < B2R (below50) < 50)%R).
  { cbn [below50 B2R cond_Zopp]. unfold F2R. cbn [Fnum Fexp].
    split; (apply Rmult_lt_reg_r with (bpow radix2 47); [apply bpow_gt_0|]; rewrite Rmult_assoc, <- bpow_plus; change (bpow radix2 (-47 + 47)) with 1%R;
      rewrite Rmult_1_r, <- (IZR_Zpower radix2) by lia; rewrite <- mult_IZR; apply IZR_lt; vm_compute; reflexivity). }
  split; [lra|]. split; [vm_compute; reflexivity|]. split.
  - eexists. split; [cbn [histogram]; replace (place (bof 25) (bof 50)) with (Some 5100) by (vm_compute; reflexivity); cbn [obind]; reflexivity|].
    exists 51. split; [reflexivity|]. lra.
  - intros nan. split; [vm_compute; reflexivity|]. 
    assert (E : bof 50 = at50) by (apply B2SF_inj; rewrite X; reflexivity).
    rewrite E. vm_compute. reflexivity.
Qed.
Print Assumptions C84_edge_refuted.

(** Leaving out repeated rows changes what is counted: a chain that stays n + 1 rows at b and comes back to a for one row gives b and a once each.
    The counts of the merged file are no weights of the posterior. *)
Theorem C84_weights_refuted : forall L nan n, exists float a b out,
  picks (reads_apart L nan float) a (repeat b (S n) ++ [a]) out /\ (exists x y, r_parm a = [x; x] /\ r_parm b = [y; y] /\ print_e nan x <> print_e nan y) /\
  amount (fun q => q = b) (a :: repeat b (S n) ++ [a]) (Z.of_nat (S n)) /\ amount (fun q => q = a) (a :: repeat b (S n) ++ [a]) 2 /\
  amount (fun q => q = b) out 1 /\ amount (fun q => q = a) out 1.
Proof.
  intros L nan n.
  set (float := fun t : bytes => if list_eq_dec ascii_dec t (lit "0.000000000000e+00") then Some (bof 0) else Some (bof 1)).
  set (a := mkRow (A := B64 L) [bof 0; bof 0] (bof 0) 0 0). set (b := mkRow (A := B64 L) [at50; at50] (bof 0) 0 0).
  assert (NE : a <> b). { intros E. apply (f_equal (fun q : crow (B64 L) => match (r_parm q : list b64) with x :: _ => is_finite_strict x | [] => true end)) in E. cbn in E. discriminate. }
  assert (P0 : print_e nan (bof 0) = lit "0.000000000000e+00") by (vm_compute; reflexivity).
  assert (P5 : print_e nan at50 = lit "5.000000000000e+01") by (vm_compute; reflexivity).
  assert (R0 : B2R (bof 0) = 0%R) by (apply bof_ok; lia). assert (R1 : B2R (bof 1) = 1%R) by (apply bof_ok; lia).
  assert (F0 : float (print_e nan (bof 0)) = Some (bof 0)) by (rewrite P0; reflexivity).
  assert (F5 : float (print_e nan at50) = Some (bof 1)) by (rewrite P5; reflexivity).
  assert (AB : reads_apart L nan float b a) by (exists 0%nat, at50, (bof 0), (bof 1), (bof 0); repeat split; auto; lra).
  assert (BA : reads_apart L nan float a b) by (exists 0%nat, (bof 0), at50, (bof 0), (bof 1); repeat split; auto; lra).
  assert (BB : ~ reads_apart L nan float b b).
  { intros [j [x [y [v [w [X [Y [V [W N]]]]]]]]]. rewrite X in Y. injection Y as <-. rewrite V in W. injection W as <-. auto. }
  exists float, a, b, [b; a]. split.
  { cbn [repeat app]. apply picks_yes; [exact AB|]. clear AB. induction n as [|n IH]; cbn [repeat app]; [apply picks_yes; [exact BA|apply picks_nil]|].
    apply picks_no; [exact BB|exact IH]. }
  split. { exists (bof 0), at50. split; [reflexivity|]. split; [reflexivity|]. rewrite P0, P5. discriminate. }
  assert (CB : forall m, amount (fun q => q = b) (repeat b m ++ [a]) (Z.of_nat m)).
  { induction m as [|m IH]; [apply amount_no; [exact NE|constructor]|]. cbn [repeat app]. rewrite Nat2Z.inj_succ. apply amount_yes; auto. }
  assert (CA : forall m, amount (fun q => q = a) (repeat b m ++ [a]) 1).
  { induction m as [|m IH]; [apply (amount_yes _ a [] 0); [reflexivity|constructor]|]. cbn [repeat app]. apply amount_no; auto. }
  split; [apply amount_no; [exact NE|apply CB]|]. split; [apply (amount_yes _ a _ 1); auto|]. split.
  - apply (amount_yes _ b [a] 0); [reflexivity|]. apply amount_no; [exact NE|constructor].
  - apply amount_no; [auto|]. apply (amount_yes _ a [] 0); [reflexivity|constructor].
Qed.
Print Assumptions C84_weights_refuted.

(** The column the counts are compared with, cos(x/2) sin(y/2) + 1 (sampling_static.py:44), is not a multiple of the posterior that the
    functions of models/eggbox define: it is zero at a point of the box *)
Theorem C84_reference_refuted : forall gp s1 s2 D, ~ exists c, forall a b, (0 <= a <= 50)%R -> (0 <= b <= 50)%R ->
  exp (logpost_at (@egg_user RArith (0%R, 50%R) (0%R, 50%R) gp s1 s2) D [a; b] 1%R) = (c * (cos (a / 2) * sin (b / 2) + 1))%R.
Proof.
  intros gp s1 s2 D [c H]. pose proof PI_RGT_0 as P0. pose proof PI_4 as P4.
  specialize (H (2 * PI)%R PI). 
  replace (2 * PI / 2)%R with PI in H by field. rewrite cos_PI, sin_PI2 in H. 
  replace (c * (-1 * 1 + 1))%R with 0%R in H by ring.
  pose proof (exp_pos (logpost_at (@egg_user RArith (0%R, 50%R) (0%R, 50%R) gp s1 s2) D [(2 * PI)%R; PI] 1%R)) as E.
  apply Rgt_not_eq in E. apply E. apply H; lra.
Qed.
Print Assumptions C84_reference_refuted.

(** a case: a file of four rows of which the third repeats the second; the table of the points *)
Example C84_case : forall L nan, let q x y := mkRow (A := B64 L) [x; y] (bof 0) 0 0 in
  let float t := if list_eq_dec ascii_dec t (lit "5.000000000000e+01") then Some (bof 50) else if list_eq_dec ascii_dec t (lit "0.000000000000e+00") then Some (bof 0) else None in
  let line r := row_line nan r ++ [NL] in
  merge float (List.concat (map line [q (bof 0) (bof 0); q (bof 0) at50; q (bof 0) at50; q at50 at50])) = Some [line (q (bof 0) at50); line (q at50 at50)] /\
  (exists c, histogram (fun _ => 0) [(bof 3, bof 7); (bof 3, bof 7); (bof 49, bof 0)] = Some c /\ c 614 = 2 /\ c 9800 = 1 /\ c 0 = 0).
Proof.
  intros L nan q float line. split; [vm_compute; reflexivity|].
  eexists. split; [cbn [histogram]; replace (place (bof 3) (bof 7)) with (Some 614) by (vm_compute; reflexivity);
    replace (place (bof 49) (bof 0)) with (Some 9800) by (vm_compute; reflexivity); cbn [obind]; reflexivity|]. repeat split.
Qed.
