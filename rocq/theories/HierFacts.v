(** The planet table of hier_R/user_logll.c. *)
From Coq Require Import ZArith List Bool Lia Reals Lra.
From Flocq Require Import Core IEEE754.BinarySingleNaN.
From Verif Require Import Base Arith B64 B64Facts RandRange UserModels UserOld.
Import ListNotations.
Open Scope Z_scope.

Section Table.
Context {A : Arith}.
Notation num := (num A).
Hypothesis int_ok : forall z, 0 <= z <= INT_MAX -> ntrunc (nof z : num) = Some z.

Definition flat (rows : list (num * num)) : list num := flat_map (fun p => [fst p; snd p]) rows.
(** the first section: for each planet the line of its first measurement and their number *)
Fixpoint headers (line : Z) (ps : list (list (num * num))) : list (num * num) :=
  match ps with
  | [] => []
  | p :: t => (nof line, nof (Z.of_nat (length p))) :: headers (line + Z.of_nat (length p)) t
  end.
(** the file of a list of planets, each with its measurements (x, y) *)
Definition table (ps : list (list (num * num))) : list (num * num) := headers (Z.of_nat (length ps)) ps ++ concat ps.
Definition mean (l : list num) : num := ndiv (fold_left nadd l (nof 0)) (nof (Z.of_nat (length l))).
(** the log-likelihood of one planet *)
Definition planet_ll (x : list num) (p : list (num * num)) : num :=
  let Xmu := mean (map fst p) in
  let Ymu := mean (map snd p) in
  let one Xobs Yobs := ll_oneMeasure (xi x 0) (xi x 1) Yobs Ymu Xobs Xmu (nexp (xi x 3)) (nexp (xi x 2)) (nexp (xi x 4)) (xi x 5) in
  match p with
  | [q] => one Xmu (snd q)
  | _ => fold_left (fun s q => nadd s (one (fst q) (snd q))) p (nof 0)
  end.

Lemma flat_length : forall rows, length (flat rows) = (2 * length rows)%nat.
Proof. induction rows as [|r rows IH]; cbn [flat flat_map app length]; [auto|]. change (flat_map _ rows) with (flat rows). lia. Qed.
Lemma flat_nth : forall rows k p, nth_error rows k = Some p ->
  nth_error (flat rows) (2 * k) = Some (fst p) /\ nth_error (flat rows) (2 * k + 1) = Some (snd p).
Proof.
  induction rows as [|r rows IH]; intros [|k] p H; cbn [nth_error] in H; try discriminate.
  - injection H as ->. split; reflexivity.
  - destruct (IH k p H) as [H1 H2]. replace (2 * S k)%nat with (S (S (2 * k))) by lia. replace (S (S (2 * k)) + 1)%nat with (S (S (2 * k + 1))) by lia.
    cbn [flat flat_map app nth_error]. auto.
Qed.
Lemma flat_get : forall rows k p i, nth_error rows k = Some p -> i = Z.of_nat k ->
  zget (flat rows) (i * 2) = OK (fst p) /\ zget (flat rows) (i * 2 + 0) = OK (fst p) /\ zget (flat rows) (i * 2 + 1) = OK (snd p).
Proof.
  intros rows k p i H ->. destruct (flat_nth rows k p H) as [H1 H2].
  assert (E0 : zget (flat rows) (Z.of_nat k * 2) = OK (fst p)) by (rewrite <- (zget_nth _ _ _ H1); f_equal; lia).
  split; [auto|]. split; [rewrite Z.add_0_r; auto|]. rewrite <- (zget_nth _ _ _ H2). f_equal. lia.
Qed.
Lemma row_flat : forall rows k p, nth_error rows k = Some p ->
  row_get (Z.of_nat (length rows)) (flat rows) (Z.of_nat k) 0 = OK (fst p) /\
  row_get (Z.of_nat (length rows)) (flat rows) (Z.of_nat k) 1 = OK (snd p).
Proof.
  intros rows k p H. assert (K : (k < length rows)%nat) by (apply nth_error_Some; congruence).
  destruct (flat_get rows k p _ H eq_refl) as [_ [H1 H2]]. unfold row_get.
  destruct (Z.leb_spec 0 (Z.of_nat k)); [|lia]. destruct (Z.ltb_spec (Z.of_nat k) (Z.of_nat (length rows))); [|lia]. cbn [andb]. auto.
Qed.
Lemma for_from_fold : forall {S X} (g : S -> X -> S) (l : list X) body i0 s,
  (forall k v, nth_error l k = Some v -> forall s, body (i0 + Z.of_nat k) s = OK (g s v)) ->
  for_from (length l) i0 body s = OK (fold_left g l s).
Proof.
  intros S X g l. induction l as [|v l IH]; intros body i0 s H; cbn [length for_from fold_left]; [auto|].
  replace (body i0 s) with (OK (g s v)).
  - cbn [rbind]. apply IH. intros k w Hk s'. rewrite <- (H (Datatypes.S k) w Hk s'). f_equal. lia.
  - symmetry. rewrite <- (H 0%nat v eq_refl s). f_equal. lia.
Qed.
Lemma fold_left_map' : forall {S X Y} (g : S -> Y -> S) (f : X -> Y) l s, fold_left g (map f l) s = fold_left (fun s x => g s (f x)) l s.
Proof. intros S X Y g f l. induction l as [|x l IH]; intros s; cbn [map fold_left]; auto. Qed.

Section Rows.
Variable rows : list (num * num).
Notation nline := (Z.of_nat (length rows)).
Lemma calc_mean_ok : forall p line, 0 <= line -> (forall k, (k < length p)%nat -> nth_error rows (Z.to_nat line + k) = nth_error p k) ->
  calc_mean (flat rows) line (Z.of_nat (length p)) 0 = OK (mean (map fst p)) /\
  calc_mean (flat rows) line (Z.of_nat (length p)) 1 = OK (mean (map snd p)).
Proof.
  intros p line Hl H. unfold calc_mean, mean. rewrite Nat2Z.id, !map_length, !fold_left_map'. split.
  - rewrite (for_from_fold (fun s q => nadd s (fst q)) p); [reflexivity|]. intros k v Hk s.
    assert (Hk2 : nth_error rows (Z.to_nat line + k) = Some v) by (rewrite H; [auto|]; apply nth_error_Some; congruence).
    destruct (flat_get rows _ v (line + Z.of_nat k) Hk2 ltac:(lia)) as [_ [E _]].
    replace (line * 2 + (0 + Z.of_nat k) * 2 + 0) with ((line + Z.of_nat k) * 2 + 0) by lia. rewrite E. reflexivity.
  - rewrite (for_from_fold (fun s q => nadd s (snd q)) p); [reflexivity|]. intros k v Hk s.
    assert (Hk2 : nth_error rows (Z.to_nat line + k) = Some v) by (rewrite H; [auto|]; apply nth_error_Some; congruence).
    destruct (flat_get rows _ v (line + Z.of_nat k) Hk2 ltac:(lia)) as [_ [_ E]].
    replace (line * 2 + (0 + Z.of_nat k) * 2 + 1) with ((line + Z.of_nat k) * 2 + 1) by lia. rewrite E. reflexivity.
Qed.
Lemma one_planet_ok : forall x p line, p <> [] -> 0 <= line -> (forall k, (k < length p)%nat -> nth_error rows (Z.to_nat line + k) = nth_error p k) ->
  ll_one_planet x (flat rows) line (Z.of_nat (length p)) (mean (map fst p)) (mean (map snd p)) = OK (planet_ll x p).
Proof.
  intros x p line Hp Hl H. unfold ll_one_planet. destruct (Z.eqb_spec (Z.of_nat (length p)) 1) as [E|E].
  - destruct p as [|q [|]]; try (cbn in E; lia). 
    destruct (flat_get rows _ q line (H 0%nat ltac:(cbn; lia)) ltac:(lia)) as [_ [_ G]]. rewrite G. reflexivity.
  - rewrite Nat2Z.id. destruct p as [|q [|q2 p]]; [congruence|exfalso; apply E; reflexivity|].
    unfold planet_ll. cbv zeta. match goal with |- _ = OK (fold_left ?g ?l ?s) => apply (for_from_fold g l) end.
    intros k v Hk s.
    assert (Hk2 : nth_error rows (Z.to_nat line + k) = Some v) by (rewrite H; [auto|]; apply nth_error_Some; congruence).
    destruct (flat_get rows _ v (line + Z.of_nat k) Hk2 ltac:(lia)) as [E1 [_ E2]].
    replace (line * 2 + (0 + Z.of_nat k) * 2) with ((line + Z.of_nat k) * 2) by lia.
    rewrite E1. cbn [rbind]. rewrite E2. reflexivity.
Qed.
Lemma n2i_nof : forall z, 0 <= z <= INT_MAX -> n2i (nof z : num) = OK z.
Proof.
  intros z H. unfold n2i. rewrite int_ok by auto. destruct (Z.leb_spec INT_MIN z); [|unfold INT_MIN in *; lia]. destruct (Z.leb_spec z INT_MAX); [auto|lia].
Qed.
Lemma planet_ok : forall x p line i s, p <> [] -> 0 <= line -> line + Z.of_nat (length p) <= nline -> nline <= INT_MAX ->
  nth_error rows i = Some (nof line, nof (Z.of_nat (length p))) ->
  (forall k, (k < length p)%nat -> nth_error rows (Z.to_nat line + k) = nth_error p k) ->
  planet x nline (flat rows) (Z.of_nat i) s = OK (nadd s (planet_ll x p)).
Proof.
  intros x p line i s Hp Hl Hn HM Hi H. assert (0 < length p)%nat by (destruct p; [congruence|cbn; lia]).
  destruct (row_flat rows i _ Hi) as [R0 R1]. cbn [fst snd] in *. unfold planet. rewrite R1. cbn [rbind].
  rewrite n2i_nof by lia. cbn [rbind]. rewrite R0. cbn [rbind]. rewrite n2i_nof by lia. cbn [rbind].
  destruct (Z.leb_spec 0 line); [|lia]. destruct (Z.ltb_spec line nline); [|lia]. cbn [andb].
  destruct (calc_mean_ok p line Hl H) as [C0 C1]. rewrite C0. cbn [rbind]. rewrite C1. cbn [rbind].
  rewrite (one_planet_ok x p line Hp Hl H). reflexivity.
Qed.
End Rows.

(** ** the loop over a table *)
Section OneTable.
Variable ps : list (list (num * num)).
Hypothesis full : forall p, In p ps -> p <> [].
Notation rows := (table ps).
Notation m := (length ps).
Notation nline := (Z.of_nat (length rows)).
Hypothesis small : nline <= INT_MAX.
(** the line of the first measurement of planet k *)
Definition line_of (k : nat) : Z := Z.of_nat m + Z.of_nat (length (concat (firstn k ps))).

Lemma headers_length : forall qs b, length (headers b qs) = length qs.
Proof. induction qs as [|q qs IH]; intros b; cbn [headers length]; auto. Qed.
Lemma headers_nth : forall qs b k p, nth_error qs k = Some p ->
  nth_error (headers b qs) k = Some (nof (b + Z.of_nat (length (concat (firstn k qs)))), nof (Z.of_nat (length p))).
Proof.
  induction qs as [|q qs IH]; intros b [|k] p H; cbn [nth_error] in H; try discriminate.
  - injection H as ->. cbn [headers nth_error firstn concat length]. rewrite Z.add_0_r. auto.
  - cbn [headers nth_error firstn concat]. rewrite (IH _ k p H). rewrite app_length, Nat2Z.inj_add, Z.add_assoc. reflexivity.
Qed.
Lemma rows_length : length rows = (m + length (concat ps))%nat.
Proof. unfold table. rewrite app_length, headers_length. auto. Qed.
Lemma row_header : forall k p, nth_error ps k = Some p -> nth_error rows k = Some (nof (line_of k), nof (Z.of_nat (length p))).
Proof.
  intros k p H. unfold table. rewrite nth_error_app1 by (rewrite headers_length; apply nth_error_Some; congruence). apply headers_nth. auto.
Qed.
Lemma concat_nth : forall (qs : list (list (num * num))) k p j, nth_error qs k = Some p -> (j < length p)%nat ->
  nth_error (concat qs) (length (concat (firstn k qs)) + j) = nth_error p j.
Proof.
  induction qs as [|q qs IH]; intros [|k] p j H Hj; cbn [nth_error] in H; try discriminate.
  - injection H as ->. cbn [firstn concat length Nat.add]. rewrite nth_error_app1; auto.
  - cbn [firstn concat]. rewrite app_length, nth_error_app2 by lia. rewrite <- (IH k p j H Hj). f_equal. lia.
Qed.
Lemma row_measure : forall k p j, nth_error ps k = Some p -> (j < length p)%nat -> nth_error rows (Z.to_nat (line_of k) + j) = nth_error p j.
Proof.
  intros k p j H Hj. unfold table, line_of. rewrite nth_error_app2 by (rewrite headers_length; lia). rewrite headers_length.
  rewrite <- (concat_nth ps k p j H Hj). f_equal. lia.
Qed.
Lemma concat_firstn_S : forall (qs : list (list (num * num))) k p, nth_error qs k = Some p ->
  length (concat (firstn (S k) qs)) = (length (concat (firstn k qs)) + length p)%nat.
Proof.
  induction qs as [|q qs IH]; intros [|k] p H; cbn [nth_error] in H; try discriminate.
  - injection H as ->. cbn [firstn concat]. rewrite app_length. cbn. lia.
  - change (length (q ++ concat (firstn (S k) qs)) = (length (q ++ concat (firstn k qs)) + length p)%nat). rewrite !app_length, (IH k p H). lia.
Qed.
Lemma concat_firstn_le : forall (qs : list (list (num * num))) k, (length (concat (firstn k qs)) <= length (concat qs))%nat.
Proof.
  intros qs k. rewrite <- (firstn_skipn k qs) at 2. rewrite concat_app, app_length. lia.
Qed.
Lemma line_S : forall k p, nth_error ps k = Some p -> line_of (S k) = line_of k + Z.of_nat (length p).
Proof. intros k p H. unfold line_of. rewrite (concat_firstn_S ps k p H). lia. Qed.
Lemma line_end : forall k p, nth_error ps k = Some p -> line_of k + Z.of_nat (length p) <= nline.
Proof.
  intros k p H. rewrite <- (line_S k p H). unfold line_of. rewrite rows_length. pose proof (concat_firstn_le ps (S k)). lia.
Qed.
Lemma line_nonneg : forall k, 0 <= line_of k.
Proof. intros k. unfold line_of. lia. Qed.
Lemma planet_k : forall x k p s, nth_error ps k = Some p -> planet x nline (flat rows) (Z.of_nat k) s = OK (nadd s (planet_ll x p)).
Proof.
  intros x k p s H. apply (planet_ok rows x p (line_of k)); auto.
  - apply full. apply nth_error_In with k. auto.
  - apply line_nonneg.
  - apply line_end. auto.
  - apply row_header. auto.
  - intros j Hj. apply row_measure; auto.
Qed.
Lemma goes_on_k : forall k p q, nth_error ps (S k) = Some p -> nth_error ps k = Some q -> table_goes_on nline (flat rows) (Z.of_nat (S k)) = OK true.
Proof.
  intros k p q H Hq. destruct (row_flat rows _ _ (row_header _ _ H)) as [R0 R1]. destruct (row_flat rows _ _ (row_header _ _ Hq)) as [Q0 _].
  cbn [fst snd] in *. pose proof (line_end _ _ H) as LE. pose proof (line_nonneg (S k)) as LN. pose proof (line_nonneg k) as LN'. pose proof (line_S _ _ Hq) as LS.
  assert (0 < length q)%nat by (destruct q; [exfalso; apply (full []); [apply nth_error_In with k; auto|auto]|cbn; lia]).
  unfold table_goes_on. rewrite R0. cbn [rbind]. rewrite n2i_nof by lia. cbn [rbind]. rewrite R1. cbn [rbind]. rewrite n2i_nof by lia. cbn [rbind].
  rewrite i32_ok by (unfold INT_MIN; lia). cbn [rbind]. destruct (Z.leb_spec (line_of (S k) + Z.of_nat (length p)) nline); [|lia].
  replace (Z.of_nat (S k) - 1) with (Z.of_nat k) by lia. rewrite Q0. cbn [rbind]. rewrite n2i_nof by lia. cbn [rbind].
  f_equal. apply Z.ltb_lt. lia.
Qed.
Lemma loop_to_end : forall x f k s, (1 <= k <= m)%nat -> 
  planet_loop (m - k + f) x nline (flat rows) (Z.of_nat k) s =
  planet_loop f x nline (flat rows) (Z.of_nat m) (fold_left (fun s p => nadd s (planet_ll x p)) (skipn k ps) s).
Proof.
  intros x f k s Hk. remember (m - k)%nat as d eqn:D. revert k s Hk D. induction d as [|d IH]; intros k s Hk D.
  - assert (k = m) by lia. subst k. rewrite skipn_all. reflexivity.
  - destruct (nth_error ps k) as [p|] eqn:E; [|apply nth_error_None in E; lia].
    destruct k as [|k]; [lia|]. destruct (nth_error ps k) as [q|] eqn:Eq; [|apply nth_error_None in Eq; lia].
    cbn [Nat.add planet_loop]. rewrite (goes_on_k k p q E Eq). cbn [rbind]. rewrite (planet_k x (S k) p s E). cbn [rbind].
    replace (Z.of_nat (S k) + 1) with (Z.of_nat (S (S k))) by lia. rewrite IH by lia.
    assert (SK : forall (l : list (list (num * num))) n w, nth_error l n = Some w -> skipn n l = w :: skipn (S n) l).
    { intros l n. revert l. induction n as [|n IHn]; intros [|y l] w H; cbn [nth_error] in H; try discriminate; [injection H as ->; reflexivity|].
      cbn [skipn]. apply (IHn l w H). }
    rewrite (SK ps (S k) p E). reflexivity.
Qed.
(** the first measurement read as one more line of the first section *)
Definition looks_like_header (q : num * num) : res bool :=
  let* a := n2i (fst q) in let* b := n2i (snd q) in let* s := i32 (a + b) in
  OK ((s <=? nline) && (line_of (m - 1) <? a)).
Lemma first_measure : ps <> [] -> exists q, nth_error rows m = Some q /\ nth_error (concat ps) 0 = Some q.
Proof.
  intros H. destruct ps as [|p ps'] eqn:E; [congruence|]. assert (Hp : p <> []) by (apply full; left; auto).
  destruct p as [|q p]; [congruence|]. exists q. split; [|reflexivity]. 
  unfold table. rewrite nth_error_app2 by (rewrite headers_length; lia). rewrite headers_length, Nat.sub_diag. reflexivity.
Qed.
Lemma end_test : forall q, ps <> [] -> nth_error rows m = Some q -> table_goes_on nline (flat rows) (Z.of_nat m) = looks_like_header q.
Proof.
  intros q Hne Hq. destruct (row_flat rows _ _ Hq) as [R0 R1]. cbn [fst snd] in *.
  assert (0 < m)%nat by (destruct ps; [congruence|cbn; lia]).
  destruct (nth_error ps (m - 1)) as [p|] eqn:E; [|apply nth_error_None in E; lia].
  destruct (row_flat rows _ _ (row_header _ _ E)) as [Q0 _]. cbn [fst snd] in *.
  pose proof (line_end _ _ E). pose proof (line_nonneg (m - 1)).
  unfold table_goes_on, looks_like_header. rewrite R0. cbn [rbind]. destruct (n2i (fst q)) as [a|]; [|reflexivity]. cbn [rbind]. rewrite R1. cbn [rbind].
  destruct (n2i (snd q)) as [b|]; [|reflexivity]. cbn [rbind]. destruct (i32 (a + b)) as [c|]; [|reflexivity]. cbn [rbind].
  destruct (c <=? nline); [|reflexivity]. replace (Z.of_nat m - 1) with (Z.of_nat (m - 1)) by lia. rewrite Q0. cbn [rbind].
  rewrite n2i_nof by lia. reflexivity.
Qed.
Lemma hier_start : forall x, ps <> [] -> exists f,
  hier_value x nline (flat rows) = planet_loop (S (S f)) x nline (flat rows) (Z.of_nat m) (fold_left (fun s p => nadd s (planet_ll x p)) ps (nof 0)).
Proof.
  intros x Hne. destruct (nth_error ps 0) as [p|] eqn:E; [|destruct ps; [congruence|discriminate E]].
  unfold hier_value. pose proof (planet_k x 0 p (nof 0) E) as P0. cbn [Z.of_nat] in P0. rewrite P0. cbn [rbind].
  assert (1 <= m)%nat by (destruct ps; [congruence|cbn; lia]).
  assert (m < length rows)%nat. { destruct (first_measure Hne) as [q [Q _]]. apply nth_error_Some. congruence. }
  exists (length rows - m)%nat. rewrite Nat2Z.id. 
  replace (S (length rows)) with (m - 1 + S (S (length rows - m)))%nat by lia.
  pose proof (loop_to_end x (S (S (length rows - m))) 1 (nadd (nof 0) (planet_ll x p)) ltac:(lia)) as LE. change (Z.of_nat 1) with 1 in LE. rewrite LE.
  f_equal. assert (Z1 : ps = p :: skipn 1 ps) by (destruct ps; [congruence|cbn in E; injection E as ->; reflexivity]).
  rewrite Z1 at 2. reflexivity.
Qed.
Lemma hier_exact : forall x q, ps <> [] -> nth_error (concat ps) 0 = Some q -> looks_like_header q = OK false ->
  hier_value x nline (flat rows) = OK (fold_left (fun s p => nadd s (planet_ll x p)) ps (nof 0), Z.of_nat m).
Proof.
  intros x q Hne Hq HF. destruct (hier_start x Hne) as [f ->]. destruct (first_measure Hne) as [q' [Q1 Q2]].
  assert (q' = q) by congruence. subst q'. cbn [planet_loop]. rewrite (end_test q Hne Q1), HF. reflexivity.
Qed.
Lemma loop_index : forall f x i s v k, planet_loop f x nline (flat rows) i s = OK (v, k) -> i <= k.
Proof.
  induction f as [|f IH]; intros x i s v k H; cbn [planet_loop] in H; [discriminate|].
  destruct (table_goes_on nline (flat rows) i) as [[|]|]; cbn [rbind] in H; [|injection H as <- <-; lia|discriminate].
  destruct (planet x nline (flat rows) i s) as [s'|]; cbn [rbind] in H; [|discriminate]. apply IH in H. lia.
Qed.
Lemma hier_wrong : forall x q v k, ps <> [] -> nth_error (concat ps) 0 = Some q -> looks_like_header q <> OK false ->
  hier_value x nline (flat rows) = OK (v, k) -> Z.of_nat m < k.
Proof.
  intros x q v k Hne Hq HF H. destruct (hier_start x Hne) as [f E]. rewrite E in H. clear E. destruct (first_measure Hne) as [q' [Q1 Q2]].
  assert (q' = q) by congruence. subst q'. remember (S f) as g. cbn [planet_loop] in H. rewrite (end_test q Hne Q1) in H.
  destruct (looks_like_header q) as [[|]|]; [|congruence|discriminate H]. cbn [rbind] in H.
  destruct (planet x nline (flat rows) (Z.of_nat m) _) as [s'|]; cbn [rbind] in H; [|discriminate].
  apply loop_index in H. lia.
Qed.
End OneTable.
End Table.

Lemma int_ok_R : forall z, 0 <= z <= INT_MAX -> @ntrunc RArith (nof z) = Some z.
Proof. intros z _. cbn [ntrunc nof RArith]. rewrite Rtrunc_IZR. auto. Qed.
Lemma int_ok_B64 : forall L z, 0 <= z <= INT_MAX -> @ntrunc (B64 L) (nof z) = Some z.
Proof.
  intros L z H. cbn [ntrunc nof B64]. destruct (bof_ok z) as [B F]; [unfold INT_MAX in *; lia|]. apply btrunc_int; auto.
Qed.

(** ** the fuel is enough *)
Definition no_fuel {X} (r : res X) : Prop := r <> Stop OutOfFuel.
Lemma nf_bind : forall {X Y} (r : res X) (f : X -> res Y), no_fuel r -> (forall x, no_fuel (f x)) -> no_fuel (rbind r f).
Proof. intros X Y [x|e] f H K; cbn [rbind]; [apply K|intros E; injection E as ->; apply H; auto]. Qed.
Lemma nf_ok : forall {X} (x : X), no_fuel (OK x).
Proof. intros X x E. discriminate. Qed.
Lemma nf_zget : forall {X} (l : list X) i, no_fuel (zget l i).
Proof. intros X l i. unfold zget. destruct (i <? 0); [discriminate|]. destruct (nth_error l (Z.to_nat i)); discriminate. Qed.
Lemma nf_row : forall {A : Arith} n (d : list (num A)) i j, no_fuel (row_get n d i j).
Proof. intros. unfold row_get. destruct ((0 <=? i) && (i <? n)); [apply nf_zget|discriminate]. Qed.
Lemma nf_n2i : forall {A : Arith} (x : num A), no_fuel (n2i x).
Proof. intros. unfold n2i. destruct (ntrunc x) as [z|]; [|discriminate]. destruct ((INT_MIN <=? z) && (z <=? INT_MAX)); discriminate. Qed.
Lemma nf_i32 : forall z, no_fuel (i32 z).
Proof. intros. unfold i32. destruct ((INT_MIN <=? z) && (z <=? INT_MAX)); discriminate. Qed.
Lemma nf_for : forall {S} n i (body : Z -> S -> res S) s, (forall j t, no_fuel (body j t)) -> no_fuel (for_from n i body s).
Proof. intros S n. induction n as [|n IH]; intros i body s H; cbn [for_from]; [apply nf_ok|]. apply nf_bind; [apply H|]. intros t. apply IH. auto. Qed.
Ltac nf := repeat first [apply nf_bind; [|intros ?] | apply nf_zget | apply nf_row | apply nf_n2i | apply nf_i32 | apply nf_ok | apply nf_for; intros ? ?].
Lemma nf_mean : forall {A : Arith} (d : list (num A)) l n i, no_fuel (calc_mean d l n i).
Proof. intros. unfold calc_mean. nf. Qed.
Lemma nf_planet : forall {A : Arith} x n (d : list (num A)) i s, no_fuel (planet x n d i s).
Proof.
  intros. unfold planet. apply nf_bind; [apply nf_row|]. intros vn. apply nf_bind; [apply nf_n2i|]. intros k. apply nf_bind; [apply nf_row|].
  intros vl. apply nf_bind; [apply nf_n2i|]. intros l. destruct ((0 <=? l) && (l <? n)); [|discriminate].
  apply nf_bind; [apply nf_mean|]. intros mx. apply nf_bind; [apply nf_mean|]. intros my. apply nf_bind; [|intros ?; apply nf_ok].
  unfold ll_one_planet. destruct (k =? 1); nf.
Qed.
Lemma nf_goes_on : forall {A : Arith} n (d : list (num A)) i, no_fuel (table_goes_on n d i).
Proof.
  intros. unfold table_goes_on. apply nf_bind; [apply nf_row|]. intros v. apply nf_bind; [apply nf_n2i|]. intros a. apply nf_bind; [apply nf_row|].
  intros w. apply nf_bind; [apply nf_n2i|]. intros b. apply nf_bind; [apply nf_i32|]. intros c. destruct (c <=? n); [|apply nf_ok]. nf.
Qed.
Lemma planet_loop_fuel : forall {A : Arith} f x nline (data : list (num A)) i s, 0 <= i -> (0 < f)%nat -> nline - i < Z.of_nat f ->
  no_fuel (planet_loop f x nline data i s).
Proof.
  intros A f x nline data. induction f as [|f IH]; intros i s Hi H0 Hf; [lia|]. cbn [planet_loop].
  destruct (Z.ltb_spec i nline) as [C|C].
  - apply nf_bind; [apply nf_goes_on|]. intros [|]; [|apply nf_ok]. apply nf_bind; [apply nf_planet|]. intros t. apply IH; lia.
  - unfold table_goes_on, row_get. destruct (Z.leb_spec 0 i); [|lia]. destruct (Z.ltb_spec i nline); [lia|]. cbn [andb rbind]. discriminate.
Qed.
Lemma hier_value_fuel : forall {A : Arith} x nline (data : list (num A)), no_fuel (hier_value x nline data).
Proof.
  intros. unfold hier_value. apply nf_bind; [apply nf_planet|]. intros s. apply planet_loop_fuel; lia.
Qed.
