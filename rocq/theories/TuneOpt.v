(** argmin, argmax and the two searches for the acceptance rate closest to ar_best. *)
From Coq Require Import ZArith Reals Lra List Bool Lia.
From Flocq Require Import Core IEEE754.BinarySingleNaN.
From Verif Require Import Base Arith B64 Mh Tune ListAux.
Import ListNotations.
Open Scope Z_scope.

(** a set of numbers on which the comparison is a strict weak order *)
Record comparable {A : Arith} (P : num A -> Prop) : Prop := {
  cmp_asym : forall x y, P x -> P y -> nltb x y = true -> nltb y x = false;
  cmp_trans : forall x y z, P x -> P y -> P z -> nltb y x = false -> nltb z y = false -> nltb z x = false
}.

Lemma comparable_R : comparable (A := RArith) (fun _ => True).
Proof.
  split; cbn [nltb RArith].
  - intros x y _ _ H. apply Rltb_true in H. apply Rltb_false. lra.
  - intros x y z _ _ _ H1 H2. apply Rltb_false in H1, H2. apply Rltb_false. lra.
Qed.

(** doubles that are not NaN, as signs and reals *)
Definition bkey (x : b64) : Z * R :=
  match x with B754_infinity s => (if s then -1 else 1, 0%R) | _ => (0, B2R x) end.
Definition klt (a b : Z * R) : Prop := fst a < fst b \/ (fst a = fst b /\ (snd a < snd b)%R).
Lemma bltb_key : forall x y : b64, is_nan x = false -> is_nan y = false -> (Bltb x y = true <-> klt (bkey x) (bkey y)).
Proof.
  intros x y Hx Hy. unfold klt.
  assert (FF : forall x y : b64, is_finite x = true -> is_finite y = true -> (Bltb x y = true <-> (B2R x < B2R y)%R)).
  { intros a b Ha Hb. rewrite (Bltb_correct _ _ a b Ha Hb). destruct (Rlt_bool_spec (B2R a) (B2R b)); split; auto; try lra; discriminate. }
  destruct x as [sx|sx| |sx mx ex ex']; try discriminate; destruct y as [sy|sy| |sy my ey ey']; try discriminate;
    try (rewrite FF by reflexivity; cbn [bkey fst snd]; split; [intros; right; split; [reflexivity|assumption]|intros [K|[_ K]]; [lia|exact K]]);
    destruct sx, sy; cbn; split; intros; try discriminate; try (left; lia); try lra; try lia; try (destruct H as [H|[H H']]; [lia|try lia; lra]); auto.
Qed.
Lemma bltb_key_false : forall x y : b64, is_nan x = false -> is_nan y = false -> (Bltb x y = false <-> ~ klt (bkey x) (bkey y)).
Proof.
  intros x y Hx Hy. rewrite <- (bltb_key x y Hx Hy). destruct (Bltb x y); split; intros; try discriminate; auto. exfalso; auto.
Qed.
Lemma comparable_B64 : forall L, comparable (A := B64 L) (fun x : b64 => is_nan x = false).
Proof.
  intros L. split; cbn [nltb B64].
  - intros x y Hx Hy H. apply (bltb_key x y Hx Hy) in H. apply (bltb_key_false y x Hy Hx). unfold klt in *. intros K. destruct H, K; try lia. lra.
  - intros x y z Hx Hy Hz H1 H2. apply (bltb_key_false y x Hy Hx) in H1. apply (bltb_key_false z y Hz Hy) in H2. apply (bltb_key_false z x Hz Hx).
    unfold klt in *. destruct (bkey x) as [kx rx], (bkey y) as [ky ry], (bkey z) as [kz rz]. cbn [fst snd] in *.
    intros [K|[K1 K2]].
    + assert (~ kz < ky) by tauto. assert (~ ky < kx) by tauto. lia.
    + assert (~ kz < ky) by tauto. assert (~ ky < kx) by tauto. assert (kz = ky) by lia. assert (ky = kx) by lia. subst.
      assert (~ (rz < ry)%R) by tauto. assert (~ (ry < rx)%R) by tauto. lra.
Qed.
(** without NaN-freeness the comparison is no order: every double is "not below" NaN *)

Lemma zget_z : forall {X} (l : list X) j d, 0 <= j < Z.of_nat (length l) -> zget l j = OK (nth (Z.to_nat j) l d).
Proof.
  intros X l j d H. pose proof (zget_nat l (Z.to_nat j) d ltac:(lia)) as K. unfold Prog.zr in K. rewrite Z2Nat.id in K by lia. exact K.
Qed.

Section Opt.
Context {A : Arith}.
Variable P : num A -> Prop.
Hypothesis HP : comparable P.

(** [lt] is the comparison or its converse *)
Definition wlt (lt : num A -> num A -> bool) : Prop :=
  (forall x y, P x -> P y -> lt x y = true -> lt y x = false) /\
  (forall x y z, P x -> P y -> P z -> lt y x = false -> lt z y = false -> lt z x = false).
Lemma wlt_lt : wlt nltb.
Proof. split; [exact (cmp_asym _ HP)|exact (cmp_trans _ HP)]. Qed.
Lemma wlt_gt : wlt (fun x y => nltb y x).
Proof.
  split; [intros x y Hx Hy; apply (cmp_asym _ HP); auto|]. intros x y z Hx Hy Hz H1 H2. exact (cmp_trans _ HP z y x Hz Hy Hx H2 H1).
Qed.

(** one comparison of a scan over positions ordered by [idx]: the new best is best so far *)
Definition best (lt : num A -> num A -> bool) {I} (e : I -> num A) (before : I -> Prop) (i : I) (earlier : I -> I -> Prop) : Prop :=
  (forall k, before k -> lt (e k) (e i) = false) /\ (forall k, before k -> earlier k i -> lt (e i) (e k) = true).

Lemma irr : forall lt, wlt lt -> forall x, P x -> lt x x = false.
Proof. intros lt [W1 _] x Hx. destruct (lt x x) eqn:E; auto. rewrite (W1 x x Hx Hx E) in E. discriminate. Qed.
Lemma best_step : forall lt, wlt lt -> forall I (e : I -> num A) (before before' : I -> Prop) (earlier : I -> I -> Prop) i j,
  (forall k, before' k -> before k \/ k = j) -> (forall k, before k -> P (e k)) -> before i -> P (e j) ->
  (forall k, before k -> k <> j) -> ~ earlier j i -> ~ earlier j j ->
  best lt e before i earlier ->
  best lt e before' (if lt (e j) (e i) then j else i) earlier.
Proof.
  intros lt W I e before before' earlier i j Hb HPb Hi Hj Hne Hji Hjj [B1 B2]. pose proof W as [W1 W2].
  destruct (lt (e j) (e i)) eqn:E; split.
  - intros k Hk. destruct (Hb k Hk) as [K| ->]; [|apply irr; auto].
    apply (W2 (e j) (e i) (e k)); auto.
  - intros k Hk He. destruct (Hb k Hk) as [K| ->]; [|contradiction].
    destruct (lt (e j) (e k)) eqn:Q; auto. rewrite (W2 (e i) (e k) (e j)) in E; auto; discriminate.
  - intros k Hk. destruct (Hb k Hk) as [K| ->]; auto.
  - intros k Hk He. destruct (Hb k Hk) as [K| ->]; auto; contradiction.
Qed.

Lemma scan_spec : forall lt, wlt lt -> forall (arr : list (num A)) d, arr <> [] -> Forall P arr ->
  exists i v, for_from (Z.to_nat (Z.of_nat (length arr) - 1)) 1
    (fun i '(im, vm) => let* v := zget arr i in OK (if lt v vm then (i, v) else (im, vm))) (0, nth 0 arr d) = OK (i, v) /\
   0 <= i < Z.of_nat (length arr) /\ v = nth (Z.to_nat i) arr d /\
   (forall k, 0 <= k < Z.of_nat (length arr) -> lt (nth (Z.to_nat k) arr d) v = false) /\
   (forall k, 0 <= k < i -> lt v (nth (Z.to_nat k) arr d) = true).
Proof.
  intros lt W arr d Hne HF. set (N := Z.of_nat (length arr)). assert (HN : 1 <= N) by (destruct arr; [contradiction|unfold N; cbn; lia]).
  set (e := fun k => nth (Z.to_nat k) arr d).
  assert (He : forall k, 0 <= k < N -> P (e k)).
  { intros k Hk. rewrite Forall_forall in HF. apply HF. apply nth_In. unfold N in Hk. lia. }
  destruct (for_from_ok (fun j (s : Z * num A) => 0 <= fst s < j /\ snd s = e (fst s) /\
      best lt e (fun k => 0 <= k < j) (fst s) Z.lt)
     (fun i '(im, vm) => let* v := zget arr i in OK (if lt v vm then (i, v) else (im, vm))) (Z.to_nat (N - 1)) 1 (0, nth 0 arr d)) as [[i v] [E [K1 [K2 [K3 K4]]]]].
  - cbn [fst snd]. split; [lia|]. split; [reflexivity|]. split; intros k Hk; [|intros; lia]. replace k with 0 by lia. apply irr; auto. apply He. lia.
  - intros j [im vm] Hj [I1 [I2 I3]]. cbn [fst snd] in *.
    rewrite (zget_z arr j d) by (unfold N in *; lia). cbn [rbind]. fold (e j). rewrite I2.
    pose proof (best_step lt W Z e (fun k => 0 <= k < j) (fun k => 0 <= k < j + 1) Z.lt im j) as B.
    eexists. split; [reflexivity|].
    assert (B' : best lt e (fun k => 0 <= k < j + 1) (if lt (e j) (e im) then j else im) Z.lt).
    { apply B; auto; try lia. all: try (intros k Hk; try apply He; lia). apply He. lia. }
    destruct (lt (e j) (e im)); cbn [fst snd]; (split; [lia|]; split; [reflexivity|exact B']).
  - cbn [fst snd] in *. exists i, v. rewrite Z2Nat.id in * by lia. replace (1 + (N - 1)) with N in * by lia.
    split; [exact E|]. split; [lia|]. split; [exact K2|]. rewrite K2. split; [exact K3|]. intros k Hk. apply K4; lia.
Qed.

Lemma argmin_spec : forall (arr : list (num A)) d, arr <> [] -> Forall P arr ->
  exists i, argmin arr (Z.of_nat (length arr)) = OK i /\ 0 <= i < Z.of_nat (length arr) /\
   (forall k, 0 <= k < Z.of_nat (length arr) -> nltb (nth (Z.to_nat k) arr d) (nth (Z.to_nat i) arr d) = false) /\
   (forall k, 0 <= k < i -> nltb (nth (Z.to_nat i) arr d) (nth (Z.to_nat k) arr d) = true).
Proof.
  intros arr d Hne HF. destruct (scan_spec nltb wlt_lt arr d Hne HF) as [i [v [E [H1 [-> [H3 H4]]]]]]. exists i.
  split; auto. unfold argmin. rewrite (zget_z arr 0 d) by (destruct arr; [contradiction|cbn; lia]). cbn [rbind].
  change (Z.to_nat 0) with 0%nat. rewrite E. reflexivity.
Qed.

Lemma argmax_spec : forall (arr : list (num A)) d, arr <> [] -> Forall P arr ->
  exists i, argmax arr (Z.of_nat (length arr)) = OK i /\ 0 <= i < Z.of_nat (length arr) /\
   (forall k, 0 <= k < Z.of_nat (length arr) -> nltb (nth (Z.to_nat i) arr d) (nth (Z.to_nat k) arr d) = false) /\
   (forall k, 0 <= k < i -> nltb (nth (Z.to_nat k) arr d) (nth (Z.to_nat i) arr d) = true).
Proof.
  intros arr d Hne HF. destruct (scan_spec _ wlt_gt arr d Hne HF) as [i [v [E [H1 [-> [H3 H4]]]]]]. exists i.
  split; auto. unfold argmax. rewrite (zget_z arr 0 d) by (destruct arr; [contradiction|cbn; lia]). cbn [rbind].
  change (Z.to_nat 0) with 0%nat. rewrite E. reflexivity.
Qed.

(** ** the table of acceptance rates: N_parm rows of n entries *)
Variable C : Cfg A.
Variable n : Z.
Hypothesis Hn : 1 <= n.
Variable ar : list (list (num A)).
Variable d : num A.
Definition entry (i j : Z) : num A := nth (Z.to_nat j) (nth (Z.to_nat i) ar []) d.
(** distance from ar_best *)
Definition off (i j : Z) : num A := nabs (nsub (entry i j) (ar_best C)).
Hypothesis La : Z.of_nat (length ar) = N_parm C.
Hypothesis Lr : forall r, In r ar -> Z.of_nat (length r) = n.
Hypothesis HE : forall i j, 0 <= i < N_parm C -> 0 <= j < n -> P (off i j).

Lemma ar_err_off : forall i j, 0 <= i < N_parm C -> 0 <= j < n -> ar_err C ar i j = OK (off i j).
Proof.
  intros i j Hi Hj. unfold ar_err. rewrite (zget_z ar i []) by lia. cbn [rbind].
  rewrite (zget_z _ j d). reflexivity. rewrite (Lr (nth (Z.to_nat i) ar [])); auto. apply nth_In. lia.
Qed.

Lemma closest_oneparm_spec : forall i, 0 <= i < N_parm C ->
  exists j, closest_oneparm C n ar i = OK (off i j, j) /\ 0 <= j < n /\
    (forall k, 0 <= k < n -> nltb (off i k) (off i j) = false) /\
    (forall k, 0 <= k < j -> nltb (off i j) (off i k) = true).
Proof.
  intros i Hi. unfold closest_oneparm. rewrite ar_err_off by lia. cbn [rbind].
  destruct (for_from_ok (fun j (s : num A * Z) => fst s = off i (snd s) /\ 0 <= snd s < n /\ (snd s < j \/ (j = 0 /\ snd s = 0)) /\
      best nltb (off i) (fun k => 0 <= k < j) (snd s) Z.lt)
     (fun j '(cv, cj) => let* e := ar_err C ar i j in OK (if nltb e cv then (e, j) else (cv, cj))) (Z.to_nat n) 0 (off i 0, 0)) as [[v j] [E [K1 [K2 [K3 [K4 K5]]]]]].
  - cbn [fst snd]. split; [auto|]. split; [lia|]. split; [auto|]. split; intros; lia.
  - intros j [cv cj] Hj [I1 [I2 [I3 I4]]]. cbn [fst snd] in *. rewrite ar_err_off by lia. cbn [rbind]. rewrite I1.
    eexists. split; [reflexivity|].
    assert (B' : best nltb (off i) (fun k => 0 <= k < j + 1) (if nltb (off i j) (off i cj) then j else cj) Z.lt).
    { destruct (Z.eq_dec j 0) as [->|Hj0].
      - assert (cj = 0) by lia. subst cj. rewrite (irr nltb wlt_lt) by (apply HE; lia).
        split; intros k Hk; [replace k with 0 by lia; apply (irr nltb wlt_lt); apply HE; lia|intros; lia].
      - apply (best_step nltb wlt_lt Z (off i) (fun k => 0 <= k < j)); auto; try lia.
        all: try (intros k Hk; try apply HE; lia). apply HE; lia. }
    destruct (nltb (off i j) (off i cj)); cbn [fst snd]; (split; [auto|]; split; [lia|]; split; [lia|exact B']).
  - cbn [fst snd] in *. subst v. exists j. rewrite Z2Nat.id in * by lia. split; [exact E|]. split; [exact K2|]. split; [exact K4|].
    intros k Hk. apply K5; lia.
Qed.

(** row by row *)
Definition lex (a b : Z * Z) : Prop := fst a < fst b \/ (fst a = fst b /\ snd a < snd b).
Definition off2 (p : Z * Z) : num A := off (fst p) (snd p).

Lemma closest_all_spec : 1 <= N_parm C -> exists i j, closest_all C n ar = OK (off i j, i, j) /\ 0 <= i < N_parm C /\ 0 <= j < n /\
    (forall a b, 0 <= a < N_parm C -> 0 <= b < n -> nltb (off a b) (off i j) = false) /\
    (forall a b, 0 <= a < N_parm C -> 0 <= b < n -> a < i \/ (a = i /\ b < j) -> nltb (off i j) (off a b) = true).
Proof.
  intros Hp. unfold closest_all. rewrite ar_err_off by lia. cbn [rbind].
  set (seen := fun (i j : Z) (q : Z * Z) => 0 <= fst q < N_parm C /\ 0 <= snd q < n /\ (fst q < i \/ (fst q = i /\ snd q < j))).
  set (Inv := fun (i j : Z) (s : num A * Z * Z) => let '(v, a, b) := s in
     v = off a b /\ 0 <= a < N_parm C /\ 0 <= b < n /\ (seen i j (a, b) \/ (i = 0 /\ j = 0 /\ a = 0 /\ b = 0)) /\
     best nltb off2 (seen i j) (a, b) lex).
  destruct (for_from_ok (fun i => Inv i 0)
     (fun i s => for_from (Z.to_nat n) 0 (fun j '(cv, ci, cj) => let* e := ar_err C ar i j in
            OK (if nltb e cv then (e, i, j) else (cv, ci, cj))) s) (Z.to_nat (N_parm C)) 0 (off 0 0, 0, 0)) as [[[v i] j] [E K]].
  - unfold Inv. repeat split; auto; try lia; unfold seen; intros; lia.
  - intros i s Hi HI.
    destruct (for_from_ok (fun j => Inv i j) (fun j '(cv, ci, cj) => let* e := ar_err C ar i j in
            OK (if nltb e cv then (e, i, j) else (cv, ci, cj))) (Z.to_nat n) 0 s HI) as [s' [Es Is]].
    + intros j [[cv ci] cj] Hj [-> [R1 [R2 [R3 R4]]]]. rewrite ar_err_off by lia. cbn [rbind]. eexists. split; [reflexivity|].
      assert (B : best nltb off2 (seen i (j + 1)) (if nltb (off2 (i, j)) (off2 (ci, cj)) then (i, j) else (ci, cj)) lex).
      { assert (Hoff : forall q, seen i j q -> P (off2 q)) by (intros [a b] [Q1 [Q2 _]]; apply HE; auto).
        destruct R3 as [R3|[-> [-> [-> ->]]]].
        - apply (best_step nltb wlt_lt (Z * Z) off2 (seen i j)); auto.
          + intros [a b] [Q1 [Q2 Q3]]. cbn [fst snd] in *. destruct (Z.eq_dec a i), (Z.eq_dec b j); subst; auto; left; repeat split; cbn [fst snd]; try lia.
          + apply HE; cbn; lia.
          + intros [a b] [Q1 [Q2 Q3]] EQ. injection EQ; intros; subst. cbn in Q3. lia.
          + destruct R3 as [_ [_ Q]]. unfold lex. cbn [fst snd] in *. lia.
          + unfold lex. lia.
        - rewrite (irr nltb wlt_lt) by (apply HE; cbn; lia). split.
          + intros [a b] [Q1 [Q2 Q3]]. cbn [fst snd] in *. assert (a = 0) by lia. assert (b = 0) by lia. subst. apply (irr nltb wlt_lt). apply HE; cbn; lia.
          + intros [a b] [Q1 [Q2 Q3]] Q4. unfold lex in Q4. cbn [fst snd] in *. lia. }
      change (off2 (i, j)) with (off i j) in B. change (off2 (ci, cj)) with (off ci cj) in B.
      destruct (nltb (off i j) (off ci cj)); unfold Inv; (split; [auto|]; split; [lia|]; split; [lia|]; split; [|exact B]).
      * left. repeat split; cbn [fst snd]; lia.
      * left. destruct R3 as [[Q1 [Q2 Q3]]|Q]; repeat split; cbn [fst snd] in *; lia.
    + exists s'. split; [exact Es|]. destruct s' as [[v a] b]. destruct Is as [-> [R1 [R2 [R3 R4]]]]. rewrite Z2Nat.id in * by lia.
      split; [auto|]. split; [lia|]. split; [lia|]. split.
      * left. destruct R3 as [[Q1 [Q2 Q3]]|Q]; repeat split; cbn [fst snd] in *; lia.
      * destruct R4 as [B1 B2]. assert (Hs : forall q, seen (i + 1) 0 q -> seen i (0 + n) q).
        { intros [x y] [Q1 [Q2 Q3]]. repeat split; cbn [fst snd] in *; lia. }
        split; intros q Hq; auto.
  - rewrite Z2Nat.id in * by lia. destruct K as [-> [R1 [R2 [R3 [B1 B2]]]]]. exists i, j. split; [exact E|]. split; [auto|]. split; [auto|]. split.
    + intros a b Ha Hb. apply (B1 (a, b)). repeat split; cbn [fst snd]; lia.
    + intros a b Ha Hb Hq. apply (B2 (a, b)). repeat split; cbn [fst snd]; lia. exact Hq.
Qed.
End Opt.

(** a first cell below which nothing is, such as NaN, is never replaced *)
Lemma argmin_stuck : forall {A : Arith} (x : num A) arr, (forall v, nltb v x = false) -> argmin (x :: arr) (Z.of_nat (length arr) + 1) = OK 0.
Proof.
  intros A x arr Hx. unfold argmin. change (zget (x :: arr) 0) with (OK x). cbn [rbind].
  destruct (for_from_ok (fun _ (s : Z * num A) => s = (0, x))
    (fun i '(im, vm) => let* v := zget (x :: arr) i in OK (if nltb v vm then (i, v) else (im, vm)))
    (Z.to_nat (Z.of_nat (length arr) + 1 - 1)) 1 (0, x) eq_refl) as [s' [E K]].
  - intros j t Hj ->. rewrite (zget_z (x :: arr) j x) by (cbn [length]; lia). cbn [rbind]. rewrite Hx. eexists. split; reflexivity.
  - rewrite E. rewrite K. reflexivity.
Qed.
Lemma argmin_nan : forall L (arr : list b64), argmin (A := B64 L) (B754_nan :: arr) (Z.of_nat (length arr) + 1) = OK 0.
Proof. intros L arr. apply (argmin_stuck (A := B64 L)). intros [[]|[]| |[]]; reflexivity. Qed.
