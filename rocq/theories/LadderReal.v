(** Adaptation of the ladder over the reals extended by NaN. *)
From Coq Require Import ZArith Reals Lra Lia List Bool Psatz.
From Verif Require Import Base Arith Mh Ladder ListAux SeqWf SeqTotal.
Import ListNotations.
Open Scope R_scope.

(** ** Exact reals with NaN
    [None] is NaN: comparisons with it are false and every operation on it gives it.
    A division by zero gives [None]; for 0/0 that is what C does, and the divisions of
    [tune_ladder] that can have a zero divisor under the hypotheses below are of this kind
    (a pair of chains without any swap proposal). *)
Definition o1 (f : R -> R) (x : option R) : option R := match x with Some a => Some (f a) | None => None end.
Definition o2 (f : R -> R -> R) (x y : option R) : option R :=
  match x, y with Some a, Some b => Some (f a b) | _, _ => None end.
Definition ob (f : R -> R -> bool) (x y : option R) : bool :=
  match x, y with Some a, Some b => f a b | _, _ => false end.

Definition NArith : Arith := {|
  num := option R;
  nof := fun z => Some (IZR z);
  nadd := o2 Rplus; nsub := o2 Rminus; nmul := o2 Rmult;
  ndiv := fun x y => match x, y with Some a, Some b => if Reqb b 0 then None else Some (a / b) | _, _ => None end;
  nopp := o1 Ropp; nabs := o1 Rabs;
  nltb := ob Rltb; neqb := ob Reqb;
  nsqrt := fun x => match x with Some a => if Rltb a 0 then None else Some (sqrt a) | None => None end;
  nexp := o1 exp;
  nlog := fun x => match x with Some a => if Rltb 0 a then Some (ln a) else None | None => None end;
  ncos := o1 cos; nsin := o1 sin;
  npow := fun x y => match x, y with Some a, Some b => if Rltb 0 a then Some (Rpower a b) else None | _, _ => None end;
  nfloor := o1 (fun x => IZR (Rfloor x));
  nround := o1 (fun x => IZR (Rround_away x));
  ntrunc := fun x => match x with Some a => Some (Rtrunc a) | None => None end
|}.
Local Notation N := NArith.
Local Notation num := (option R).

(** a positive number *)
Definition pos (x : num) : Prop := exists r, x = Some r /\ 0 < r.
(** a swap rate: NaN or in [0, 1] *)
Definition rate (x : num) : Prop := match x with Some r => 0 <= r <= 1 | None => True end.

Lemma Reqb_false : forall x y, x <> y -> Reqb x y = false.
Proof. intros x y H. destruct (Reqb x y) eqn:E; auto. apply Reqb_true in E. contradiction. Qed.
Lemma Reqb_cases : forall x y, (Reqb x y = true /\ x = y) \/ (Reqb x y = false /\ x <> y).
Proof. intros. unfold Reqb. destruct (Req_EM_T x y); auto. Qed.
Lemma Rltb_cases : forall x y, (Rltb x y = true /\ x < y) \/ (Rltb x y = false /\ y <= x).
Proof. intros. unfold Rltb. destruct (Rlt_dec x y); [left|right]; split; auto. lra. Qed.

Lemma ndiv_some : forall a b, b <> 0 -> ndiv (a := N) (Some a) (Some b) = Some (a / b).
Proof. intros. cbn. rewrite Reqb_false; auto. Qed.
Lemma nlit_some : forall m e, (0 <= e)%Z -> nlit (A := N) m e = Some (IZR m / IZR (10 ^ e)).
Proof.
  intros. unfold nlit. change (nof (a := N) m) with (Some (IZR m)). change (nof (a := N) (10 ^ e)) with (Some (IZR (10 ^ e))).
  apply ndiv_some. apply (not_0_IZR). pose proof (Z.pow_pos_nonneg 10 e). lia.
Qed.
Lemma nlit_1_2 : nlit (A := N) 1 2 = Some (/ 100).
Proof. rewrite nlit_some by lia. f_equal. replace (10 ^ 2)%Z with 100%Z by reflexivity. lra. Qed.
Lemma nlit_5_1 : nlit (A := N) 5 1 = Some (/ 2).
Proof. rewrite nlit_some by lia. f_equal. replace (10 ^ 1)%Z with 10%Z by reflexivity. lra. Qed.
Lemma nnan_some : forall x, nnan (A := N) (Some x) = false.
Proof. intros. unfold nnan. cbn. rewrite Reqb_refl. reflexivity. Qed.
Lemma nfmax_some : forall x y, nfmax (A := N) (Some x) (Some y) = Some (Rmax x y).
Proof.
  intros. unfold nfmax. rewrite !nnan_some. cbn. unfold Rmax.
  destruct (Rltb_cases x y) as [[-> H]|[-> H]]; destruct (Rle_dec x y); auto; f_equal; lra.
Qed.
Lemma nfmin_some : forall x y, nfmin (A := N) (Some x) (Some y) = Some (Rmin x y).
Proof.
  intros. unfold nfmin. rewrite !nnan_some. cbn. unfold Rmin.
  destruct (Rltb_cases y x) as [[-> H]|[-> H]]; destruct (Rle_dec x y); auto; f_equal; lra.
Qed.

(** ** Lists of numbers as functions *)
Definition vals (l : list num) (f : nat -> R) : Prop := forall k, (k < length l)%nat -> nth k l None = Some (f k).
Definition upd (f : nat -> R) (i : nat) (v : R) : nat -> R := fun k => if Nat.eqb k i then v else f k.

Lemma upd_eq : forall f i v, upd f i v i = v.
Proof. intros. unfold upd. rewrite Nat.eqb_refl. reflexivity. Qed.
Lemma upd_ne : forall f i v k, k <> i -> upd f i v k = f k.
Proof. intros. unfold upd. destruct (Nat.eqb_spec k i); congruence. Qed.

Lemma vals_lset : forall l f i v, vals l f -> vals (lset l i (Some v)) (upd f i v).
Proof.
  intros l f i v H k Hk. rewrite lset_length in Hk. unfold upd. destruct (Nat.eqb_spec k i) as [->|Hne].
  - apply nth_lset_eq; auto.
  - rewrite nth_lset_ne by auto. auto.
Qed.
Lemma vals_get : forall l f k, vals l f -> (k < length l)%nat -> zget l (Z.of_nat k) = OK (Some (f k)).
Proof.
  intros l f k H Hk. apply zget_nth. rewrite (nth_error_nth' l None Hk). rewrite H; auto.
Qed.
Lemma vals_set : forall l f k v, vals l f -> (k < length l)%nat ->
  exists l', zset l (Z.of_nat k) (Some v) = OK l' /\ length l' = length l /\ vals l' (upd f k v).
Proof.
  intros l f k v H Hk. rewrite zset_ok by lia. rewrite Nat2Z.id. eexists. split; [reflexivity|].
  split; [apply lset_length|apply vals_lset; auto].
Qed.

(** a loop that appends *)
Lemma collect : forall (g : Z -> res num) (f : nat -> num) m,
  (forall k, (k < m)%nat -> g (Z.of_nat k) = OK (f k)) ->
  for_from m 0 (fun i T => let* b := g i in OK (T ++ [b])) [] = OK (map f (seq 0 m)).
Proof.
  intros g f m Hg.
  assert (K : forall c a l, (a + c <= m)%nat -> for_from c (Z.of_nat a) (fun i T => let* b := g i in OK (T ++ [b])) l
     = OK (l ++ map f (seq a c))).
  { induction c as [|c IH]; intros a l Hc; cbn [for_from seq map].
    - rewrite app_nil_r. reflexivity.
    - rewrite Hg by lia. cbn [rbind]. replace (Z.of_nat a + 1)%Z with (Z.of_nat (S a)) by lia. rewrite IH by lia.
      rewrite <- app_assoc. reflexivity. }
  apply (K m 0%nat []). lia.
Qed.

Section Tune.
Variables (sc zs : R) (m : nat).
Variable b : nat -> R.                       (* the betas at the start *)
Variable a : nat -> num.                     (* the swap rates *)
Hypothesis Hb : forall k, (k < m)%nat -> 0 < b k.

(** the new temperature of rank i before the edges are treated *)
Definition geomT (t : nat -> R) (i : nat) : R :=
  t (i - 1)%nat / Rpower ((1 / b (i - 1)) / (1 / b (i + 1))) (/ 2).
Definition incT (t : nat -> R) (i : nat) (d : R) : R :=
  let diff := 1 / b (i - 1)%nat - 1 / b i in
  Rmin (t i + (if Reqb d 1 then diff * (1 - zs) else diff * d * sc)) (1 / b (i - 1)%nat * (1 - / 100)).
Definition decT (t : nat -> R) (i : nat) (d : R) : R :=
  let diff := 1 / b i - 1 / b (i + 1)%nat in
  Rmax (t i - (if Reqb d (-1) then diff * (1 - zs) else diff * - d * sc)) (1 / b (i + 1)%nat * (1 + / 100)).
Definition newT (t : nat -> R) (i : nat) : R :=
  match a (i - 1)%nat, a i with
  | Some x, Some y =>
      if Rltb 0 (x + y) then
        let d := (y - x) / (y + x) in
        if Rltb 0 d then incT t i d else if Reqb d 0 then geomT t i else decT t i d
      else geomT t i
  | _, _ => geomT t i
  end.
Definition low (x : num) : bool := match x with Some r => Rltb r (/ 100) | None => false end.
Definition edge0 (t : nat -> R) : nat -> R := if low (a 0%nat) then upd t 1 (t 0%nat - (t 0%nat - t 2%nat) * zs) else t.
Definition edge1 (t : nat -> R) : nat -> R :=
  if low (a (m - 2)%nat) then upd t (m - 2) (t (m - 3)%nat - (t (m - 3)%nat - t (m - 1)%nat) * (1 - zs)) else t.
Definition bodyT (i : nat) (t : nat -> R) : nat -> R := edge1 (edge0 (upd t i (newT t i))).

(** the temperatures before turn i of the loop *)
Fixpoint temps (i : nat) : nat -> R :=
  match i with O => fun k => 1 / b k | S i' => bodyT (S i') (temps i') end.
(** the betas written at the end *)
Definition tuned : nat -> R := fun k => if (1 <=? k)%nat && (k <=? m - 2)%nat then 1 / temps (m - 2) k else b k.

Variables (beta ar : list num).
Hypothesis Lb : length beta = m.
Hypothesis Vb : vals beta b.
Hypothesis La : length ar = (m - 1)%nat.
Hypothesis Va : forall k, (k < m - 1)%nat -> nth k ar None = a k.

Lemma ar_get : forall k, (k < m - 1)%nat -> zget ar (Z.of_nat k) = OK (a k).
Proof. intros k Hk. apply zget_nth. rewrite (nth_error_nth' ar None) by lia. rewrite Va; auto. Qed.

Lemma inv_ne : forall k, (k < m)%nat -> 1 / b k <> 0.
Proof. intros k Hk. pose proof (Hb k Hk). assert (0 < 1 / b k); [|lra]. apply Rdiv_lt_0_compat; lra. Qed.

Lemma one_div : forall k, (k < m)%nat -> ndiv (a := N) one (Some (b k)) = Some (1 / b k).
Proof. intros k Hk. apply (ndiv_some 1). pose proof (Hb k Hk). lra. Qed.

Lemma geom_val : forall T t i, length T = m -> vals T t -> (1 <= i < m - 1)%nat ->
  exists T' : list num, ladder_geom (A := N) (Z.of_nat i) beta T = OK T' /\ length T' = m /\ vals T' (upd t i (geomT t i)).
Proof.
  intros T t i LT VT Hi. unfold ladder_geom.
  replace (Z.of_nat i - 1)%Z with (Z.of_nat (i - 1)) by lia. replace (Z.of_nat i + 1)%Z with (Z.of_nat (i + 1)) by lia.
  rewrite !(vals_get beta b) by (auto; lia). cbn [rbind]. rewrite (vals_get T t) by (auto; lia). cbn [rbind].
  rewrite !one_div by lia. rewrite ndiv_some by (apply inv_ne; lia). rewrite nlit_5_1.
  assert (P : 0 < 1 / b (i - 1)%nat / (1 / b (i + 1)%nat)).
  { pose proof (Hb (i - 1)%nat ltac:(lia)). pose proof (Hb (i + 1)%nat ltac:(lia)).
    apply Rdiv_lt_0_compat; apply Rdiv_lt_0_compat; lra. }
  change (npow (a := N) (Some ?x) (Some ?y)) with (if Rltb 0 x then Some (Rpower x y) else None).
  rewrite (proj2 (Rltb_true _ _) P). rewrite ndiv_some by (unfold Rpower; pose proof (exp_pos (/ 2 * ln (1 / b (i - 1)%nat / (1 / b (i + 1)%nat)))); lra).
  destruct (vals_set T t i (geomT t i) VT) as [T' [E [L V]]]; [lia|]. exists T'. split; [exact E|split; [etransitivity; [exact L|assumption]|exact V]].
Qed.

Lemma body_val : forall T t i, length T = m -> vals T t -> (1 <= i < m - 1)%nat ->
  exists T' : list num, ladder_body (A := N) (Some sc) (Some zs) (Z.of_nat m) beta ar (Z.of_nat i) T = OK T' /\
    length T' = m /\ vals T' (bodyT i t).
Proof.
  intros T t i LT VT Hi. unfold ladder_body.
  replace (Z.of_nat i - 1)%Z with (Z.of_nat (i - 1)) by lia. rewrite !ar_get by lia. cbn [rbind].
  match goal with |- context [rbind (if nltb (nof 0) (nadd ?u ?v) then ?c else ?d) ?k] =>
    assert (K : exists T' : list num, (if nltb (a := N) (nof 0) (nadd (a := N) u v) then c else d) = OK T' /\ length T' = m /\ vals T' (upd t i (newT t i))) end.
  { unfold newT. destruct (a (i - 1)%nat) as [x|]; destruct (a i) as [y|];
      try (cbn [nadd nltb N o2 ob]; apply geom_val; auto; fail).
    change (nltb (a := N) (nof 0) (@nadd N (Some x) (Some y))) with (Rltb 0 (x + y)).
    destruct (Rltb_cases 0 (x + y)) as [[-> Hp]|[-> Hp]]; [|apply geom_val; auto].
    change (ndiv (a := N) (@nsub N (Some y) (Some x)) (@nadd N (Some y) (Some x)))
      with (ndiv (a := N) (Some (y - x)) (Some (y + x))).
    rewrite ndiv_some by lra. set (d := (y - x) / (y + x)).
    change (nltb (a := N) (nof 0) (Some d)) with (Rltb 0 d).
    change (neqb (a := N) (Some d) (nof 0)) with (Reqb d 0).
    change (neqb (a := N) (Some d) (nof 1)) with (Reqb d 1).
    change (neqb (a := N) (Some d) (nof (-1))) with (Reqb d (-1)).
    destruct (Rltb 0 d).
    - rewrite !(vals_get beta b) by (auto; lia). cbn [rbind]. rewrite !one_div by lia.
      rewrite (vals_get T t) by (auto; lia). cbn [rbind]. rewrite nlit_1_2.
      match goal with |- context [@nadd N (Some (t i)) ?e] =>
        replace e with (Some (if Reqb d 1 then (1 / b (i - 1)%nat - 1 / b i) * (1 - zs) else (1 / b (i - 1)%nat - 1 / b i) * d * sc))
          by (destruct (Reqb d 1); reflexivity) end.
      match goal with |- context [nfmin ?u ?v] => change v with (Some (1 / b (i - 1)%nat * (1 - / 100)));
        change u with (Some (t i + (if Reqb d 1 then (1 / b (i - 1)%nat - 1 / b i) * (1 - zs) else (1 / b (i - 1)%nat - 1 / b i) * d * sc))) end.
      rewrite nfmin_some. destruct (vals_set T t i (incT t i d) VT) as [T' [E [L V]]]; [lia|]. exists T'. split; [exact E|split; [etransitivity; [exact L|assumption]|exact V]].
    - destruct (Reqb d 0); [apply geom_val; auto|]. replace (Z.of_nat i + 1)%Z with (Z.of_nat (i + 1)) by lia.
      rewrite !(vals_get beta b) by (auto; lia). cbn [rbind]. rewrite !one_div by lia.
      rewrite (vals_get T t) by (auto; lia). cbn [rbind]. rewrite nlit_1_2.
      match goal with |- context [@nsub N (Some (t i)) ?e] =>
        replace e with (Some (if Reqb d (-1) then (1 / b i - 1 / b (i + 1)%nat) * (1 - zs) else (1 / b i - 1 / b (i + 1)%nat) * - d * sc))
          by (destruct (Reqb d (-1)); reflexivity) end.
      match goal with |- context [nfmax ?u ?v] => change v with (Some (1 / b (i + 1)%nat * (1 + / 100)));
        change u with (Some (t i - (if Reqb d (-1) then (1 / b i - 1 / b (i + 1)%nat) * (1 - zs) else (1 / b i - 1 / b (i + 1)%nat) * - d * sc))) end.
      rewrite nfmax_some. destruct (vals_set T t i (decT t i d) VT) as [T' [E [L V]]]; [lia|]. exists T'. split; [exact E|split; [etransitivity; [exact L|assumption]|exact V]]. }
  destruct K as [T1 [-> [L1 V1]]]. cbn [rbind]. unfold bodyT. set (t1 := upd t i (newT t i)) in *.
  change 0%Z with (Z.of_nat 0). rewrite ar_get by lia. cbn [rbind]. rewrite nlit_1_2.
  change (nltb (a := N) (a 0%nat) (Some (/ 100))) with (ob Rltb (a 0%nat) (Some (/ 100))).
  assert (Elow : forall x, ob Rltb x (Some (/ 100)) = low x) by (intros [x|]; reflexivity).
  rewrite Elow.
  match goal with |- context [rbind ?e ?k] => match e with (if low (a 0%nat) then _ else _) =>
    assert (K : exists T' : list (option R), e = OK T' /\ length T' = m /\ vals T' (edge0 t1)) end end.
  { unfold edge0. destruct (low (a 0%nat)); [|eauto].
    change 2%Z with (Z.of_nat 2). change 1%Z with (Z.of_nat 1).
    rewrite !(vals_get T1 t1) by (auto; lia). cbn [rbind].
    destruct (vals_set T1 t1 1 (t1 0%nat - (t1 0%nat - t1 2%nat) * zs) V1) as [T' [E [L V]]]; [lia|]. exists T'. split; [exact E|split; [etransitivity; [exact L|assumption]|exact V]]. }
  destruct K as [T2 [-> [L2 V2]]]. cbn [rbind]. set (t2 := edge0 t1) in *.
  replace (Z.of_nat m - 2)%Z with (Z.of_nat (m - 2)) by lia. rewrite ar_get by lia. cbn [rbind].
  change (nltb (a := N) (a (m - 2)%nat) (Some (/ 100))) with (ob Rltb (a (m - 2)%nat) (Some (/ 100))). rewrite Elow.
  unfold edge1. destruct (low (a (m - 2)%nat)); [|eauto].
  replace (Z.of_nat m - 3)%Z with (Z.of_nat (m - 3)) by lia. replace (Z.of_nat m - 1)%Z with (Z.of_nat (m - 1)) by lia.
  rewrite !(vals_get T2 t2) by (auto; lia). cbn [rbind].
  destruct (vals_set T2 t2 (m - 2) (t2 (m - 3)%nat - (t2 (m - 3)%nat - t2 (m - 1)%nat) * (1 - zs)) V2) as [T' [E [L V]]]; [lia|].
  exists T'. split; [exact E|split; [etransitivity; [exact L|assumption]|exact V]].
Qed.

Hypothesis Hm : (2 <= m)%nat.

Lemma loop_val : forall T, length T = m -> vals T (temps 0) ->
  exists T' : list num, for_from (Z.to_nat (Z.of_nat m - 2)) 1 (ladder_body (A := N) (Some sc) (Some zs) (Z.of_nat m) beta ar) T = OK T' /\
    length T' = m /\ vals T' (temps (m - 2)).
Proof.
  intros T LT VT.
  destruct (for_from_ok (fun i T => length T = m /\ vals T (temps (Z.to_nat (i - 1))))
    (ladder_body (A := N) (Some sc) (Some zs) (Z.of_nat m) beta ar) (Z.to_nat (Z.of_nat m - 2)) 1 T) as [T' [E [L V]]].
  - split; auto.
  - intros j T1 Hj [L1 V1].
    destruct (body_val T1 (temps (Z.to_nat (j - 1))) (Z.to_nat j) L1 V1) as [T2 [E [L2 V2]]]; [lia|].
    rewrite Z2Nat.id in E by lia. exists T2. split; auto. split; auto.
    replace (Z.to_nat (j + 1 - 1)) with (S (Z.to_nat (j - 1))) by lia. cbn [temps].
    replace (S (Z.to_nat (j - 1))) with (Z.to_nat j) by lia. exact V2.
  - exists T'. split; auto. split; auto. replace (m - 2)%nat with (Z.to_nat (1 + Z.of_nat (Z.to_nat (Z.of_nat m - 2)) - 1)) by lia. exact V.
Qed.
End Tune.

(** the swap rates computed from the counts *)
Definition rates_of (s p : nat -> R) (k : nat) : num := if Reqb (p k) 0 then None else Some (s k / p k).

(** what the adaptation computes *)
Lemma tune_ladder_val : forall sc zs m beta b nsw npr s p a, (2 <= m)%nat ->
  length beta = m -> vals beta b -> (forall k, (k < m)%nat -> 0 < b k) ->
  length nsw = m -> vals nsw s -> length npr = m -> vals npr p ->
  (forall k, (k < m - 1)%nat -> rates_of s p k = a k) ->
  (forall k, (1 <= k <= m - 2)%nat -> temps sc zs m b a (m - 2) k <> 0) ->
  exists beta' : list num, tune_ladder (A := N) (Some sc) (Some zs) (Z.of_nat m) nsw npr beta = OK beta' /\
    length beta' = m /\ vals beta' (tuned sc zs m b a).
Proof.
  intros sc zs m beta b nsw npr s p a Hm Lb Vb Hb Ls Vs Lp Vp Hra Hne. unfold tune_ladder.
  assert (ET : ladder_T (A := N) (Z.of_nat m) beta = OK (map (fun k => Some (1 / b k)) (seq 0 m))).
  { unfold ladder_T. rewrite Nat2Z.id.
    transitivity (for_from m 0 (fun i T => let* v := (let* x := zget beta i in OK (ndiv (a := N) one x)) in OK (T ++ [v])) []).
    { assert (G : forall c i l, for_from c i (fun i T => let* b := zget beta i in OK (T ++ [ndiv (a := N) one b])) l =
        for_from c i (fun i T => let* v := (let* x := zget beta i in OK (ndiv (a := N) one x)) in OK (T ++ [v])) l).
      { induction c as [|c IH]; intros i l; cbn [for_from]; auto. destruct (zget beta i); cbn [rbind]; auto. }
      apply G. }
    apply (collect _ (fun k => Some (1 / b k))). intros k Hk. rewrite (vals_get beta b) by (auto; lia). cbn [rbind].
    f_equal. apply (ndiv_some 1). pose proof (Hb k Hk). lra. }
  rewrite ET. cbn [rbind].
  assert (EA : ladder_ar (A := N) (Z.of_nat m) nsw npr = OK (map (rates_of s p) (seq 0 (m - 1)))).
  { unfold ladder_ar. replace (Z.to_nat (Z.of_nat m - 1)) with (m - 1)%nat by lia.
    transitivity (for_from (m - 1) 0 (fun i T => let* v := (let* x := zget nsw i in let* y := zget npr i in OK (ndiv (a := N) x y)) in OK (T ++ [v])) []).
    { assert (G : forall c i l, for_from c i (fun i ar => let* s := zget nsw i in let* p := zget npr i in OK (ar ++ [ndiv (a := N) s p])) l =
        for_from c i (fun i T => let* v := (let* x := zget nsw i in let* y := zget npr i in OK (ndiv (a := N) x y)) in OK (T ++ [v])) l).
      { induction c as [|c IH]; intros i l; cbn [for_from]; auto. destruct (zget nsw i); cbn [rbind]; auto.
        destruct (zget npr i); cbn [rbind]; auto. }
      apply G. }
    apply (collect _ (rates_of s p)). intros k Hk. rewrite (vals_get nsw s) by (auto; lia). cbn [rbind].
    rewrite (vals_get npr p) by (auto; lia). cbn [rbind]. reflexivity. }
  rewrite EA. cbn [rbind].
  destruct (loop_val sc zs m b a Hb beta (map (rates_of s p) (seq 0 (m - 1)))) with
    (T := map (fun k => Some (1 / b k)) (seq 0 m)) as [T [E [LT VT]]]; auto.
  { rewrite map_length, seq_length. reflexivity. }
  { intros k Hk. rewrite (map_nth2 _ _ k 0%nat) by (rewrite seq_length; lia). rewrite seq_nth by lia. apply Hra. lia. }
  { rewrite map_length, seq_length. reflexivity. }
  { intros k Hk. rewrite map_length, seq_length in Hk. rewrite (map_nth2 _ _ k 0%nat) by (rewrite seq_length; lia).
    rewrite seq_nth by lia. reflexivity. }
  rewrite E. cbn [rbind]. set (t := temps sc zs m b a (m - 2)) in *.
  destruct (for_from_ok (fun i (l : list num) => length l = m /\
      vals l (fun k => if (1 <=? k)%nat && (k <? Z.to_nat i)%nat then 1 / t k else b k))
     (fun i l => let* v := zget T i in zset l i (ndiv (a := N) one v)) (Z.to_nat (Z.of_nat m - 2)) 1 beta) as [l [El [Ll Vl]]].
  - split; auto. intros k Hk. replace ((1 <=? k)%nat && (k <? Z.to_nat 1)%nat) with false; [apply Vb; auto|].
    symmetry. apply andb_false_iff. destruct k; [left|right]; [reflexivity|apply Nat.ltb_ge; lia].
  - intros j l Hj [Ll Vl]. rewrite <- (Z2Nat.id j) by lia. rewrite (vals_get T t) by (auto; lia). cbn [rbind].
    replace (ndiv (a := N) one (Some (t (Z.to_nat j)))) with (Some (1 / t (Z.to_nat j))).
    2: { symmetry. apply (ndiv_some 1). apply Hne. lia. }
    destruct (vals_set l _ (Z.to_nat j) (1 / t (Z.to_nat j)) Vl) as [l' [E' [L' V']]]; [lia|].
    exists l'. split; auto. split; [lia|]. intros k Hk. rewrite (V' k Hk). f_equal. unfold upd.
    destruct (Nat.eqb_spec k (Z.to_nat j)) as [->|Hn].
    + replace ((1 <=? Z.to_nat j)%nat && (Z.to_nat j <? Z.to_nat (Z.of_nat (Z.to_nat j) + 1))%nat) with true; auto.
      symmetry. apply andb_true_iff. split; [apply Nat.leb_le|apply Nat.ltb_lt]; lia.
    + replace (k <? Z.to_nat (Z.of_nat (Z.to_nat j) + 1))%nat with (k <? Z.to_nat j)%nat; auto.
      destruct (Nat.ltb_spec k (Z.to_nat j)); destruct (Nat.ltb_spec k (Z.to_nat (Z.of_nat (Z.to_nat j) + 1))); auto; lia.
  - exists l. split; auto. split; auto. intros k Hk. rewrite (Vl k Hk). unfold tuned. fold t.
    replace (k <=? m - 2)%nat with (k <? Z.to_nat (1 + Z.of_nat (Z.to_nat (Z.of_nat m - 2))))%nat; auto.
    destruct (Nat.leb_spec k (m - 2)); destruct (Nat.ltb_spec k (Z.to_nat (1 + Z.of_nat (Z.to_nat (Z.of_nat m - 2))))); auto; lia.
Qed.

(** ** Positivity *)
Lemma convex_pos : forall x y z, 0 < x -> 0 < y -> 0 <= z <= 1 -> 0 < x - (x - y) * z.
Proof. intros x y z Hx Hy Hz. nra. Qed.
Lemma convex_pos' : forall x y z, 0 < x -> 0 < y -> 0 <= z <= 1 -> 0 < x - (x - y) * (1 - z).
Proof. intros x y z Hx Hy Hz. apply convex_pos; lra. Qed.
Lemma Rpower_pos : forall x y, 0 < Rpower x y.
Proof. intros. unfold Rpower. apply exp_pos. Qed.
Lemma inv_pos : forall x, 0 < x -> 0 < 1 / x.
Proof. intros. apply Rdiv_lt_0_compat; lra. Qed.

Section Pos.
Variables (sc zs : R) (m : nat) (b : nat -> R) (a : nat -> num).
Hypothesis Hsc : 0 <= sc <= 1.
Hypothesis Hzs : 0 <= zs <= 1.
Hypothesis Hb : forall k, (k < m)%nat -> 0 < b k.
Hypothesis Ha : forall k, rate (a k).
Hypothesis H4 : m <> 4%nat \/ b 1%nat <= b 2%nat.

Lemma factor : forall d, 0 < d <= 1 -> forall diff, 
  exists f, 0 <= f <= 1 /\ (if Reqb d 1 then diff * (1 - zs) else diff * d * sc) = diff * f.
Proof.
  intros d Hd diff. destruct (Reqb d 1).
  - exists (1 - zs). split; [lra|reflexivity].
  - exists (d * sc). split; [nra|ring].
Qed.

Lemma devi_range : forall x y, 0 <= x <= 1 -> 0 <= y <= 1 -> 0 < x + y -> -1 <= (y - x) / (y + x) <= 1.
Proof.
  intros x y Hx Hy H. split.
  - apply Rmult_le_reg_r with (y + x); [lra|]. unfold Rdiv. rewrite Rmult_assoc, Rinv_l by lra. lra.
  - apply Rmult_le_reg_r with (y + x); [lra|]. unfold Rdiv. rewrite Rmult_assoc, Rinv_l by lra. lra.
Qed.

Lemma newT_pos : forall t i, (1 <= i <= m - 2)%nat -> (forall k, (k < m)%nat -> 0 < t k) ->
  (t i = 1 / b i \/ (i = m - 2 /\ low (a (m - 2)%nat) = true /\ 2 <= i)%nat) ->
  0 < newT sc zs b a t i \/ (i = m - 2 /\ low (a (m - 2)%nat) = true /\ 5 <= m)%nat.
Proof.
  intros t i Hi Ht Hti.
  assert (HG : 0 < geomT b t i).
  { unfold geomT. apply Rdiv_lt_0_compat; [apply Ht; lia|apply Rpower_pos]. }
  unfold newT. destruct (a (i - 1)%nat) as [x|] eqn:Ex; [|auto]. destruct (a i) as [y|] eqn:Ey; [|auto].
  pose proof (Ha (i - 1)%nat) as Rx. pose proof (Ha i) as Ry. rewrite Ex in Rx. rewrite Ey in Ry. cbn [rate] in Rx, Ry.
  destruct (Rltb_cases 0 (x + y)) as [[-> Hp]|[-> Hp]]; [|auto].
  pose proof (devi_range x y Rx Ry Hp) as Hd. set (d := (y - x) / (y + x)) in *.
  pose proof (inv_pos _ (Hb (i - 1)%nat ltac:(lia))) as P1. pose proof (inv_pos _ (Hb i ltac:(lia))) as P2.
  pose proof (inv_pos _ (Hb (i + 1)%nat ltac:(lia))) as P3.
  destruct (Rltb_cases 0 d) as [[-> Hd0]|[-> Hd0]].
  - unfold incT. destruct (factor d ltac:(lra) (1 / b (i - 1)%nat - 1 / b i)) as [f [Hf ->]].
    destruct Hti as [Et|[E1 [E2 E3]]].
    + left. apply Rmin_glb_lt; [|lra]. rewrite Et. nra.
    + destruct (Nat.eq_dec m 4) as [Em|Em]; [|right; repeat split; auto; lia]. left. destruct H4 as [|Hbb]; [contradiction|].
      apply Rmin_glb_lt; [|lra]. pose proof (Ht i ltac:(lia)) as P4.
      assert (1 / b i <= 1 / b (i - 1)%nat).
      { replace i with 2%nat by lia. cbn [Nat.sub]. unfold Rdiv. rewrite !Rmult_1_l. apply Rinv_le_contravar; [|lra].
        apply Hb. lia. }
      nra.
  - destruct (Reqb d 0); [auto|]. left. unfold decT. eapply Rlt_le_trans; [|apply Rmax_r]. lra.
Qed.

Lemma temps_pos : forall i, (i <= m - 2)%nat -> 
  (forall k, (k < m)%nat -> 0 < temps sc zs m b a i k) /\
  (forall k, (i < k < m)%nat -> temps sc zs m b a i k = 1 / b k \/ (k = m - 2 /\ low (a (m - 2)%nat) = true /\ 1 <= i)%nat).
Proof.
  induction i as [|i IH]; intros Hi.
  - cbn [temps]. split; [intros k Hk; apply inv_pos; auto|]. auto.
  - destruct IH as [I1 I2]; [lia|]. cbn [temps]. set (t := temps sc zs m b a i) in *.
    assert (Hti : t (S i) = 1 / b (S i) \/ (S i = m - 2 /\ low (a (m - 2)%nat) = true /\ 2 <= S i)%nat).
    { destruct (I2 (S i) ltac:(lia)) as [?|[? [? ?]]]; [auto|right; repeat split; auto; lia]. }
    pose proof (newT_pos t (S i) ltac:(lia) I1 Hti) as HN. unfold bodyT.
    set (v := newT sc zs b a t (S i)) in *. set (t1 := upd t (S i) v).
    assert (P1 : forall k, (k < m)%nat -> k <> S i \/ 0 < v -> 0 < t1 k).
    { intros k Hk Hor. unfold t1, upd. destruct (Nat.eqb_spec k (S i)); [destruct Hor; [contradiction|auto]|auto]. }
    assert (P2 : forall k, (k < m)%nat -> k <> S i \/ 0 < v -> 0 < edge0 zs a t1 k).
    { intros k Hk Hor. unfold edge0. destruct (low (a 0%nat)); [|auto]. unfold upd. destruct (Nat.eqb_spec k 1) as [->|]; [|auto].
      apply convex_pos; [| |lra].
      - apply P1; lia.
      - apply P1; [lia|]. destruct HN as [?|[? [? ?]]]; [auto|left; lia]. }
    split.
    + intros k Hk. unfold edge1. destruct (low (a (m - 2)%nat)) eqn:El.
      * unfold upd at 1. destruct (Nat.eqb_spec k (m - 2)) as [->|Hne].
        -- apply convex_pos'; [| |lra].
           ++ apply P2; [lia|]. destruct HN as [?|[? _]]; [right; auto|left; lia].
           ++ apply P2; [lia|]. destruct HN as [?|[? _]]; [right; auto|left; lia].
        -- apply P2; auto. destruct HN as [?|[? _]]; [auto|left; lia].
      * apply P2; auto. destruct HN as [?|[_ [? _]]]; [auto|discriminate].
    + intros k Hk. unfold edge1. destruct (low (a (m - 2)%nat)) eqn:El.
      * destruct (Nat.eq_dec k (m - 2)) as [->|Hne]; [right; repeat split; auto; lia|]. rewrite upd_ne by auto.
        left. unfold edge0. assert (t1 k = 1 / b k).
        { unfold t1. rewrite upd_ne by lia. destruct (I2 k ltac:(lia)) as [?|[? _]]; [auto|contradiction]. }
        destruct (low (a 0%nat)); [rewrite upd_ne by lia|]; auto.
      * left. unfold edge0. assert (t1 k = 1 / b k).
        { unfold t1. rewrite upd_ne by lia. destruct (I2 k ltac:(lia)) as [?|[_ [? _]]]; [auto|discriminate]. }
        destruct (low (a 0%nat)); [rewrite upd_ne by lia|]; auto.
Qed.

Lemma tuned_pos : forall k, (k < m)%nat -> 0 < tuned sc zs m b a k.
Proof.
  intros k Hk. unfold tuned. destruct ((1 <=? k)%nat && (k <=? m - 2)%nat) eqn:E; [|auto].
  apply inv_pos. apply temps_pos; auto.
Qed.
End Pos.

(** ** Any number of adaptations *)
(** the counts of swaps and of swap proposals that a stack can produce *)
Definition counts (m : nat) (nsw npr : list num) : Prop :=
  length nsw = m /\ length npr = m /\
  forall k, (k < m)%nat -> exists s p : Z, nth k nsw None = Some (IZR s) /\ nth k npr None = Some (IZR p) /\ (0 <= s <= p)%Z.

Inductive adapted (sc zs : R) (m : nat) : list num -> list num -> Prop :=
| adapted_refl : forall beta, adapted sc zs m beta beta
| adapted_step : forall beta nsw npr beta1 beta2, counts m nsw npr ->
    tune_ladder (A := N) (Some sc) (Some zs) (Z.of_nat m) nsw npr beta = OK beta1 ->
    adapted sc zs m beta1 beta2 -> adapted sc zs m beta beta2.

Definition val (x : num) : R := match x with Some r => r | None => 0 end.

Lemma pos_vals : forall l, Forall pos l -> vals l (fun k => val (nth k l None)) /\
  forall k, (k < length l)%nat -> 0 < val (nth k l None).
Proof.
  intros l F. rewrite Forall_forall in F. split; intros k Hk; destruct (F (nth k l None) (nth_In _ _ Hk)) as [r [E Hr]];
    rewrite E; cbn [val]; auto.
Qed.
Lemma vals_pos : forall l f, vals l f -> (forall k, (k < length l)%nat -> 0 < f k) -> Forall pos l.
Proof.
  intros l f V H. apply Forall_forall. intros x Hx. destruct (In_nth l x None Hx) as [k [Hk <-]].
  exists (f k). split; [apply V; auto|auto].
Qed.

Lemma counts_vals : forall m nsw npr, counts m nsw npr ->
  vals nsw (fun k => val (nth k nsw None)) /\ vals npr (fun k => val (nth k npr None)) /\
  forall k, rate (rates_of (fun k => val (nth k nsw None)) (fun k => val (nth k npr None)) k).
Proof.
  intros m nsw npr [L1 [L2 H]]. split; [|split].
  - intros k Hk. destruct (H k ltac:(lia)) as [s [p [E _]]]. rewrite E. reflexivity.
  - intros k Hk. destruct (H k ltac:(lia)) as [s [p [_ [E _]]]]. rewrite E. reflexivity.
  - intros k. unfold rates_of. destruct (Nat.lt_ge_cases k m) as [Hk|Hk].
    + destruct (H k Hk) as [s [p [-> [-> Hsp]]]]. cbn [val].
      destruct (Reqb_cases (IZR p) 0) as [[-> _]|[-> Hne]]; [exact I|]. cbn [rate].
      assert (0 <= IZR s) by (apply (IZR_le 0); lia). assert (IZR s <= IZR p) by (apply IZR_le; lia).
      split; [unfold Rdiv; apply Rmult_le_pos; [lra|left; apply Rinv_0_lt_compat; lra]|]. apply Rmult_le_reg_r with (IZR p); [lra|].
      unfold Rdiv. rewrite Rmult_assoc, Rinv_l by lra. lra.
    + rewrite !nth_overflow by lia. cbn [val]. rewrite Reqb_refl. exact I.
Qed.

Lemma adapt_pos : forall sc zs m beta nsw npr, 0 <= sc <= 1 -> 0 <= zs <= 1 -> (2 <= m)%nat -> length beta = m ->
  Forall pos beta -> counts m nsw npr -> m <> 4%nat \/ val (nth 1 beta None) <= val (nth 2 beta None) ->
  exists beta' : list num, tune_ladder (A := N) (Some sc) (Some zs) (Z.of_nat m) nsw npr beta = OK beta' /\
    length beta' = m /\ Forall pos beta'.
Proof.
  intros sc zs m beta nsw npr Hsc Hzs Hm L F HC H4. destruct (pos_vals beta F) as [Vb Pb].
  destruct (counts_vals m nsw npr HC) as [Vs [Vp HR]]. destruct HC as [Ls [Lp _]].
  assert (Pb' : forall k, (k < m)%nat -> 0 < val (nth k beta None)) by (intros; apply Pb; lia).
  destruct (tune_ladder_val sc zs m beta _ nsw npr _ _ _ Hm L Vb Pb' Ls Vs Lp Vp (fun k _ => eq_refl)) as [beta' [E [L' V']]].
  - intros k Hk. pose proof (proj1 (temps_pos sc zs m _ _ Hsc Hzs Pb' HR H4 (m - 2)%nat (le_n _)) k ltac:(lia)). lra.
  - exists beta'. split; [exact E|]. split; [exact L'|]. eapply vals_pos; [exact V'|].
    intros k Hk. apply tuned_pos; auto. lia.
Qed.

Lemma adapted_pos : forall sc zs m beta beta', 0 <= sc <= 1 -> 0 <= zs <= 1 -> (2 <= m)%nat -> m <> 4%nat ->
  length beta = m -> Forall pos beta -> adapted sc zs m beta beta' -> length beta' = m /\ Forall pos beta'.
Proof.
  intros sc zs m beta beta' Hsc Hzs Hm H4 L F H. induction H as [|beta nsw npr beta1 beta2 HC HT H IH]; auto.
  destruct (adapt_pos sc zs m beta nsw npr) as [b' [E [L' F']]]; auto.
  assert (Eb : OK b' = OK beta1) by (rewrite <- E; exact HT). injection Eb; intros; subst. apply IH; auto.
Qed.
