(** Seeds and random streams: every rank has its own stream; the clock rule; the distribution of
    the batch-length jitter over all generator states. *)
From Coq Require Import ZArith Arith List Bool Reals Lia Lra Permutation Zquot.
From Flocq Require Import Core IEEE754.BinarySingleNaN.
From Verif Require Import Base Arith B64 Rand Mh Prog Seq B64Facts RandRange.
Import ListNotations.
Open Scope Z_scope.

(** the generator after k draws *)
Fixpoint draws (k : nat) (g : Z) : Z := match k with O => g | S k => draws k (lcg g) end.

(** inverse of the multiplier modulo 2^48 *)
Definition LCG_INV : Z := 246154705703781.
Lemma LCG_INV_ok : (LCG_INV * LCG_A) mod RMOD = 1.
Proof. reflexivity. Qed.

Definition unlcg (y : Z) : Z := (LCG_INV * (y - LCG_C)) mod RMOD.

Lemma unlcg_lcg : forall x, 0 <= x < RMOD -> unlcg (lcg x) = x.
Proof.
  intros x Hx. unfold unlcg, lcg.
  rewrite Zmult_mod, Zminus_mod, Zmod_mod, <- Zminus_mod, <- Zmult_mod.
  replace (LCG_INV * (LCG_A * x + LCG_C - LCG_C)) with (LCG_INV * LCG_A * x) by ring.
  rewrite Zmult_mod, LCG_INV_ok, Z.mul_1_l, Zmod_mod. apply Z.mod_small; auto.
Qed.

Lemma lcg_unlcg : forall y, 0 <= y < RMOD -> lcg (unlcg y) = y.
Proof.
  intros y Hy. unfold unlcg, lcg.
  rewrite Zplus_mod, Zmult_mod, Zmod_mod, <- Zmult_mod, <- Zplus_mod.
  replace (LCG_A * (LCG_INV * (y - LCG_C)) + LCG_C) with (LCG_INV * LCG_A * (y - LCG_C) + LCG_C) by ring.
  rewrite Zplus_mod, Zmult_mod, LCG_INV_ok, Z.mul_1_l, Zmod_mod, <- Zplus_mod.
  replace (y - LCG_C + LCG_C) with y by ring. apply Z.mod_small; auto.
Qed.

Lemma lcg_inj : forall x y, 0 <= x < RMOD -> 0 <= y < RMOD -> lcg x = lcg y -> x = y.
Proof. intros x y Hx Hy H. rewrite <- (unlcg_lcg x), <- (unlcg_lcg y) by auto. congruence. Qed.

Lemma draws_inj : forall k x y, 0 <= x < RMOD -> 0 <= y < RMOD -> draws k x = draws k y -> x = y.
Proof.
  induction k; intros x y Hx Hy H; simpl in H; auto.
  apply lcg_inj; auto. apply IHk; auto using lcg_range.
Qed.

Lemma srand48_range : forall s, 0 <= srand48 s < RMOD.
Proof.
  intros. unfold srand48, RMOD, UINT_MOD. pose proof (Z.mod_pos_bound s 4294967296 ltac:(lia)). lia.
Qed.
Lemma srand48_inj : forall s t, 0 <= s < UINT_MOD -> 0 <= t < UINT_MOD -> srand48 s = srand48 t -> s = t.
Proof. intros s t Hs Ht H. unfold srand48 in H. rewrite !Z.mod_small in H by auto. lia. Qed.

Section S.
Context {A : Arith}.
Variable C : Cfg A.
Variable n : nat.
Variable E : Env (A := A).

Lemma seed_of_value : forall r, (r < n)%nat ->
  seed_of C n E r = (first_seed C E + (if Nat.eqb r 0 then Z.of_nat n else Z.of_nat r)) mod UINT_MOD.
Proof. intros r Hr. unfold seed_of, is_root, root, u32, zn, zr. destruct (Nat.eqb r 0); reflexivity. Qed.

Lemma seed_of_range : forall r, 0 <= seed_of C n E r < UINT_MOD.
Proof. intros. unfold seed_of, u32. destruct (is_root r); apply Z.mod_pos_bound; reflexivity. Qed.

Theorem seeds_distinct : Z.of_nat n <= UINT_MOD -> forall r q, (r < n)%nat -> (q < n)%nat -> r <> q ->
  seed_of C n E r <> seed_of C n E q.
Proof.
  intros Hn r q Hr Hq Hne H. rewrite !seed_of_value in H by auto.
  set (f := first_seed C E) in *.
  set (a := if Nat.eqb r 0 then Z.of_nat n else Z.of_nat r) in *.
  set (b := if Nat.eqb q 0 then Z.of_nat n else Z.of_nat q) in *.
  assert (Ha : 1 <= a <= Z.of_nat n) by (unfold a; destruct (Nat.eqb_spec r 0); lia).
  assert (Hb : 1 <= b <= Z.of_nat n) by (unfold b; destruct (Nat.eqb_spec q 0); lia).
  assert (Hab : a <> b) by (unfold a, b; destruct (Nat.eqb_spec r 0), (Nat.eqb_spec q 0); lia).
  assert (D : (a - b) mod UINT_MOD = 0).
  { replace (a - b) with ((f + a) - (f + b)) by ring. rewrite Zminus_mod, H, Z.sub_diag. reflexivity. }
  apply Z.mod_divide in D; [|discriminate]. destruct D as [k Hk].
  assert (0 < UINT_MOD) by reflexivity. destruct (Z.eq_dec k 0); [subst; lia|].
  assert (Z.abs (k * UINT_MOD) >= UINT_MOD) by nia. lia.
Qed.

Theorem streams_distinct : Z.of_nat n <= UINT_MOD -> forall r q k, (r < n)%nat -> (q < n)%nat -> r <> q ->
  draws k (srand48 (seed_of C n E r)) <> draws k (srand48 (seed_of C n E q)).
Proof.
  intros Hn r q k Hr Hq Hne H. apply (seeds_distinct Hn r q Hr Hq Hne).
  apply srand48_inj; auto using seed_of_range. eapply draws_inj; eauto using srand48_range.
Qed.
End S.

(** ** Counting generator states *)
Definition states : list Z := map Z.of_nat (seq 0 (Z.to_nat RMOD)).
Definition count (f : Z -> bool) : Z := Z.of_nat (length (filter f states)).

Lemma in_upto : forall N g, In g (map Z.of_nat (seq 0 N)) <-> 0 <= g < Z.of_nat N.
Proof.
  intros N g. rewrite in_map_iff. split.
  - intros [x [<- Hx]]. apply in_seq in Hx. lia.
  - intros H. exists (Z.to_nat g). split; [lia|]. apply in_seq. lia.
Qed.
Lemma RMOD_nat : Z.of_nat (Z.to_nat RMOD) = RMOD.
Proof. apply Z2Nat.id. discriminate. Qed.
Lemma in_states : forall g, In g states <-> 0 <= g < RMOD.
Proof. intros g. unfold states. rewrite in_upto, RMOD_nat. reflexivity. Qed.
Lemma nodup_states : NoDup states.
Proof.
  unfold states. generalize (Z.to_nat RMOD). intros N.
  apply FinFun.Injective_map_NoDup; [intros x y; lia|apply seq_NoDup].
Qed.

Lemma lcg_perm : Permutation (map lcg states) states.
Proof.
  apply NoDup_Permutation.
  - apply (NoDup_map_inv unlcg). rewrite map_map.
    rewrite (map_ext_in _ (fun x => x)); [rewrite map_id; apply nodup_states|].
    intros g Hg. apply unlcg_lcg. rewrite in_states in Hg. auto.
  - apply nodup_states.
  - intros g. rewrite in_map_iff, in_states. split.
    + intros [x [<- _]]. apply lcg_range.
    + intros H. exists (unlcg g). split; [apply lcg_unlcg; auto|]. rewrite in_states. apply Z.mod_pos_bound. reflexivity.
Qed.

Lemma filter_map_len : forall (f : Z -> bool) (h : Z -> Z) l, length (filter (fun x => f (h x)) l) = length (filter f (map h l)).
Proof. intros. induction l; simpl; auto. destruct (f (h a)); simpl; auto. Qed.

Lemma filter_perm_len : forall (f : Z -> bool) l l', Permutation l l' -> length (filter f l) = length (filter f l').
Proof.
  intros f l l' H. induction H; simpl; auto; try congruence.
  - destruct (f x); simpl; auto.
  - destruct (f x), (f y); auto.
Qed.

Lemma count_lcg : forall f, count (fun g => f (lcg g)) = count f.
Proof. intros. unfold count. rewrite filter_map_len.
  rewrite (filter_perm_len f _ _ lcg_perm). reflexivity.
Qed.

Lemma count_ext : forall f h, (forall g, 0 <= g < RMOD -> f g = h g) -> count f = count h.
Proof.
  intros f h H. unfold count.
  rewrite (filter_ext_in f h states); [reflexivity|]. intros g Hg. rewrite in_states in Hg. auto.
Qed.

Lemma filter_seq_lt : forall a b s k, (s + k >= b)%nat -> (s <= a)%nat -> (a <= b)%nat ->
  length (filter (fun i => (Z.of_nat a <=? Z.of_nat i) && (Z.of_nat i <? Z.of_nat b)) (seq s k)) = (b - a)%nat.
Proof.
  intros a b s k H1 H2 H3.
  replace k with ((a - s) + ((b - a) + (s + k - b)))%nat by lia.
  rewrite !seq_app, !filter_app, !app_length.
  assert (N : forall s k (f : nat -> bool), (forall i, (s <= i < s + k)%nat -> f i = false) -> length (filter f (seq s k)) = 0%nat).
  { intros s' k' f Hf. rewrite (proj2 (length_zero_iff_nil _)); auto.
    assert (F : forall i, In i (seq s' k') -> f i = false) by (intros i Hi; apply in_seq in Hi; apply Hf; lia).
    induction (seq s' k') as [|x l IH]; simpl; auto.
    rewrite (F x (or_introl eq_refl)). apply IH. intros i Hi; apply F; right; auto. }
  assert (Y : forall s k (f : nat -> bool), (forall i, (s <= i < s + k)%nat -> f i = true) -> length (filter f (seq s k)) = k).
  { intros s' k'. revert s'. induction k'; intros s' f Hf; simpl; auto. rewrite Hf by lia. simpl. f_equal. apply IHk'. intros; apply Hf; lia. }
  rewrite (N s), (Y (s + (a - s))%nat), (N (s + (a - s) + (b - a))%nat); try lia; intros i Hi;
    destruct (Z.leb_spec (Z.of_nat a) (Z.of_nat i)), (Z.ltb_spec (Z.of_nat i) (Z.of_nat b)); simpl; auto; lia.
Qed.

Lemma count_interval : forall a b, 0 <= a <= b -> b <= RMOD ->
  count (fun g => (a <=? g) && (g <? b)) = b - a.
Proof.
  intros a b Hab Hb. unfold count, states. rewrite <- RMOD_nat in Hb. revert Hb.
  generalize (Z.to_nat RMOD). intros N Hb.
  assert (F : forall l, length (filter (fun g => (a <=? g) && (g <? b)) (map Z.of_nat l)) =
              length (filter (fun i => (Z.of_nat (Z.to_nat a) <=? Z.of_nat i) && (Z.of_nat i <? Z.of_nat (Z.to_nat b))) l)).
  { intros l. rewrite !Z2Nat.id by lia. induction l; simpl; auto.
    destruct ((a <=? Z.of_nat a0) && (Z.of_nat a0 <? b)); simpl; auto. }
  rewrite F. rewrite filter_seq_lt by lia. lia.
Qed.

(** ** The jitter on [-1, 1] *)
Definition jitter (L : Libm) (a b g : Z) : option Z :=
  match i4_unif_ab (A := B64 L) a b g with OK (v, _) => Some v | Stop _ => None end.

Lemma Znearest_away_2 : forall x, (0 <= x < RMOD) ->
  Znearest (Z.leb 0) (IZR x / IZR RMOD * IZR 2) =
  if x <? 70368744177664 then 0 else if x <? 211106232532992 then 1 else 2.
Proof.
  intros x Hx.
  assert (E : (IZR x / IZR RMOD * IZR 2 = IZR x * / IZR 140737488355328)%R).
  { replace (IZR RMOD) with (IZR 2 * IZR 140737488355328)%R by (rewrite <- mult_IZR; reflexivity).
    field. }
  rewrite E.
  assert (P : (0 < / IZR 140737488355328)%R). { apply Rinv_0_lt_compat. apply IZR_lt. reflexivity. }
  assert (Q : (IZR 140737488355328 * / IZR 140737488355328 = 1)%R). { apply Rinv_r. apply not_0_IZR; discriminate. }
  set (d := (/ IZR 140737488355328)%R) in *.
  assert (Hh : (IZR 70368744177664 * d = / 2)%R).
  { replace (IZR 140737488355328) with (2 * IZR 70368744177664)%R in Q by (rewrite <- mult_IZR; reflexivity). lra. }
  assert (H3 : (IZR 211106232532992 * d = 3 / 2)%R).
  { replace (IZR 211106232532992) with (3 * IZR 70368744177664)%R by (rewrite <- mult_IZR; reflexivity). lra. }
  assert (H4 : (IZR RMOD * d = 2)%R).
  { replace (IZR RMOD) with (2 * IZR 140737488355328)%R by (rewrite <- mult_IZR; reflexivity). lra. }
  assert (X0 : (0 <= IZR x)%R) by (apply IZR_le; lia).
  destruct (Z.ltb_spec x 70368744177664) as [H|H].
  - apply Znearest_imp. rewrite Rminus_0_r. apply Rabs_lt. apply IZR_lt in H. nra.
  - destruct (Z.ltb_spec x 211106232532992) as [H'|H'].
    + destruct (Z.eq_dec x 70368744177664) as [->|N].
      * rewrite Hh. unfold Znearest. 
        assert (F : Zfloor (/ 2) = 0). { apply Zfloor_imp. simpl. lra. }
        rewrite F. rewrite Rcompare_Eq by (simpl; lra). simpl. apply Zceil_imp. simpl. lra.
      * apply Znearest_imp. apply Rabs_lt.
        assert (H1 : (IZR 70368744177664 < IZR x)%R) by (apply IZR_lt; lia). apply IZR_lt in H'. nra.
    + destruct (Z.eq_dec x 211106232532992) as [->|N].
      * rewrite H3. unfold Znearest.
        assert (F : Zfloor (3 / 2) = 1). { apply Zfloor_imp. simpl. lra. }
        rewrite F. rewrite Rcompare_Eq by (simpl; lra). simpl. apply Zceil_imp. simpl. lra.
      * apply Znearest_imp. apply Rabs_lt.
        assert (H1 : (IZR 211106232532992 < IZR x)%R) by (apply IZR_lt; lia).
        assert (H2 : (IZR x < IZR RMOD)%R) by (apply IZR_lt; lia). nra.
Qed.

Lemma jitter_11 : forall L g, 0 <= g < RMOD -> jitter L (-1) 1 g =
  Some (if lcg g <? 70368744177664 then -1 else if lcg g <? 211106232532992 then 0 else 1).
Proof.
  intros L g Hg. pose proof (lcg_range g) as HL.
  destruct (scaled_ok L g 2) as [F [V _]]; [lia|].
  set (p := Bmult mode_NE (fst (drand48 (A := B64 L) g)) (bof 2)) in *.
  destruct (bint_ok mode_NA p F) as [F2 V2].
  assert (V' : B2R p = (IZR (lcg g) / IZR RMOD * IZR 2)%R).
  { rewrite V. apply rnd_id.
    replace (IZR (lcg g) / IZR RMOD * IZR 2)%R with (IZR (lcg g) * bpow radix2 (-47))%R.
    - apply fmt_scaled; [|lia]. rewrite Z.abs_eq by lia. unfold RMOD in HL. lia.
    - replace (bpow radix2 (-47)) with (bpow radix2 1 * bpow radix2 (-48))%R by (rewrite <- bpow_plus; reflexivity).
      rewrite bpow_m48. change (bpow radix2 1) with 2%R. field. pose proof RMOD_pos; lra. }
  rewrite V' in V2. cbn [round_mode] in V2. rewrite Znearest_away_2 in V2 by auto.
  set (k := if lcg g <? 70368744177664 then 0 else if lcg g <? 211106232532992 then 1 else 2) in *.
  assert (Hk : 0 <= k <= 2) by (unfold k; repeat match goal with |- context [if ?b then _ else _] => destruct b end; lia).
  destruct (bof_ok (-1)) as [V3 F3]; [lia|].
  assert (E : (B2R (bint mode_NA p) + B2R (bof (-1)) = IZR (k - 1))%R). { rewrite V2, V3, minus_IZR. simpl. lra. }
  assert (Fk : fmt (IZR (k - 1))) by (apply fmt_IZR; lia).
  destruct (bplus_ok (bint mode_NA p) (bof (-1))) as [V4 F4]; auto.
  { rewrite E, rnd_id by auto. rewrite <- abs_IZR, bpow_emax. apply IZR_lt.
    apply Z.le_lt_trans with (2 ^ 53)%Z; [lia|reflexivity]. }
  rewrite E, rnd_id in V4 by auto.
  unfold jitter, i4_unif_ab. rewrite (surjective_pairing (drand48 (A := B64 L) g)).
  change (i32 (1 - -1)) with (@OK Z 2). cbn [rbind]. unfold n2i. cbn [ntrunc nround nmul nadd nof B64].
  change (nof (a := B64 L) (-1)) with (bof (-1)). fold p.
  rewrite (btrunc_int _ _ F4 V4).
  replace ((INT_MIN <=? k - 1) && _) with true.
  - cbn [rbind]. f_equal. unfold k. repeat match goal with |- context [if ?b then _ else _] => destruct b end; reflexivity.
  - symmetry. apply andb_true_iff. unfold INT_MIN, INT_MAX. split; apply Z.leb_le; lia.
Qed.

Definition hits (L : Libm) (a b v g : Z) : bool :=
  match jitter L a b g with Some w => w =? v | None => false end.

Theorem jitter_counts : forall L,
  count (hits L (-1) 1 (-1)) = 70368744177664 /\
  count (hits L (-1) 1 0) = 140737488355328 /\
  count (hits L (-1) 1 1) = 70368744177664.
Proof.
  intros L.
  assert (X : forall v f, (forall x, 0 <= x < RMOD -> f x = ((if x <? 70368744177664 then -1 else if x <? 211106232532992 then 0 else 1) =? v)) ->
     count (hits L (-1) 1 v) = count f).
  { intros v f Hf. rewrite <- (count_lcg f). apply count_ext. intros g Hg. unfold hits.
    rewrite jitter_11 by auto. rewrite Hf by apply lcg_range. reflexivity. }
  split; [|split].
  - rewrite (X _ (fun g => (0 <=? g) && (g <? 70368744177664))).
    + rewrite count_interval; unfold RMOD; lia.
    + intros x Hx. destruct (Z.ltb_spec x 70368744177664); [|destruct (Z.ltb_spec x 211106232532992)];
        simpl; destruct (Z.leb_spec 0 x); try lia; auto.
  - rewrite (X _ (fun g => (70368744177664 <=? g) && (g <? 211106232532992))).
    + rewrite count_interval; unfold RMOD; lia.
    + intros x Hx. destruct (Z.ltb_spec x 70368744177664), (Z.leb_spec 70368744177664 x); try lia; auto;
        destruct (Z.ltb_spec x 211106232532992); auto; lia.
  - rewrite (X _ (fun g => (211106232532992 <=? g) && (g <? RMOD))).
    + rewrite count_interval; unfold RMOD; lia.
    + intros x Hx. destruct (Z.ltb_spec x RMOD); [|lia].
      destruct (Z.ltb_spec x 70368744177664), (Z.leb_spec 211106232532992 x); try lia; auto;
        destruct (Z.ltb_spec x 211106232532992); auto; lia.
Qed.
