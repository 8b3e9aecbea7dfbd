(** The random streams of the ranks: the generator has one cycle of 2^48 states, and the streams of two ranks differ by a sequence
    that does not depend on the seed. *)
From Coq Require Import ZArith Arith List Bool Lia Znumtheory.
From Verif Require Import Base Arith Rand Seeds SeedRuns.
Import ListNotations.
Open Scope Z_scope.

(** ** 1 + a + ... + a^(k-1) *)
Fixpoint gsum (a : Z) (k : nat) : Z := match k with O => 0 | S k => a * gsum a k + 1 end.

Lemma gsum_pow : forall a k, (a - 1) * gsum a k = a ^ Z.of_nat k - 1.
Proof.
  intros a. induction k as [|k IH]; [simpl; lia|]. cbn [gsum]. rewrite Nat2Z.inj_succ, Z.pow_succ_r by lia.
  replace ((a - 1) * (a * gsum a k + 1)) with (a * ((a - 1) * gsum a k) + (a - 1)) by ring. rewrite IH. ring.
Qed.
Lemma gsum_add : forall a j k, gsum a (j + k) = a ^ Z.of_nat j * gsum a k + gsum a j.
Proof.
  intros a. induction j as [|j IH]; intros k; [cbn [gsum Nat.add]; change (Z.of_nat 0) with 0; rewrite Z.pow_0_r; lia|].
  cbn [Nat.add gsum]. rewrite IH, Nat2Z.inj_succ, Z.pow_succ_r by lia. ring.
Qed.
Lemma gsum_double : forall a j, gsum a (j + j) = gsum a j * (1 + a ^ Z.of_nat j).
Proof. intros a j. rewrite gsum_add. ring. Qed.

(** ** Multipliers congruent to 1 modulo 4 *)
Section A.
Variable b : Z.
Let a := 1 + 4 * b.

Lemma pow_mod4 : forall j, exists c, a ^ Z.of_nat j = 1 + 4 * c.
Proof.
  induction j as [|j [c IH]]; [exists 0; reflexivity|]. rewrite Nat2Z.inj_succ, Z.pow_succ_r, IH by lia. exists (b + c + 4 * b * c). unfold a. ring.
Qed.
Lemma gsum_mod4 : forall j, exists c, gsum a j = Z.of_nat j + 4 * c.
Proof.
  induction j as [|j [c IH]]; [exists 0; reflexivity|]. cbn [gsum]. rewrite IH. exists (c + b * Z.of_nat j + 4 * b * c).
  rewrite Nat2Z.inj_succ. unfold a. ring.
Qed.

Lemma odd_coprime_pow2 : forall m o, 0 <= m -> rel_prime (2 ^ m) (1 + 2 * o).
Proof.
  intros m o Hm. apply rel_prime_sym. apply Zpow_facts.rel_prime_Zpower_r; auto.
  apply bezout_rel_prime. exists 1 (- o). ring.
Qed.

Lemma gsum_div : forall m k, (2 ^ Z.of_nat m | gsum a k) <-> (2 ^ Z.of_nat m | Z.of_nat k).
Proof.
  induction m as [|m IH]; intros k; [change (Z.of_nat 0) with 0; rewrite Z.pow_0_r; split; intros _; apply Z.divide_1_l|].
  rewrite Nat2Z.inj_succ, Z.pow_succ_r by lia.
  destruct (Nat.Even_or_Odd k) as [[j ->]|[j ->]].
  - replace (2 * j)%nat with (j + j)%nat by lia. rewrite gsum_double. destruct (pow_mod4 j) as [c E]. rewrite E.
    replace (gsum a j * (1 + (1 + 4 * c))) with (2 * (gsum a j * (1 + 2 * c))) by ring.
    replace (Z.of_nat (j + j)) with (2 * Z.of_nat j) by lia. split; intros H.
    + apply Z.mul_divide_cancel_l in H; [|lia]. apply Z.mul_divide_mono_l. apply IH.
      rewrite Z.mul_comm in H. apply Gauss in H; auto. apply odd_coprime_pow2. lia.
    + apply Z.mul_divide_cancel_l in H; [|lia]. apply Z.mul_divide_mono_l. apply Z.divide_mul_l. apply IH. auto.
  - split; intros [q Hq]; exfalso.
    + destruct (gsum_mod4 (2 * j + 1)) as [c E]. lia.
    + lia.
Qed.
End A.

(** ** The generator *)
Lemma LCG_A_mod4 : LCG_A = 1 + 4 * 6303725979.
Proof. reflexivity. Qed.
Lemma LCG_C_odd : LCG_C = 1 + 2 * 5.
Proof. reflexivity. Qed.

Lemma lcg_iter : forall k x, 0 <= x < RMOD -> Nat.iter k lcg x = (LCG_A ^ Z.of_nat k * x + LCG_C * gsum LCG_A k) mod RMOD.
Proof.
  induction k as [|k IH]; intros x Hx.
  - cbn [Nat.iter gsum]. change (Z.of_nat 0) with 0. rewrite Z.pow_0_r. replace (1 * x + LCG_C * 0) with x by ring. rewrite Z.mod_small; auto.
  - change (Nat.iter (S k) lcg x) with (lcg (Nat.iter k lcg x)). rewrite IH by auto. unfold lcg.
    rewrite Zplus_mod, Zmult_mod, Zmod_mod, <- Zmult_mod, <- Zplus_mod. f_equal. cbn [gsum]. rewrite Nat2Z.inj_succ, Z.pow_succ_r by lia. ring.
Qed.

Lemma mod_eq_divide : forall x y m, 0 < m -> (x mod m = y mod m <-> (m | x - y)).
Proof.
  intros x y m Hm. split; intros H.
  - apply Z.mod_divide; [lia|]. rewrite Zminus_mod, H, Z.sub_diag. reflexivity.
  - destruct H as [q Hq]. replace x with (y + q * m) by lia. rewrite Z.mod_add by lia. reflexivity.
Qed.

(** the generator returns to a state after k steps exactly when 2^48 divides k *)
Theorem lcg_period : forall k x, 0 <= x < RMOD -> (Nat.iter k lcg x = x <-> (RMOD | Z.of_nat k)).
Proof.
  intros k x Hx. rewrite lcg_iter by auto. rewrite <- (Z.mod_small x RMOD) at 2 by auto. rewrite mod_eq_divide by reflexivity.
  replace (LCG_A ^ Z.of_nat k * x + LCG_C * gsum LCG_A k - x) with ((LCG_A ^ Z.of_nat k - 1) * x + LCG_C * gsum LCG_A k) by ring.
  rewrite <- gsum_pow. replace ((LCG_A - 1) * gsum LCG_A k * x + LCG_C * gsum LCG_A k) with (gsum LCG_A k * (1 + 2 * (2 * 6303725979 * x + 5)))
    by (rewrite LCG_C_odd; replace (LCG_A - 1) with (2 * (2 * 6303725979)) by reflexivity; ring).
  change RMOD with (2 ^ Z.of_nat 48). rewrite <- (gsum_div 6303725979), <- LCG_A_mod4. split; intros H.
  - rewrite Z.mul_comm in H. apply Gauss in H; auto. apply odd_coprime_pow2. lia.
  - apply Z.divide_mul_l. auto.
Qed.
Lemma iter_plus : forall (f : Z -> Z) i j x, Nat.iter (i + j) f x = Nat.iter i f (Nat.iter j f x).
Proof. intros f i j x. induction i; simpl; congruence. Qed.
(** two different numbers of draws below 2^48 leave different states *)
Theorem lcg_no_repeat : forall x i j, 0 <= x < RMOD -> (i < j)%nat -> Z.of_nat j < RMOD -> Nat.iter i lcg x <> Nat.iter j lcg x.
Proof.
  intros x i j Hx Hij Hj E.
  assert (Hr : 0 <= Nat.iter i lcg x < RMOD) by (rewrite lcg_iter by auto; apply Z.mod_pos_bound; reflexivity).
  assert (E2 : Nat.iter (j - i) lcg x = x).
  { apply (draws_inj i); auto.
    - rewrite lcg_iter by auto. apply Z.mod_pos_bound. reflexivity.
    - rewrite <- !iter_draws. rewrite <- iter_plus. replace (i + (j - i))%nat with j by lia. auto. }
  apply lcg_period in E2; auto. apply Z.divide_pos_le in E2; lia.
Qed.
(** from any state every state is reached *)
Theorem lcg_all : forall x y, 0 <= x < RMOD -> 0 <= y < RMOD -> exists k, Z.of_nat k < RMOD /\ Nat.iter k lcg x = y.
Proof.
  intros x y Hx Hy.
  assert (HN : exists N, Z.of_nat N = RMOD /\ length states = N).
  { exists (Z.to_nat RMOD). split; [apply RMOD_nat|]. unfold states. generalize (Z.to_nat RMOD). intros M. rewrite map_length, seq_length. reflexivity. }
  destruct HN as [N [HN HS]].
  assert (I : incl states (map (fun k => Nat.iter k lcg x) (seq 0 N))).
  { apply NoDup_length_incl.
    - apply (NoDup_nth _ 0). rewrite map_length, seq_length. intros i j Hi Hj E.
      assert (G : forall i, (i < N)%nat -> nth i (map (fun k => Nat.iter k lcg x) (seq 0 N)) 0 = Nat.iter i lcg x).
      { intros k Hk. rewrite (nth_indep _ 0 (Nat.iter 0 lcg x)) by (rewrite map_length, seq_length; auto).
        rewrite (map_nth (fun k => Nat.iter k lcg x)). rewrite seq_nth by auto. reflexivity. }
      rewrite !G in E by auto. destruct (lt_eq_lt_dec i j) as [[L|L]|L]; auto; exfalso.
      + apply (lcg_no_repeat x i j Hx L); [lia|auto].
      + apply (lcg_no_repeat x j i Hx L); [lia|auto].
    - rewrite map_length, seq_length, HS. apply le_n.
    - intros z Hz. apply in_map_iff in Hz. destruct Hz as [k [<- _]]. rewrite in_states. rewrite lcg_iter by auto. apply Z.mod_pos_bound. reflexivity. }
  assert (Hin : In y states) by (rewrite in_states; auto). apply I in Hin. apply in_map_iff in Hin. destruct Hin as [k [E Hk]].
  apply in_seq in Hk. exists k. split; [lia|auto].
Qed.

(** ** The streams of two ranks *)
(** position of a rank in the sequence of seeds: 1, ..., n-1 for the slaves, n for root *)
Definition place (n r : nat) : Z := if Nat.eqb r 0 then Z.of_nat n else Z.of_nat r.
(** the generator of rank r after k draws *)
Definition stream (base : Z) (n r k : nat) : Z := Nat.iter k lcg (srand48 (rank_seed base n r)).

Lemma rank_seed_diff : forall base n r q, (UINT_MOD | (rank_seed base n r - rank_seed base n q) - (place n r - place n q)).
Proof.
  intros. unfold rank_seed. fold (place n r) (place n q). change 4294967296 with UINT_MOD.
  rewrite (Z.mod_eq (base + place n r) UINT_MOD), (Z.mod_eq (base + place n q) UINT_MOD) by discriminate.
  exists ((base + place n q) / UINT_MOD - (base + place n r) / UINT_MOD). ring.
Qed.
Theorem stream_diff : forall base n r q k,
  (stream base n r k - stream base n q k) mod RMOD = (LCG_A ^ Z.of_nat k * 65536 * (place n r - place n q)) mod RMOD.
Proof.
  intros base n r q k. unfold stream. rewrite !lcg_iter by apply srand48_range. rewrite <- Zminus_mod.
  apply mod_eq_divide; [reflexivity|]. unfold srand48. rewrite !(Z.mod_small (rank_seed _ _ _)) by apply rank_seed_range.
  destruct (rank_seed_diff base n r q) as [z Hz].
  exists (LCG_A ^ Z.of_nat k * z). change RMOD with (65536 * UINT_MOD).
  replace (rank_seed base n r) with (rank_seed base n q + (place n r - place n q) + z * UINT_MOD) by lia. ring.
Qed.
(** the difference repeats after 2^30 draws *)
Lemma pow_2_30 : forall j, exists c, LCG_A ^ (2 ^ Z.of_nat j) = 1 + 2 ^ (Z.of_nat j + 2) * c.
Proof.
  induction j as [|j [c IH]]; [exists 6303725979; reflexivity|].
  rewrite Nat2Z.inj_succ, Z.pow_succ_r, Z.mul_comm, Z.pow_mul_r, IH, Z.pow_2_r by lia.
  replace (Z.succ (Z.of_nat j) + 2) with (Z.succ (Z.of_nat j + 2)) by lia. rewrite Z.pow_succ_r by lia.
  exists (c + 2 ^ (Z.of_nat j + 1) * c * c).
  replace (2 ^ (Z.of_nat j + 2)) with (2 * 2 ^ (Z.of_nat j + 1)) by (rewrite <- Z.pow_succ_r by lia; f_equal; lia). ring.
Qed.
Theorem stream_diff_period : forall base n r q k m, Z.of_nat m = 2 ^ 30 ->
  (stream base n r (k + m) - stream base n q (k + m)) mod RMOD = (stream base n r k - stream base n q k) mod RMOD.
Proof.
  intros base n r q k m Hm. rewrite !stream_diff. apply mod_eq_divide; [reflexivity|]. rewrite Nat2Z.inj_add, Z.pow_add_r, Hm by lia.
  destruct (pow_2_30 30) as [c Hc]. change (Z.of_nat 30) with 30 in Hc. rewrite Hc. change RMOD with (65536 * 2 ^ (30 + 2)).
  exists (LCG_A ^ Z.of_nat k * c * (place n r - place n q)). ring.
Qed.

(** ** Overlap: two ranks in the same state after different numbers of draws *)

(** powers and sums modulo 2^48, by repeated squaring *)
Fixpoint pg (k : positive) : Z * Z :=
  match k with
  | xH => (LCG_A mod RMOD, 1)
  | xO j => let (p, g) := pg j in ((p * p) mod RMOD, (g * (1 + p)) mod RMOD)
  | xI j => let (p, g) := pg j in ((LCG_A * (p * p)) mod RMOD, (LCG_A * (g * (1 + p)) + 1) mod RMOD)
  end.
Lemma mod_mod_mul : forall a b, ((a mod RMOD) * (b mod RMOD)) mod RMOD = (a * b) mod RMOD.
Proof. intros. rewrite <- Zmult_mod. reflexivity. Qed.
Lemma pg_ok : forall k, pg k = (LCG_A ^ Z.pos k mod RMOD, gsum LCG_A (Pos.to_nat k) mod RMOD).
Proof.
  assert (D : forall a b, (a * (1 + b mod RMOD)) mod RMOD = (a * (1 + b)) mod RMOD).
  { intros. apply mod_eq_divide; [reflexivity|]. rewrite (Z.mod_eq b RMOD) by discriminate. exists (- a * (b / RMOD)). ring. }
  assert (M : forall a b, ((a mod RMOD) * b) mod RMOD = (a * b) mod RMOD) by (intros; apply Zmult_mod_idemp_l).
  assert (N : forall a b, (a * (b mod RMOD)) mod RMOD = (a * b) mod RMOD) by (intros; apply Zmult_mod_idemp_r).
  induction k as [k IH|k IH|]; cbn [pg].
  - rewrite IH. replace (Pos.to_nat k~1) with (S (Pos.to_nat k + Pos.to_nat k)) by lia. cbn [gsum]. rewrite gsum_double, positive_nat_Z.
    f_equal.
    + rewrite <- Zmult_mod_idemp_r, mod_mod_mul, Zmult_mod_idemp_r. replace (Z.pos k~1) with (Z.pos k + Z.pos k + 1) by lia. rewrite !Z.pow_add_r, Z.pow_1_r by lia. f_equal. ring.
    + rewrite <- Zplus_mod_idemp_l, <- Zmult_mod_idemp_r, D, M, Zmult_mod_idemp_r, Zplus_mod_idemp_l. reflexivity.
  - rewrite IH. replace (Pos.to_nat k~0) with (Pos.to_nat k + Pos.to_nat k)%nat by lia. rewrite gsum_double, positive_nat_Z. f_equal.
    + rewrite mod_mod_mul. replace (Z.pos k~0) with (Z.pos k + Z.pos k) by lia. rewrite Z.pow_add_r by lia. reflexivity.
    + rewrite D, M. reflexivity.
  - reflexivity.
Qed.
Lemma iter_pg : forall k x, 0 <= x < RMOD -> Nat.iter (Pos.to_nat k) lcg x = (fst (pg k) * x + LCG_C * snd (pg k)) mod RMOD.
Proof.
  intros k x Hx. rewrite lcg_iter, pg_ok, positive_nat_Z by auto. cbn [fst snd].
  rewrite (Zplus_mod (_ * x)), (Zplus_mod (_ mod _ * x)), Zmult_mod_idemp_l, Zmult_mod_idemp_r. reflexivity.
Qed.

(** after 2^16 draws *)
Lemma pow_m16 : exists c, LCG_A ^ 65536 = 1 + 2 ^ 18 * c.
Proof. destruct (pow_2_30 16) as [c H]. exists c. exact H. Qed.
Lemma pg_nat : forall p m, Z.of_nat m = Z.pos p -> snd (pg p) = gsum LCG_A m mod RMOD.
Proof. intros p m H. rewrite pg_ok. cbn [snd]. f_equal. f_equal. lia. Qed.
Section M16.
Variable m16 : nat.
Hypothesis m16_Z : Z.of_nat m16 = 65536.
(** h1 = 153803 is the sum of the first 2^16 powers divided by 2^16, modulo 2^18 *)
Lemma gsum_m16 : exists c, gsum LCG_A m16 = 65536 * (153803 + 2 ^ 18 * c).
Proof.
  pose proof (pg_nat 65536 m16 m16_Z) as H.
  assert (V : exists c, snd (pg 65536) = 65536 * (153803 + 2 ^ 18 * c)).
  { exists (snd (pg 65536) / 65536 / 2 ^ 18). vm_compute. reflexivity. }
  revert H V. generalize (gsum LCG_A m16) (snd (pg 65536)). intros G v H [c V]. exists (c + 2 ^ 14 * (G / RMOD)).
  pose proof (Z.div_mod G RMOD ltac:(discriminate)) as E. rewrite <- H, V in E. rewrite E at 1. change RMOD with (65536 * (2 ^ 18 * 2 ^ 14)). ring.
Qed.
Lemma gsum_mult : forall o, exists c, gsum LCG_A (o * m16) = 65536 * (Z.of_nat o * 153803 + 2 ^ 18 * c).
Proof.
  destruct pow_m16 as [p Hp]. destruct gsum_m16 as [h Hh]. induction o as [|o [c IH]].
  - exists 0. reflexivity.
  - change (S o * m16)%nat with (m16 + o * m16)%nat. rewrite gsum_add, m16_Z, Hp, IH, Hh, Nat2Z.inj_succ.
    exists (c + h + p * (Z.of_nat o * 153803 + 2 ^ 18 * c)). unfold Z.succ. ring.
Qed.

End M16.

Section Overlap.
Variables (base : Z) (n r q : nat).
Notation x := (srand48 (rank_seed base n r)).
Notation x' := (srand48 (rank_seed base n q)).

(** If rank r is after k draws where rank q starts, k is 2^16 times o with o = 172369 (place q - place r) modulo 2^18. *)
Lemma reach_offset : forall k, Nat.iter k lcg x = x' -> exists o, Z.of_nat k = 65536 * Z.of_nat o /\ (2 ^ 18 | Z.of_nat o - 172369 * (place n q - place n r)).
Proof.
  intros k H. pose proof (srand48_range (rank_seed base n r)) as Rx. pose proof (srand48_range (rank_seed base n q)) as Rx'.
  rewrite lcg_iter in H by auto. rewrite <- (Z.mod_small x' RMOD) in H by auto. apply mod_eq_divide in H; [|reflexivity].
  destruct (rank_seed_diff base n q r) as [z Hz]. set (d := place n q - place n r) in *.
  assert (E' : x' = x + 65536 * d + RMOD * z).
  { unfold srand48. rewrite !(Z.mod_small (rank_seed _ _ _)) by apply rank_seed_range. change RMOD with (65536 * UINT_MOD). lia. }
  set (s := rank_seed base n r) in *.
  assert (Hy : (LCG_A - 1) * srand48 s + LCG_C = 7667 + 2 ^ 18 * (6303725979 * s + 1257167031)).
  { unfold srand48. rewrite (Z.mod_small s) by apply rank_seed_range. unfold LCG_A, LCG_C. lia. }
  assert (H2 : (RMOD | gsum LCG_A k * ((LCG_A - 1) * srand48 s + LCG_C) - 65536 * d)).
  { destruct H as [w Hw]. exists (w + z). rewrite E' in Hw. pose proof (gsum_pow LCG_A k) as G.
    assert (P : LCG_A ^ Z.of_nat k = 1 + (LCG_A - 1) * gsum LCG_A k) by lia. rewrite P in Hw.
    replace ((w + z) * RMOD) with (w * RMOD + RMOD * z) by ring. rewrite <- Hw. ring. }
  assert (K16 : (65536 | gsum LCG_A k)).
  { assert (W : (2 ^ 16 | (1 + 2 * (3833 + 2 ^ 17 * (6303725979 * s + 1257167031))) * gsum LCG_A k)).
    { destruct H2 as [w Hw]. exists (w * 2 ^ 32 + d). rewrite Hy in Hw. change RMOD with (65536 * 2 ^ 32) in Hw.
      replace ((w * 2 ^ 32 + d) * 2 ^ 16) with (w * (65536 * 2 ^ 32) + 65536 * d) by ring. rewrite <- Hw. ring. }
    apply Gauss in W; auto. apply odd_coprime_pow2. lia. }
  assert (Kk : (2 ^ Z.of_nat 16 | Z.of_nat k)) by (rewrite <- (gsum_div 6303725979), <- LCG_A_mod4; exact K16).
  destruct Kk as [o Ho]. change (2 ^ Z.of_nat 16) with 65536 in Ho. exists (Z.to_nat o).
  assert (M16 : exists m16, Z.of_nat m16 = 65536) by (exists (Z.to_nat 65536); apply Z2Nat.id; lia). destruct M16 as [m16 m16_Z].
  assert (Hk : k = (Z.to_nat o * m16)%nat) by (apply Nat2Z.inj; rewrite Nat2Z.inj_mul, m16_Z; lia).
  split; [lia|]. destruct (gsum_mult m16 m16_Z (Z.to_nat o)) as [c Hc]. rewrite <- Hk in Hc. rewrite Z2Nat.id in * by lia.
  destruct H2 as [w Hw]. rewrite Hc, Hy in Hw. change RMOD with (65536 * 2 ^ 32) in Hw.
  set (t := 6303725979 * s + 1257167031) in *.
  assert (F : (o * 153803 + 2 ^ 18 * c) * (7667 + 2 ^ 18 * t) - d = w * 2 ^ 32) by nia.
  assert (V : 172369 * (153803 * 7667) = 1 + 2 ^ 18 * 775370922) by (vm_compute; reflexivity).
  exists (172369 * w * 2 ^ 14 - o * 775370922 - 172369 * (153803 * o * t + 7667 * c + 2 ^ 18 * c * t)).
  assert (F2 : 172369 * d = 172369 * ((o * 153803 + 2 ^ 18 * c) * (7667 + 2 ^ 18 * t)) - 172369 * (w * 2 ^ 32)) by (rewrite <- F; ring).
  rewrite F2. change (2 ^ 32) with (2 ^ 14 * 2 ^ 18).
  replace (172369 * ((o * 153803 + 2 ^ 18 * c) * (7667 + 2 ^ 18 * t))) with
    (o * (172369 * (153803 * 7667)) + 2 ^ 18 * (172369 * (153803 * o * t + 7667 * c + 2 ^ 18 * c * t))) by ring.
  rewrite V. ring.
Qed.
End Overlap.

Lemma iter_range : forall k x, 0 <= x < RMOD -> 0 <= Nat.iter k lcg x < RMOD.
Proof. intros k x H. rewrite lcg_iter by auto. apply Z.mod_pos_bound. reflexivity. Qed.

Theorem overlap_offset : forall base n r q i j, stream base n r i = stream base n q j -> (j <= i)%nat ->
  exists o, Z.of_nat i - Z.of_nat j = 65536 * o /\ 0 <= o /\ (2 ^ 18 | o - 172369 * (place n q - place n r)).
Proof.
  intros base n r q i j H L. unfold stream in H.
  assert (E : Nat.iter (i - j) lcg (srand48 (rank_seed base n r)) = srand48 (rank_seed base n q)).
  { apply (draws_inj j); [apply iter_range; apply srand48_range|apply srand48_range|].
    rewrite <- !iter_draws, <- iter_plus. replace (j + (i - j))%nat with i by lia. exact H. }
  destruct (reach_offset base n r q _ E) as [o [H1 H2]]. exists (Z.of_nat o). split; [lia|]. split; [lia|exact H2].
Qed.

(** differences of up to 72 places need 3578 * 2^16 = 234487808 draws *)
Lemma offsets_checked : forall d, -72 <= d <= 72 -> d <> 0 -> 3578 <= (172369 * d) mod 2 ^ 18.
Proof.
  assert (V : forallb (fun k => let d := Z.of_nat k - 72 in (d =? 0) || (3578 <=? (172369 * d) mod 2 ^ 18)) (seq 0 145) = true) by (vm_compute; reflexivity).
  intros d Hd Hn. rewrite forallb_forall in V. specialize (V (Z.to_nat (d + 72))).
  assert (I : In (Z.to_nat (d + 72)) (seq 0 145)) by (apply in_seq; lia). apply V in I. rewrite Z2Nat.id in I by lia.
  replace (d + 72 - 72) with d in I by ring. cbv zeta in I. destruct (Z.eqb_spec d 0); [contradiction|]. cbn [orb] in I. apply Z.leb_le in I. exact I.
Qed.
Lemma place_diff : forall n r q, (r < n)%nat -> (q < n)%nat -> r <> q -> - (Z.of_nat n - 1) <= place n q - place n r <= Z.of_nat n - 1 /\ place n q - place n r <> 0.
Proof. intros n r q Hr Hq H. unfold place. destruct (Nat.eqb_spec r 0), (Nat.eqb_spec q 0); lia. Qed.
Lemma far : forall base n r q i j, (n <= 73)%nat -> (r < n)%nat -> (q < n)%nat -> r <> q -> (j <= i)%nat ->
  stream base n r i = stream base n q j -> 234487808 <= Z.of_nat i - Z.of_nat j.
Proof.
  intros base n r q i j Hn Hr Hq Hne L H. destruct (overlap_offset base n r q i j H L) as [o [E [Ho [w Hw]]]].
  destruct (place_diff n r q Hr Hq Hne) as [B N0]. set (d := place n q - place n r) in *.
  assert (K := offsets_checked d ltac:(lia) N0).
  assert (EM : (172369 * d) mod 2 ^ 18 = o mod 2 ^ 18). { apply mod_eq_divide; [reflexivity|]. exists (- w). lia. }
  rewrite EM in K. pose proof (Z.mod_le o (2 ^ 18) Ho eq_refl). lia.
Qed.
Theorem no_overlap : forall base n r q i j, (n <= 73)%nat -> (r < n)%nat -> (q < n)%nat -> r <> q ->
  Z.of_nat i < 234487808 -> Z.of_nat j < 234487808 -> stream base n r i <> stream base n q j.
Proof.
  intros base n r q i j Hn Hr Hq Hne Hi Hj H. destruct (Nat.le_gt_cases j i) as [L|L].
  - pose proof (far base n r q i j Hn Hr Hq Hne L H). lia.
  - pose proof (far base n q r j i Hn Hq Hr (not_eq_sym Hne) ltac:(lia) (eq_sym H)). lia.
Qed.
(** 74 ranks and the seed 11987: after 1638400 draws rank 1 repeats the stream of root *)
Lemma iter_pgZ : forall p k x, Z.of_nat k = Z.pos p -> 0 <= x < RMOD -> Nat.iter k lcg x = (fst (pg p) * x + LCG_C * snd (pg p)) mod RMOD.
Proof. intros p k x H Hx. replace k with (Pos.to_nat p) by lia. apply iter_pg. exact Hx. Qed.
Theorem overlap_74 : forall k m, Z.of_nat k = 1638400 -> stream 11987 74 1 (m + k) = stream 11987 74 0 m.
Proof.
  intros k m Hk. unfold stream. rewrite iter_plus.
  assert (E : Nat.iter k lcg (srand48 (rank_seed 11987 74 1)) = srand48 (rank_seed 11987 74 0)).
  { rewrite (iter_pgZ 1638400 k _ Hk) by apply srand48_range. vm_compute. reflexivity. }
  rewrite E. reflexivity.
Qed.
