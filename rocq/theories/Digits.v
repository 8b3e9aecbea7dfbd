(** Digits of PI and of ln 2. *)
From Coq Require Import Reals Lra Lia ZArith Machin.
Open Scope R_scope.
Lemma pow_IZR' : forall z n, IZR z ^ n = IZR (z ^ Z.of_nat n).
Proof. intros. rewrite pow_IZR. reflexivity. Qed.
(** one term of the sum as a fraction *)
Lemma tg_frac : forall n, PI_2_3_7_tg n = IZR (2 * 7 ^ (2 * Z.of_nat n + 1) + 3 ^ (2 * Z.of_nat n + 1)) / IZR ((2 * Z.of_nat n + 1) * 21 ^ (2 * Z.of_nat n + 1)).
Proof.
  intros n. unfold PI_2_3_7_tg, Ratan_seq. replace (2 * Z.of_nat n + 1)%Z with (Z.of_nat (2 * n + 1)) by lia. set (m := (2 * n + 1)%nat).
  change 21%Z with (7 * 3)%Z. rewrite Z.pow_mul_l, plus_IZR, !mult_IZR, <- !pow_IZR', <- INR_IZR_INZ, !pow_inv by lra.
  assert (H : INR m <> 0) by (apply not_0_INR; unfold m; lia). assert (3 ^ m <> 0) by (apply pow_nonzero; lra). assert (7 ^ m <> 0) by (apply pow_nonzero; lra).
  field. auto.
Qed.
Definition term_num (n : nat) : Z := ((-1) ^ Z.of_nat n * (2 * 7 ^ (2 * Z.of_nat n + 1) + 3 ^ (2 * Z.of_nat n + 1)))%Z.
Definition term_den (n : nat) : Z := ((2 * Z.of_nat n + 1) * 21 ^ (2 * Z.of_nat n + 1))%Z.
Fixpoint part (n : nat) : Z * Z :=
  match n with
  | O => (term_num 0, term_den 0)
  | S k => let (p, q) := part k in (p * term_den (S k) + term_num (S k) * q, q * term_den (S k))%Z
  end.
Lemma part_R : forall n, sum_f_R0 (tg_alt PI_2_3_7_tg) n = IZR (fst (part n)) / IZR (snd (part n)) /\ (0 < snd (part n))%Z.
Proof.
  assert (D : forall n, (0 < term_den n)%Z) by (intros n; unfold term_den; apply Z.mul_pos_pos; [lia|apply Z.pow_pos_nonneg; lia]).
  assert (T : forall n, tg_alt PI_2_3_7_tg n = IZR (term_num n) / IZR (term_den n)).
  { intros n. unfold tg_alt. rewrite tg_frac. unfold term_num, term_den. rewrite (mult_IZR ((-1) ^ Z.of_nat n)), <- pow_IZR'. unfold Rdiv. ring. }
  induction n as [|n [IH P]]; [split; [apply T|apply D]|]. cbn [sum_f_R0 part]. rewrite IH, T. destruct (part n) as [p q]. cbn [fst snd] in *.
  specialize (D (S n)). split; [|apply Z.mul_pos_pos; auto]. rewrite plus_IZR, !mult_IZR. field.
  split; apply IZR_neq; lia.
Qed.
Lemma frac_le : forall p q a b : Z, (0 < q)%Z -> (0 < b)%Z -> (p * b <= a * q)%Z -> IZR p / IZR q <= IZR a / IZR b.
Proof.
  intros p q a b Hq Hb H. apply IZR_lt in Hq, Hb. apply IZR_le in H. rewrite !mult_IZR in H.
  apply Rmult_le_reg_r with (IZR q * IZR b); [apply Rmult_lt_0_compat; auto|].
  replace (IZR p / IZR q * (IZR q * IZR b)) with (IZR p * IZR b) by (field; lra). replace (IZR a / IZR b * (IZR q * IZR b)) with (IZR a * IZR q) by (field; lra). auto.
Qed.
Lemma PI_bounds : 3141592653589792 / 1000000000000000 <= PI <= 3141592653589794 / 1000000000000000.
Proof.
  destruct (PI_2_3_7_ineq 8) as [L U]. change (S (2 * 8)) with 17%nat in L. change (2 * 8)%nat with 16%nat in U.
  destruct (part_R 17) as [E1 P1]. destruct (part_R 16) as [E2 P2]. rewrite E1 in L. rewrite E2 in U.
  assert (L' : 3141592653589792 / (4 * 1000000000000000) <= IZR (fst (part 17)) / IZR (snd (part 17))).
  { rewrite <- mult_IZR. apply frac_le; [reflexivity|exact P1|]. vm_compute. discriminate. }
  assert (U' : IZR (fst (part 16)) / IZR (snd (part 16)) <= 3141592653589794 / (4 * 1000000000000000)).
  { rewrite <- mult_IZR. apply frac_le; [exact P2|reflexivity|]. vm_compute. discriminate. }
  lra.
Qed.
Lemma exp_pow_n : forall x n, exp (INR n * x) = exp x ^ n.
Proof. intros x n. induction n as [|n IH]; [rewrite Rmult_0_l; apply exp_0|]. rewrite S_INR, Rmult_plus_distr_r, Rmult_1_l, exp_plus, IH. cbn [pow]. ring. Qed.
Lemma ln2_bounds : 692 / 1000 < ln 2 < 6947 / 10000.
Proof.
  split.
  - rewrite <- (ln_exp (692 / 1000)). apply ln_increasing; [apply exp_pos|].
    replace (692 / 1000) with (INR 256 * (692 / 256000)) by (rewrite INR_IZR_INZ; change (Z.of_nat 256) with 256%Z; field). rewrite exp_pow_n.
    assert (K : exp (692 / 256000) <= 256000 / 255308).
    { pose proof (exp_ineq1_le (- (692 / 256000))) as H. rewrite exp_Ropp in H. pose proof (exp_pos (692 / 256000)) as P.
      apply Rmult_le_compat_r with (r := exp (692 / 256000)) in H; [|lra]. rewrite Rinv_l in H by lra. lra. }
    apply Rle_lt_trans with ((256000 / 255308) ^ 256); [apply pow_incr; split; [left; apply exp_pos|exact K]|].
    unfold Rdiv. rewrite Rpow_mult_distr, pow_inv, !pow_IZR'. apply Rmult_lt_reg_r with (IZR (255308 ^ Z.of_nat 256)); [apply IZR_lt; reflexivity|].
    rewrite Rmult_assoc, Rinv_l, Rmult_1_r by (apply IZR_neq; discriminate). rewrite <- mult_IZR. apply IZR_lt. vm_compute. reflexivity.
  - rewrite <- (ln_exp (6947 / 10000)). apply ln_increasing; [lra|].
    replace (6947 / 10000) with (INR 256 * (6947 / 2560000)) by (rewrite INR_IZR_INZ; change (Z.of_nat 256) with 256%Z; field). rewrite exp_pow_n.
    assert (K : 2566947 / 2560000 <= exp (6947 / 2560000)) by (pose proof (exp_ineq1_le (6947 / 2560000)) as H; lra).
    apply Rlt_le_trans with ((2566947 / 2560000) ^ 256); [|apply pow_incr; split; [lra|exact K]].
    unfold Rdiv. rewrite Rpow_mult_distr, pow_inv, !pow_IZR'. apply Rmult_lt_reg_r with (IZR (2560000 ^ Z.of_nat 256)); [apply IZR_lt; reflexivity|].
    rewrite Rmult_assoc, Rinv_l, Rmult_1_r by (apply IZR_neq; discriminate). rewrite <- mult_IZR. apply IZR_lt. vm_compute. reflexivity.
Qed.
