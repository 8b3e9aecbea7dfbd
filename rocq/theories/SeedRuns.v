(** The seeds of the ranks, in every execution (C05). *)
From Coq Require Import ZArith Arith List Bool Lia Permutation.
From Verif Require Import Base Arith Rand Mh Mpi Prog Seq SeqTotal System Runs SeqFiles B64Facts Seeds.
Import ListNotations.
Open Scope Z_scope.

(** The ranks other than 0 get base+1, ..., base+n-1 in rank order and rank 0 (the root) gets
    base+n, modulo 2^32. *)
Definition rank_seed (base : Z) (n r : nat) : Z :=
  (base + (if Nat.eqb r 0 then Z.of_nat n else Z.of_nat r)) mod 4294967296.

(** The base seed: the clock when init_rand_seed is 0, else init_rand_seed. *)
Definition base_seed {A} (S : Setup A) : Z :=
  if init_rand_seed (s_cfg S) =? 0 then e_time (s_env S) mod 4294967296 else init_rand_seed (s_cfg S).

Lemma iter_draws : forall k g, Nat.iter k lcg g = draws k g.
Proof.
  assert (K : forall k g, lcg (draws k g) = draws k (lcg g)) by (induction k; intros; simpl; auto).
  induction k; intros g; simpl; auto. rewrite IHk. apply K.
Qed.

Lemma rank_seed_range : forall b n r, 0 <= rank_seed b n r < UINT_MOD.
Proof. intros. unfold rank_seed, UINT_MOD. apply Z.mod_pos_bound. lia. Qed.

Lemma rank_seed_distinct : forall (base : Z) (n r q k : nat), Z.of_nat n <= 4294967296 ->
  (r < n)%nat -> (q < n)%nat -> r <> q ->
  rank_seed base n r <> rank_seed base n q /\
  Nat.iter k lcg (srand48 (rank_seed base n r)) <> Nat.iter k lcg (srand48 (rank_seed base n q)).
Proof.
  intros base n r q k Hn Hr Hq Hne.
  assert (D : rank_seed base n r <> rank_seed base n q).
  { unfold rank_seed. intros H.
    set (a := if Nat.eqb r 0 then Z.of_nat n else Z.of_nat r) in *.
    set (b := if Nat.eqb q 0 then Z.of_nat n else Z.of_nat q) in *.
    assert (Ha : 1 <= a <= Z.of_nat n) by (unfold a; destruct (Nat.eqb_spec r 0); lia).
    assert (Hb : 1 <= b <= Z.of_nat n) by (unfold b; destruct (Nat.eqb_spec q 0); lia).
    assert (a <> b) by (unfold a, b; destruct (Nat.eqb_spec r 0), (Nat.eqb_spec q 0); lia).
    assert (M : (a - b) mod 4294967296 = 0).
    { replace (a - b) with ((base + a) - (base + b)) by ring. rewrite Zminus_mod, H, Z.sub_diag. reflexivity. }
    apply Z.mod_divide in M; [|lia]. destruct M as [z Hz]. assert (z = 0) by lia. lia. }
  split; [exact D|]. rewrite !iter_draws. intros H. apply D.
  apply srand48_inj; [apply rank_seed_range|apply rank_seed_range|].
  eapply draws_inj; [apply srand48_range|apply srand48_range|exact H].
Qed.

Lemma seed_of_rank_seed : forall A (S : Setup A), 0 <= init_rand_seed (s_cfg S) -> forall r,
  seed_of (s_cfg S) (s_n S) (s_env S) r = rank_seed (base_seed S) (s_n S) r.
Proof.
  intros A S H r. unfold seed_of, rank_seed, base_seed, first_seed, is_root, root, u32, zn, zr, UINT_MOD.
  replace (init_rand_seed (s_cfg S) <=? 0) with (init_rand_seed (s_cfg S) =? 0).
  - destruct (Nat.eqb r 0); reflexivity.
  - destruct (Z.eqb_spec (init_rand_seed (s_cfg S)) 0), (Z.leb_spec (init_rand_seed (s_cfg S)) 0); auto; lia.
Qed.

Lemma file_perm : forall A f (a b : list (nat * event A)), Permutation a b -> Permutation (file f a) (file f b).
Proof.
  intros A f a b H. unfold file. induction H; simpl; auto.
  - destruct (in_file f (snd x)); auto.
  - destruct (in_file f (snd x)), (in_file f (snd y)); auto. apply perm_swap.
  - eapply perm_trans; eauto.
Qed.

Lemma run_seeds : forall A (S : Setup A), Legal S ->
  forall k tr X, execution S k tr X -> complete S X ->
  Permutation (file FSeed tr)
    (map (fun r => EvSeed r (u2i (rank_seed (base_seed S) (s_n S) r))) (seq 0 (s_n S))) /\
  file FInit tr =
    [EvInit (map (fun r => fst (u_init (s_user S) (rank_seed (base_seed S) (s_n S) r))) (seq 0 (s_n S)))].
Proof.
  intros A S HL k tr X HE HC. destruct (reference_ok S HL) as [G [t HR]].
  destruct (legal_files S HL k tr X HE HC G t HR) as [P F].
  destruct (main_files _ _ _ _ _ _ _ HR) as [F1 F2].
  assert (H0 : 0 <= init_rand_seed (s_cfg S)). { destruct HL as [_ [VC _]]. apply (vc_seed _ _ VC). }
  split.
  - rewrite (file_perm _ FSeed _ _ P), F1. apply Permutation_refl'. apply map_ext. intros r.
    rewrite seed_of_rank_seed; auto.
  - rewrite F by discriminate. rewrite F2. f_equal. f_equal. apply map_ext. intros r.
    rewrite seed_of_rank_seed; auto.
Qed.
