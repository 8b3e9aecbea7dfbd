(** Base vocabulary of the model: outcomes, C integers, checked arrays, loops.

    [res] is the outcome of a piece of C code.  [Stop] is not a value: it
    records the reason for which the C program has no defined continuation
    (undefined behaviour), or for which the model gave up (fuel). *)
From Coq Require Import ZArith List Bool Lia.
Import ListNotations.
Open Scope Z_scope.

Inductive stop : Type :=
| OutOfBounds      (* array access outside the allocated block *)
| Uninit           (* read of a cell never written *)
| NullPtr          (* dereference of NULL / NULL passed to sscanf, atof, strtok *)
| IntOverflow      (* signed overflow *)
| BadConv          (* double to int conversion out of range, NaN or infinite *)
| MsgMismatch      (* a receive got a message of another type or length *)
| NoSuchRank       (* message addressed to a rank outside the communicator *)
| BadSize          (* allocation or array of non-positive size that is then used *)
| OutOfFuel.       (* loop bound of the model exhausted: NOT a C outcome *)

Inductive res (A : Type) : Type :=
| OK (a : A)
| Stop (e : stop).
Arguments OK {A} a.
Arguments Stop {A} e.

Definition rbind {A B} (m : res A) (f : A -> res B) : res B :=
  match m with OK a => f a | Stop e => Stop e end.

Declare Scope res_scope.
Notation "'let*' x := e 'in' f" := (rbind e (fun x => f))
  (at level 200, x pattern, e at level 100, f at level 200, right associativity) : res_scope.
Open Scope res_scope.

Lemma rbind_ok : forall {A B} (m : res A) (f : A -> res B) b,
  rbind m f = OK b -> exists a, m = OK a /\ f a = OK b.
Proof. intros A B [a|e] f b H; simpl in *; [eauto|discriminate]. Qed.

(** ** C integers (32-bit int / unsigned, the ABI the code is compiled for). *)
Definition INT_MAX : Z := 2147483647.
Definition INT_MIN : Z := -2147483648.
Definition UINT_MOD : Z := 4294967296.

(** Result of a signed [int] operation: undefined when out of range. *)
Definition i32 (z : Z) : res Z :=
  if (INT_MIN <=? z) && (z <=? INT_MAX) then OK z else Stop IntOverflow.

(** Result of an [unsigned] operation: wraps. *)
Definition u32 (z : Z) : Z := z mod UINT_MOD.

(** Conversion of an unsigned value to int (two's complement wrap). *)
Definition u2i (z : Z) : Z := if u32 z <=? INT_MAX then u32 z else u32 z - UINT_MOD.

Lemma i32_ok : forall z, INT_MIN <= z <= INT_MAX -> i32 z = OK z.
Proof.
  intros z H. unfold i32.
  destruct (INT_MIN <=? z) eqn:E1; destruct (z <=? INT_MAX) eqn:E2; simpl; auto;
    rewrite ?Z.leb_gt, ?Z.leb_le in *; lia.
Qed.

Lemma i32_inv : forall z v, i32 z = OK v -> v = z /\ INT_MIN <= z <= INT_MAX.
Proof.
  intros z v. unfold i32.
  destruct (INT_MIN <=? z) eqn:E1; destruct (z <=? INT_MAX) eqn:E2; simpl;
    intros H; inversion H; rewrite ?Z.leb_gt, ?Z.leb_le in *; lia.
Qed.

Lemma u32_small : forall z, 0 <= z < UINT_MOD -> u32 z = z.
Proof. intros; unfold u32; apply Z.mod_small; auto. Qed.

Lemma u2i_small : forall z, 0 <= z <= INT_MAX -> u2i z = z.
Proof.
  intros z H. unfold u2i. rewrite u32_small by (unfold INT_MAX, UINT_MOD in *; lia).
  destruct (z <=? INT_MAX) eqn:E; auto. rewrite Z.leb_gt in E; lia.
Qed.

(** ** Arrays: lists indexed by C ints, every access checked. *)
Definition zget {A} (l : list A) (i : Z) : res A :=
  if i <? 0 then Stop OutOfBounds
  else match nth_error l (Z.to_nat i) with Some a => OK a | None => Stop OutOfBounds end.

Fixpoint lset {A} (l : list A) (n : nat) (v : A) : list A :=
  match l, n with
  | [], _ => []
  | _ :: t, O => v :: t
  | h :: t, S k => h :: lset t k v
  end.

Definition zset {A} (l : list A) (i : Z) (v : A) : res (list A) :=
  if (i <? 0) || (Z.of_nat (length l) <=? i) then Stop OutOfBounds
  else OK (lset l (Z.to_nat i) v).

(** A cell that may be uninitialised. *)
Definition cell {A} (o : option A) : res A :=
  match o with Some a => OK a | None => Stop Uninit end.

(** A freshly malloc'ed array of [n] cells. *)
Definition fresh {A} (n : Z) : list (option A) := repeat None (Z.to_nat n).

Lemma lset_length : forall {A} (l : list A) n v, length (lset l n v) = length l.
Proof. induction l; intros [|n] v; simpl; auto. Qed.

Lemma nth_error_lset_eq : forall {A} (l : list A) n v,
  (n < length l)%nat -> nth_error (lset l n v) n = Some v.
Proof. induction l; intros [|n] v H; simpl in *; try lia; auto. apply IHl; lia. Qed.

Lemma nth_error_lset_ne : forall {A} (l : list A) n m v,
  n <> m -> nth_error (lset l n v) m = nth_error l m.
Proof. induction l; intros [|n] [|m] v H; simpl in *; auto; try congruence. Qed.

Lemma zget_nth : forall {A} (l : list A) (n : nat) a,
  nth_error l n = Some a -> zget l (Z.of_nat n) = OK a.
Proof.
  intros. unfold zget. destruct (Z.of_nat n <? 0) eqn:E.
  - apply Z.ltb_lt in E; lia.
  - rewrite Nat2Z.id, H; auto.
Qed.

Lemma zget_ok_inv : forall {A} (l : list A) i a,
  zget l i = OK a -> 0 <= i /\ nth_error l (Z.to_nat i) = Some a.
Proof.
  intros A l i a. unfold zget. destruct (i <? 0) eqn:E; [discriminate|].
  apply Z.ltb_ge in E. destruct (nth_error l (Z.to_nat i)); inversion 1; subst; auto.
Qed.

Lemma zget_ok : forall {A} (l : list A) i,
  0 <= i < Z.of_nat (length l) -> exists a, zget l i = OK a.
Proof.
  intros A l i H. unfold zget. destruct (i <? 0) eqn:E; [apply Z.ltb_lt in E; lia|].
  destruct (nth_error l (Z.to_nat i)) eqn:E2; eauto.
  apply nth_error_None in E2. lia.
Qed.

Lemma zset_ok : forall {A} (l : list A) i v,
  0 <= i < Z.of_nat (length l) -> zset l i v = OK (lset l (Z.to_nat i) v).
Proof.
  intros A l i v H. unfold zset.
  destruct (i <? 0) eqn:E; [apply Z.ltb_lt in E; lia|].
  destruct (Z.of_nat (length l) <=? i) eqn:E2; [apply Z.leb_le in E2; lia|]. auto.
Qed.

Lemma zset_ok_inv : forall {A} (l l' : list A) i v,
  zset l i v = OK l' -> 0 <= i < Z.of_nat (length l) /\ l' = lset l (Z.to_nat i) v.
Proof.
  intros A l l' i v. unfold zset.
  destruct (i <? 0) eqn:E; destruct (Z.of_nat (length l) <=? i) eqn:E2; simpl; try discriminate.
  inversion 1. apply Z.ltb_ge in E. apply Z.leb_gt in E2. split; [lia|auto].
Qed.

(** ** Counted loops: [for (i = i0; i < i0 + n; i++) body]. *)
Fixpoint for_from {S} (n : nat) (i : Z) (body : Z -> S -> res S) (s : S) : res S :=
  match n with
  | O => OK s
  | Datatypes.S k => let* s' := body i s in for_from k (i + 1) body s'
  end.

Lemma for_from_inv : forall {S} (P : Z -> S -> Prop) body n i s s',
  P i s ->
  (forall j t t', i <= j < i + Z.of_nat n -> P j t -> body j t = OK t' -> P (j + 1) t') ->
  for_from n i body s = OK s' -> P (i + Z.of_nat n) s'.
Proof.
  intros S P body n. induction n as [|n IH]; intros i s s' H0 Hb Hr; cbn [for_from] in Hr.
  - inversion Hr; subst. replace (i + Z.of_nat 0) with i by lia. auto.
  - apply rbind_ok in Hr. destruct Hr as [t [H1 H2]].
    replace (i + Z.of_nat (Datatypes.S n)) with ((i + 1) + Z.of_nat n) by lia.
    apply IH with (s := t); auto.
    + apply Hb with (t := s); auto. lia.
    + intros j u u' Hj. apply Hb. lia.
Qed.

Lemma for_from_ok : forall {S} (P : Z -> S -> Prop) body n i s,
  P i s ->
  (forall j t, i <= j < i + Z.of_nat n -> P j t -> exists t', body j t = OK t' /\ P (j + 1) t') ->
  exists s', for_from n i body s = OK s' /\ P (i + Z.of_nat n) s'.
Proof.
  intros S P body n. induction n as [|n IH]; intros i s H0 Hb; cbn [for_from].
  - exists s. replace (i + Z.of_nat 0) with i by lia. auto.
  - destruct (Hb i s) as [t [E Ht]]; [lia|exact H0|]. rewrite E; simpl rbind.
    assert (Hb' : forall j u, i + 1 <= j < i + 1 + Z.of_nat n -> P j u ->
                  exists t', body j u = OK t' /\ P (j + 1) t').
    { intros j u Hj. apply Hb. lia. }
    destruct (IH (i + 1) t Ht Hb') as [s' [E' P']].
    exists s'. replace (i + Z.of_nat (Datatypes.S n)) with ((i + 1) + Z.of_nat n) by lia.
    split; assumption.
Qed.
