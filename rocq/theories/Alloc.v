(** alloc.c: the 2-d and 3-d matrices.

    A pointer is a block and a byte offset in it; a block is its size in bytes and, for a block of pointers, its cells.
    Sizes are computed in size_t (mod 2^64).  malloc is assumed to succeed. *)
From Coq Require Import ZArith List Bool Lia.
From Verif Require Import Base.
Import ListNotations.
Open Scope Z_scope.

Definition SIZE_MOD : Z := 18446744073709551616.
(** the value of an int converted to size_t, and a product in size_t *)
Definition sz (z : Z) : Z := z mod SIZE_MOD.

(** a pointer into the element block, or into the block of row pointers *)
Inductive block : Type := BElem | BRows.
Definition ptr : Type := (block * Z)%type.      (* block, byte offset *)
(** p + k for a pointer to things of [w] bytes in a block of [size] bytes: defined only inside the block or one past its end
    (C11 6.5.6p8) *)
Definition padd (w size : Z) (p : ptr) (k : Z) : res ptr :=
  let o := snd p + w * k in
  if (0 <=? o) && (o <=? size) then OK (fst p, o) else Stop OutOfBounds.

(** t[0] = p; for (j = 1; j < m; j++) t[j] = t[j-1] + step; in a block t of [bytes] bytes of pointers to things of w bytes,
    that point into a block of [size] bytes *)
Definition fill_rows (bytes m step w size : Z) (p : ptr) : res (list (option ptr)) :=
  let* t0 := zset (fresh (bytes / 8)) 0 (Some p) in
  for_from (Z.to_nat (m - 1)) 1
    (fun j t => let* o := zget t (j - 1) in let* q := cell o in let* q' := padd w size q step in zset t j (Some q')) t0.

(** alloc_2d_double (w = 8), alloc.c:86-100, and alloc_2d_int (w = 4), 49-74: the size of the element block and the row pointers *)
Definition alloc_2d (w n1 n2 : Z) : res (Z * list (option ptr)) :=
  let rows := sz (8 * sz n1) in
  let size := sz (sz (w * sz n1) * sz n2) in
  let* t := fill_rows rows n1 n2 w size (BElem, 0) in
  OK (size, t).
(** alloc_3d_double (w = 8), alloc.c:153-173, and alloc_3d_int (w = 4), 121-141: the size of the element block, the pointers to
    rows of pointers, and the block of row pointers.  n1 * n2 in the second loop is an int. *)
Definition alloc_3d (w n1 n2 n3 : Z) : res (Z * list (option ptr) * list (option ptr)) :=
  let planes := sz (8 * sz n1) in
  let rows := sz (sz (8 * sz n1) * sz n2) in
  let* tp := fill_rows planes n1 n2 8 rows (BRows, 0) in
  let size := sz (sz (sz (w * sz n1) * sz n2) * sz n3) in
  let* m := i32 (n1 * n2) in
  let* tr := fill_rows rows m n3 w size (BElem, 0) in
  OK (size, tp, tr).

(** the address of t[i][j]: read the pointer t[i], step j elements; the element must lie in the block *)
Definition at_2d (w : Z) (a : Z * list (option ptr)) (i j : Z) : res Z :=
  let (size, t) := a in
  let* o := zget t i in let* p := cell o in
  let* q := padd w size p j in
  if snd q + w <=? size then OK (snd q) else Stop OutOfBounds.
(** t[i][j][k] *)
Definition at_3d (w : Z) (a : Z * list (option ptr) * list (option ptr)) (i j k : Z) : res Z :=
  let '(size, tp, tr) := a in
  let* o := zget tp i in let* p := cell o in
  let* q := padd 8 (8 * Z.of_nat (length tr)) p j in
  let* o2 := zget tr (snd q / 8) in let* p2 := cell o2 in
  let* q2 := padd w size p2 k in
  if snd q2 + w <=? size then OK (snd q2) else Stop OutOfBounds.

(** ** Facts *)
Lemma zget_lset_eq : forall {X} (l : list X) j v, 0 <= j < Z.of_nat (length l) -> zget (lset l (Z.to_nat j) v) j = OK v.
Proof. intros X l j v H. unfold zget. destruct (Z.ltb_spec j 0); [lia|]. rewrite nth_error_lset_eq by lia. auto. Qed.
Lemma zget_lset_ne : forall {X} (l : list X) j i v, 0 <= i -> 0 <= j -> i <> j -> zget (lset l (Z.to_nat j) v) i = zget l i.
Proof. intros X l j i v H1 H2 H3. unfold zget. rewrite nth_error_lset_ne by lia. auto. Qed.
Lemma fill_rows_ok : forall bytes m step w size b, 1 <= m -> 8 * m <= bytes -> 0 <= step -> 0 < w -> w * (m * step) <= size ->
  exists t, fill_rows bytes m step w size (b, 0) = OK t /\ Z.of_nat (length t) = bytes / 8 /\
    forall i, 0 <= i < m -> zget t i = OK (Some (b, w * (i * step))).
Proof.
  intros bytes m step w size b Hm Hb Hs Hw Hsz.
  assert (H8 : m <= bytes / 8) by (apply Z.div_le_lower_bound; lia).
  unfold fill_rows. rewrite zset_ok by (unfold fresh; rewrite repeat_length; lia). cbn [rbind].
  set (t0 := lset (fresh (bytes / 8)) (Z.to_nat 0) (Some (b, 0))).
  assert (L0 : Z.of_nat (length t0) = bytes / 8) by (unfold t0; rewrite lset_length; unfold fresh; rewrite repeat_length; lia).
  destruct (for_from_ok (fun j t => Z.of_nat (length t) = bytes / 8 /\ forall i, 0 <= i < j -> zget t i = OK (Some (b, w * (i * step))))
     (fun j t => let* o := zget t (j - 1) in let* q := cell o in let* q' := padd w size q step in zset t j (Some q'))
     (Z.to_nat (m - 1)) 1 t0) as [t [E [L H]]].
  - split; auto. intros i Hi. assert (i = 0) by lia. subst i. replace (w * (0 * step)) with 0 by ring. apply (zget_nth _ 0).
    unfold t0. change (Z.to_nat 0) with O. apply nth_error_lset_eq. unfold fresh. rewrite repeat_length. lia.
  - intros j t Hj [L H]. rewrite (H (j - 1)) by lia. cbn [rbind cell]. unfold padd. cbn [fst snd].
    assert (j * step <= m * step) by nia. assert (w * (j * step) <= w * (m * step)) by nia.
    destruct (Z.leb_spec 0 (w * ((j - 1) * step) + w * step)); [|nia].
    destruct (Z.leb_spec (w * ((j - 1) * step) + w * step) size); [|nia]. cbn [andb rbind].
    rewrite zset_ok by lia. eexists. split; [reflexivity|]. split; [rewrite lset_length; auto|].
    intros i Hi. destruct (Z.eq_dec i j) as [->|Hne].
    + replace (w * ((j - 1) * step) + w * step) with (w * (j * step)) by ring.
      apply zget_lset_eq. lia.
    + rewrite zget_lset_ne by lia. apply H. lia.
  - exists t. split; auto. split; auto. intros i Hi. apply H. lia.
Qed.

Lemma sz_small : forall z, 0 <= z < SIZE_MOD -> sz z = z.
Proof. intros. apply Z.mod_small; auto. Qed.

Lemma alloc_2d_ok : forall w n1 n2, 0 < w -> 1 <= n1 <= INT_MAX -> 1 <= n2 <= INT_MAX -> w * n1 * n2 < SIZE_MOD ->
  exists a, alloc_2d w n1 n2 = OK a /\ fst a = w * n1 * n2 /\
    forall i j, 0 <= i < n1 -> 0 <= j < n2 -> at_2d w a i j = OK (w * (i * n2 + j)).
Proof.
  intros w n1 n2 Hw H1 H2 Hb. unfold alloc_2d.
  assert (w * n1 <= w * n1 * n2) by nia. assert (n1 <= INT_MAX) by lia. unfold INT_MAX in *.
  rewrite (sz_small n1) by (unfold SIZE_MOD; lia). rewrite (sz_small n2) by (unfold SIZE_MOD; lia).
  rewrite (sz_small (w * n1)) by nia. rewrite (sz_small (w * n1 * n2)) by nia.
  rewrite (sz_small (8 * n1)) by (unfold SIZE_MOD; lia).
  destruct (fill_rows_ok (8 * n1) n1 n2 w (w * n1 * n2) BElem) as [t [E [L HT]]]; try lia; try nia.
  rewrite E. cbn [rbind]. eexists. split; [reflexivity|]. split; [reflexivity|].
  intros i j Hi Hj. unfold at_2d. rewrite HT by lia. cbn [rbind cell]. unfold padd. cbn [fst snd].
  assert ((i + 1) * n2 <= n1 * n2) by nia.
  assert (w * (i * n2) + w * (j + 1) <= w * n1 * n2) by nia.
  destruct (Z.leb_spec 0 (w * (i * n2) + w * j)); [|nia].
  destruct (Z.leb_spec (w * (i * n2) + w * j) (w * n1 * n2)); [|nia]. cbn [andb rbind snd].
  destruct (Z.leb_spec (w * (i * n2) + w * j + w) (w * n1 * n2)); [|nia]. f_equal. ring.
Qed.

Lemma alloc_3d_ok : forall w n1 n2 n3, 0 < w -> 1 <= n1 -> 1 <= n2 -> n1 * n2 <= INT_MAX -> 1 <= n3 <= INT_MAX -> w * n1 * n2 * n3 < SIZE_MOD ->
  exists a, alloc_3d w n1 n2 n3 = OK a /\ fst (fst a) = w * n1 * n2 * n3 /\
    forall i j k, 0 <= i < n1 -> 0 <= j < n2 -> 0 <= k < n3 -> at_3d w a i j k = OK (w * ((i * n2 + j) * n3 + k)).
Proof.
  intros w n1 n2 n3 Hw H1 H2 H12 H3 Hb. unfold alloc_3d.
  assert (n1 <= INT_MAX) by nia. assert (n2 <= INT_MAX) by nia. assert (0 < w * n1 * n2) by nia. assert (w * n1 <= w * n1 * n2) by nia.
  assert (w * n1 * n2 <= w * n1 * n2 * n3) by nia. unfold INT_MAX in *.
  rewrite (sz_small n1) by (unfold SIZE_MOD; lia). rewrite (sz_small n2) by (unfold SIZE_MOD; lia). rewrite (sz_small n3) by (unfold SIZE_MOD; lia).
  rewrite (sz_small (w * n1)) by nia. rewrite (sz_small (w * n1 * n2)) by nia. rewrite (sz_small (w * n1 * n2 * n3)) by nia.
  rewrite (sz_small (8 * n1)) by (unfold SIZE_MOD; lia). rewrite (sz_small (8 * n1 * n2)) by (unfold SIZE_MOD; nia).
  destruct (fill_rows_ok (8 * n1) n1 n2 8 (8 * n1 * n2) BRows) as [tp [E [L HT]]]; try lia; try nia.
  rewrite E. cbn [rbind]. rewrite i32_ok by (unfold INT_MIN, INT_MAX; nia). cbn [rbind].
  destruct (fill_rows_ok (8 * n1 * n2) (n1 * n2) n3 w (w * n1 * n2 * n3) BElem) as [tr [E' [L' H']]]; try nia.
  rewrite E'. cbn [rbind]. eexists. split; [reflexivity|]. split; [reflexivity|].
  intros i j k Hi Hj Hk. unfold at_3d. rewrite HT by lia. cbn [rbind cell]. unfold padd. cbn [fst snd].
  replace (8 * n1 * n2) with (n1 * n2 * 8) in L' by ring. rewrite Z.div_mul in L' by lia. rewrite L'.
  assert (Hij : 0 <= i * n2 + j < n1 * n2) by (assert ((i + 1) * n2 <= n1 * n2) by nia; nia).
  destruct (Z.leb_spec 0 (8 * (i * n2) + 8 * j)); [|lia].
  destruct (Z.leb_spec (8 * (i * n2) + 8 * j) (8 * (n1 * n2))); [|lia]. cbn [andb rbind snd].
  replace (8 * (i * n2) + 8 * j) with ((i * n2 + j) * 8) by ring. rewrite Z.div_mul by lia. rewrite H' by lia. cbn [rbind cell fst snd].
  remember (i * n2 + j) as q. assert ((q + 1) * n3 <= n1 * n2 * n3) by nia.
  assert (w * (q * n3) + w * (k + 1) <= w * n1 * n2 * n3) by nia.
  destruct (Z.leb_spec 0 (w * (q * n3) + w * k)); [|nia].
  destruct (Z.leb_spec (w * (q * n3) + w * k) (w * n1 * n2 * n3)); [|nia]. cbn [andb rbind snd].
  destruct (Z.leb_spec (w * (q * n3) + w * k + w) (w * n1 * n2 * n3)); [|nia]. f_equal. ring.
Qed.

(** the product of the sizes does not fit in size_t: a smaller block is allocated and the row pointers leave it *)
Lemma alloc_2d_wrap : forall w n1 n2, 0 < w -> 2 <= n1 <= INT_MAX -> 1 <= n2 <= INT_MAX -> w * n1 < SIZE_MOD ->
  (w * n1 * n2) mod SIZE_MOD < w * n2 -> alloc_2d w n1 n2 = Stop OutOfBounds.
Proof.
  intros w n1 n2 Hw H1 H2 Hb Hwrap. unfold alloc_2d. unfold INT_MAX in *.
  rewrite (sz_small n1) by (unfold SIZE_MOD; lia). rewrite (sz_small n2) by (unfold SIZE_MOD; lia).
  rewrite (sz_small (w * n1)) by nia. rewrite (sz_small (8 * n1)) by (unfold SIZE_MOD; lia).
  unfold fill_rows. replace (8 * n1 / 8) with n1 by (rewrite Z.mul_comm, Z.div_mul; lia).
  rewrite zset_ok by (unfold fresh; rewrite repeat_length; lia). cbn [rbind].
  replace (Z.to_nat (n1 - 1)) with (S (Z.to_nat (n1 - 2))) by lia. cbn [for_from].
  replace (1 - 1) with (Z.of_nat 0) by lia. rewrite (zget_nth _ 0 (Some (BElem, 0))).
  2:{ apply nth_error_lset_eq. unfold fresh. rewrite repeat_length. lia. }
  cbn [rbind cell]. unfold padd. cbn [fst snd]. unfold sz.
  destruct (Z.leb_spec (0 + w * n2) ((w * n1 * n2) mod SIZE_MOD)); [lia|]. rewrite andb_false_r. reflexivity.
Qed.
Lemma alloc_3d_overflow : forall w n1 n2 n3, 1 <= n1 <= INT_MAX -> 1 <= n2 <= INT_MAX -> 8 * n1 * n2 < SIZE_MOD -> INT_MAX < n1 * n2 ->
  alloc_3d w n1 n2 n3 = Stop IntOverflow.
Proof.
  intros w n1 n2 n3 H1 H2 Hb H12. unfold alloc_3d. unfold INT_MAX in *.
  rewrite (sz_small n1) by (unfold SIZE_MOD; lia). rewrite (sz_small n2) by (unfold SIZE_MOD; lia).
  rewrite (sz_small (8 * n1)) by (unfold SIZE_MOD; lia). rewrite (sz_small (8 * n1 * n2)) by (split; [nia|exact Hb]).
  destruct (fill_rows_ok (8 * n1) n1 n2 8 (8 * n1 * n2) BRows) as [tp [E [L HT]]]; try lia; try nia.
  rewrite E. cbn [rbind]. unfold i32. destruct (Z.leb_spec (n1 * n2) INT_MAX); [unfold INT_MAX in *; lia|].
  rewrite andb_false_r. reflexivity.
Qed.
