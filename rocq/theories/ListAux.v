(** Facts about lists, [res] and indexed arrays used by the refinement proof. *)
From Coq Require Import ZArith Arith List Bool Lia.
From Verif Require Import Base Arith Rand Mh Ladder Tune Mpi Prog Seq.
Import ListNotations.
Open Scope Z_scope.

Global Arguments r8_normal_01 : simpl never.
Global Arguments drand48 : simpl never.
Global Arguments i4_unif_ab : simpl never.
Global Arguments i4_unif_0a : simpl never.
Global Arguments iter_batch_mh : simpl never.
Global Arguments iter_batch_mh_tune : simpl never.
Global Arguments logpost_at : simpl never.
Global Arguments choose_j : simpl never.
Global Arguments zget : simpl never.
Global Arguments zset : simpl never.
Global Arguments fresh : simpl never.
Global Arguments u32 : simpl never.
Global Arguments u2i : simpl never.
Global Arguments i32 : simpl never.

Ltac rstep :=
  match goal with
  | H : rbind ?m ?f = OK ?b |- _ =>
      let a := fresh "v" in let E := fresh "E" in let H' := fresh "H" in
      destruct (rbind_ok m f b H) as [a [E H']]; clear H; rename H' into H; cbv beta in H
  | H : OK _ = OK _ |- _ => injection H; clear H; intros; subst
  | H : Stop _ = OK _ |- _ => discriminate H
  | p : (_ * _)%type |- _ => destruct p
  | H : (_, _) = (_, _) |- _ => injection H; clear H; intros; subst
  end.
Ltac rinv := repeat rstep.

Lemma mapM_ok : forall {X Y} (f : X -> res Y) l r,
  mapM f l = OK r -> length r = length l /\
  forall i x, nth_error l i = Some x -> exists y, nth_error r i = Some y /\ f x = OK y.
Proof.
  intros X Y f l. induction l as [|x l IH]; intros r H; simpl in H.
  - rinv. split; auto. intros [|i] x; discriminate.
  - rinv. destruct (IH _ E0) as [Hl Hn]. split; [simpl; lia|].
    intros [|i] z Hz; simpl in *.
    + inversion Hz; subst. eauto.
    + apply Hn; auto.
Qed.

Lemma mapM_total : forall {X Y} (f : X -> res Y) l,
  (forall x, In x l -> exists y, f x = OK y) -> exists r, mapM f l = OK r.
Proof.
  intros X Y f l. induction l as [|x l IH]; intros H; simpl; eauto.
  destruct (H x) as [y ->]; [left; auto|]. destruct IH as [r ->]; [intros; apply H; right; auto|].
  simpl; eauto.
Qed.

Lemma nth_error_seq : forall a k i, (i < k)%nat -> nth_error (seq a k) i = Some (a + i)%nat.
Proof.
  intros a k. revert a. induction k as [|k IH]; intros a [|i] H; simpl; try lia.
  - f_equal; lia.
  - rewrite IH by lia. f_equal; lia.
Qed.

Lemma nth_error_nth2 : forall {X} (l : list X) i d, (i < length l)%nat -> nth_error l i = Some (nth i l d).
Proof. intros. apply nth_error_nth'; auto. Qed.

Lemma tab_ok : forall {X} n (f : nat -> res X) l (d : X),
  tab n f = OK l -> length l = n /\ forall r, (r < n)%nat -> f r = OK (nth r l d).
Proof.
  intros X n f l d H. unfold tab, ranks in H. apply mapM_ok in H. destruct H as [H1 H2].
  rewrite seq_length in H1. split; auto. intros r Hr.
  destruct (H2 r r) as [y [Hy Hf]]; [rewrite nth_error_seq; auto|].
  rewrite (nth_error_nth2 l r d) in Hy by lia. congruence.
Qed.

Lemma tab_total : forall {X} n (f : nat -> res X),
  (forall r, (r < n)%nat -> exists x, f r = OK x) -> exists l, tab n f = OK l.
Proof.
  intros. apply mapM_total. intros r Hr. apply in_seq in Hr. apply H. lia.
Qed.

Lemma list_as_map : forall {X} (l : list X) (d : X),
  l = map (fun i => nth i l d) (seq 0 (length l)).
Proof.
  intros X l d. induction l as [|x l IH]; simpl; auto. f_equal.
  rewrite <- seq_shift, map_map. rewrite IH at 1. apply map_ext. auto.
Qed.

Lemma map2_seq : forall {X Y Z} (f : X -> Y -> Z) a b dx dy n,
  length a = n -> length b = n ->
  map2 f a b = map (fun i => f (nth i a dx) (nth i b dy)) (seq 0 n).
Proof.
  intros X Y Z f a. induction a as [|x a IH]; intros [|y b] dx dy n Ha Hb; simpl in *; subst; try discriminate; auto.
  cbn [seq map]. f_equal. rewrite <- seq_shift, map_map. simpl. apply IH; lia.
Qed.

Lemma map2_length : forall {X Y Z} (f : X -> Y -> Z) a b n,
  length a = n -> length b = n -> length (map2 f a b) = n.
Proof.
  intros X Y Z f a. induction a as [|x a IH]; intros [|y b] n Ha Hb; simpl in *; subst; try discriminate; auto.
Qed.

Lemma map2_nth : forall {X Y Z} (f : X -> Y -> Z) a b i dx dy dz,
  (i < length a)%nat -> (i < length b)%nat ->
  nth i (map2 f a b) dz = f (nth i a dx) (nth i b dy).
Proof.
  intros X Y Z f a. induction a as [|x a IH]; intros [|y b] [|i] dx dy dz Ha Hb; simpl in *; try lia; auto.
  apply IH; lia.
Qed.

Lemma nth_seq0 : forall n i d, (i < n)%nat -> nth i (seq 0 n) d = i.
Proof. intros. rewrite seq_nth; auto. Qed.

Lemma map_nth2 : forall {X Y} (f : X -> Y) l i dx dy, (i < length l)%nat ->
  nth i (map f l) dy = f (nth i l dx).
Proof.
  intros X Y f l. induction l as [|x l IH]; intros [|i] dx dy H; simpl in *; try lia; auto.
  apply IH; lia.
Qed.

Lemma zget_nat : forall {X} (l : list X) (r : nat) d, (r < length l)%nat -> zget l (zr r) = OK (nth r l d).
Proof. intros. apply zget_nth. apply nth_error_nth2; auto. Qed.

Lemma zget_nat_inv : forall {X} (l : list X) (r : nat) v d,
  zget l (zr r) = OK v -> (r < length l)%nat /\ v = nth r l d.
Proof.
  intros X l r v d H. apply zget_ok_inv in H. destruct H as [_ H]. unfold zr in H.
  rewrite Nat2Z.id in H. assert (r < length l)%nat by (apply nth_error_Some; congruence).
  split; auto. rewrite (nth_error_nth2 l r d) in H by auto. congruence.
Qed.

Lemma zset_nat : forall {X} (l : list X) (r : nat) v, (r < length l)%nat ->
  zset l (zr r) v = OK (lset l r v).
Proof. intros. unfold zr. rewrite zset_ok by lia. rewrite Nat2Z.id. auto. Qed.

Lemma zset_nat_inv : forall {X} (l l' : list X) (r : nat) v,
  zset l (zr r) v = OK l' -> (r < length l)%nat /\ l' = lset l r v.
Proof.
  intros X l l' r v H. apply zset_ok_inv in H. unfold zr in H. rewrite Nat2Z.id in H.
  destruct H; split; auto; lia.
Qed.

Lemma zset_length : forall {X} (l l' : list X) i v, zset l i v = OK l' -> length l' = length l.
Proof. intros X l l' i v H. apply zset_ok_inv in H. destruct H as [_ ->]. apply lset_length. Qed.

Lemma nth_lset_eq : forall {X} (l : list X) i v d, (i < length l)%nat -> nth i (lset l i v) d = v.
Proof.
  intros X l i v d H. apply nth_error_nth. apply nth_error_lset_eq; auto.
Qed.

Lemma nth_lset_ne : forall {X} (l : list X) i j v d, i <> j -> nth j (lset l i v) d = nth j l d.
Proof. intros X l. induction l; intros [|i] [|j] v d H; simpl; auto; try congruence. Qed.

Lemma list_ext : forall {X} (a b : list X) (d : X),
  length a = length b -> (forall i, (i < length a)%nat -> nth i a d = nth i b d) -> a = b.
Proof. intros. eapply nth_ext; eauto. Qed.

(** filling an array cell by cell *)
Lemma fill_all : forall {X} (v : nat -> X) (n : nat) (t : list X),
  length t = n -> (0 < n)%nat ->
  fold_left (fun t i => lset t i (v i)) (seq 1 (n - 1)) (lset t 0 (v 0%nat)) = map v (seq 0 n).
Proof.
  intros X v n t Hl Hn.
  assert (G : forall k a t0, length t0 = n -> (a + k <= n)%nat ->
     (forall i, (i < a)%nat -> nth_error t0 i = Some (v i)) ->
     length (fold_left (fun t i => lset t i (v i)) (seq a k) t0) = n /\
     forall i, (i < a + k)%nat -> nth_error (fold_left (fun t i => lset t i (v i)) (seq a k) t0) i = Some (v i)).
  { induction k as [|k IH]; intros a t0 Hlen Hak Hi; cbn [seq fold_left].
    - split; auto. intros. apply Hi; lia.
    - destruct (IH (S a) (lset t0 a (v a))) as [I1 I2].
      + rewrite lset_length; auto.
      + lia.
      + intros i Hia. destruct (Nat.eq_dec i a) as [->|Hne].
        * apply nth_error_lset_eq; lia.
        * rewrite nth_error_lset_ne by auto. apply Hi; lia.
      + split; auto. intros i Hi'. apply I2. lia. }
  destruct (G (n - 1)%nat 1%nat (lset t 0 (v 0%nat))) as [G1 G2].
  - rewrite lset_length; auto.
  - lia.
  - intros i Hi. assert (i = 0)%nat by lia. subst. apply nth_error_lset_eq; lia.
  - apply nth_ext with (d := v 0%nat) (d' := v 0%nat).
    + rewrite G1, map_length, seq_length; auto.
    + intros i Hi. rewrite G1 in Hi. apply nth_error_nth.
      rewrite G2 by lia. rewrite (map_nth2 v (seq 0 n) i 0%nat) by (rewrite seq_length; auto).
      rewrite nth_seq0; auto.
Qed.

Lemma all_cells_some : forall {X} (l : list X), all_cells (map Some l) = OK l.
Proof. induction l; simpl; auto. rewrite IHl. auto. Qed.

Lemma all_cells_inv : forall {X} (l : list (option X)) r, all_cells l = OK r -> l = map Some r.
Proof.
  intros X l. induction l as [|[x|] l IH]; intros r H; simpl in H; rinv; auto; try discriminate.
  simpl in E. rinv. simpl. f_equal; auto.
Qed.

Lemma slaves_seq : forall n, (0 < n)%nat -> slaves n = seq 1 (n - 1).
Proof.
  intros n H. unfold slaves, root. destruct n as [|k]; [lia|].
  simpl. rewrite Nat.sub_0_r.
  assert (forall a m, (0 < a)%nat -> filter (fun r => negb (Nat.eqb r 0)) (seq a m) = seq a m).
  { intros a m. revert a. induction m; intros a Ha; simpl; auto.
    destruct a; [lia|]. simpl. f_equal. apply IHm; lia. }
  apply H0; lia.
Qed.

Lemma slaves_in : forall n r, In r (slaves n) <-> (0 < r < n)%nat.
Proof.
  intros n r. unfold slaves, root. rewrite filter_In, in_seq.
  destruct (Nat.eqb_spec r 0); simpl; subst; split; intros; try lia; destruct H; auto; try discriminate; lia.
Qed.

Lemma slaves_nodup : forall n, NoDup (slaves n).
Proof. intros. unfold slaves. apply NoDup_filter. apply seq_NoDup. Qed.

(** projection of a log *)
Section Proj.
Context {A : Arith}.
Lemma proj_app : forall r (a b : glog (A := A)), proj r (a ++ b) = proj r a ++ proj r b.
Proof. intros. unfold proj. rewrite filter_app, map_app. auto. Qed.

Lemma proj_cons : forall r q e (l : glog (A := A)),
  proj r ((q, e) :: l) = (if Nat.eqb q r then [e] else []) ++ proj r l.
Proof. intros. unfold proj. simpl. destruct (Nat.eqb q r); auto. Qed.

Lemma proj_nil : forall r, proj (A := A) r [] = [].
Proof. auto. Qed.

Lemma proj_self : forall r (l : list (event A)), proj r (map (pair r) l) = l.
Proof.
  intros. unfold proj. induction l; simpl; auto. rewrite Nat.eqb_refl. simpl. f_equal; auto.
Qed.

Lemma proj_other : forall r q (l : list (event A)), q <> r -> proj r (map (pair q) l) = [].
Proof.
  intros. unfold proj. induction l; simpl; auto. destruct (Nat.eqb_spec q r); [congruence|]. auto.
Qed.

Lemma proj_ranks : forall (h : nat -> list (event A)) n r, (r < n)%nat ->
  proj r (concat (map (fun q => map (pair q) (h q)) (ranks n))) = h r.
Proof.
  intros h n r Hr. unfold ranks.
  assert (G : forall k a, proj r (concat (map (fun q => map (pair q) (h q)) (seq a k))) =
     if (Nat.leb a r && Nat.ltb r (a + k))%bool then h r else []).
  { induction k as [|k IH]; intros a; cbn [seq map concat].
    - destruct (Nat.leb_spec a r), (Nat.ltb_spec r (a + 0)); simpl; auto; lia.
    - rewrite proj_app, IH. destruct (Nat.eq_dec a r) as [->|Hne].
      + rewrite proj_self. destruct (Nat.leb_spec (S r) r); [lia|]. cbn [andb].
        rewrite Nat.leb_refl. destruct (Nat.ltb_spec r (r + S k)); [|lia]. cbn [andb]. apply app_nil_r.
      + rewrite proj_other by auto. rewrite app_nil_l.
        destruct (Nat.leb_spec (S a) r), (Nat.ltb_spec r (S a + k)), (Nat.leb_spec a r),
          (Nat.ltb_spec r (a + S k)); cbn [andb]; auto; lia. }
  rewrite G. simpl. destruct (Nat.ltb_spec r n); auto; lia.
Qed.

Lemma proj_map_ranks : forall (h : nat -> event A) n r, (r < n)%nat ->
  proj r (map (fun q => (q, h q)) (ranks n)) = [h r].
Proof.
  intros h n r Hr. rewrite <- (proj_ranks (fun q => [h q]) n r Hr). f_equal.
  unfold ranks. induction (seq 0 n); simpl; f_equal; auto.
Qed.
End Proj.
