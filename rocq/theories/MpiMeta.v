(** Meta-theory of the message-passing semantics of [Mpi.v]: the eager semantics
    is confluent, the mixed semantics refines it, and one complete synchronous
    run settles every schedule. *)
From Coq Require Import Arith List Bool Lia FunctionalExtensionality.
From Verif Require Import Base Mpi.
Import ListNotations.
Local Open Scope nat_scope.

Section Meta.
Context {msg event F : Type}.
Variable n : nat.
Notation proc := (proc msg event F).
Notation cfg := (cfg msg event F).
Notation scfg := (scfg msg event F).
Notation chans := (chans msg).
Notation bstep := (bstep msg event F n).
Notation brun := (brun msg event F n).
Notation mstep := (mstep msg event F n).
Notation ustep := (ustep msg event F n).
Notation sstep := (sstep msg event F n).
Notation sstar := (sstar msg event F n).
Notation mstar := (mstar msg event F n).
Notation finished := (finished msg event F n).
Notation cupd := (cupd msg).
Notation cbcast := (cbcast msg n).

(** ** Updates *)
Lemma upd_eq : forall {V} (f : nat -> V) r v, upd f r v r = v.
Proof. intros; unfold upd; rewrite Nat.eqb_refl; auto. Qed.
Lemma upd_ne : forall {V} (f : nat -> V) r v x, x <> r -> upd f r v x = f x.
Proof. intros; unfold upd. destruct (Nat.eqb_spec x r); congruence. Qed.
Lemma upd_comm : forall {V} (f : nat -> V) a b u v, a <> b ->
  upd (upd f a u) b v = upd (upd f b v) a u.
Proof.
  intros. apply functional_extensionality; intro x. unfold upd.
  destruct (Nat.eqb_spec x b), (Nat.eqb_spec x a); congruence.
Qed.
Lemma upd_id : forall {V} (f : nat -> V) r, upd f r (f r) = f.
Proof.
  intros. apply functional_extensionality; intro x. unfold upd.
  destruct (Nat.eqb_spec x r); congruence.
Qed.

Lemma key_eqb_spec : forall s d t s' d' t',
  reflect (s = s' /\ d = d' /\ t = t') (key_eqb s d t s' d' t').
Proof.
  intros. unfold key_eqb.
  destruct (Nat.eqb_spec s s'), (Nat.eqb_spec d d'); simpl; try (constructor; intuition; fail).
  destruct t as [a|], t' as [b|]; try (constructor; intuition; congruence).
  destruct (Nat.eqb_spec a b); constructor; intuition congruence.
Qed.

(** ** Queue operations *)
Inductive cop := CNone | CPush (s d : nat) (t : option nat) (m : msg)
               | CPop (s d : nat) (t : option nat) | CBc (root : nat) (m : msg).

Definition capply (o : cop) (c : chans) : chans :=
  match o with
  | CNone => c
  | CPush s d t m => cupd c s d t (c s d t ++ [m])
  | CPop s d t => cupd c s d t (tl (c s d t))
  | CBc root m => cbcast c root m
  end.

(** the operations rank [r] can perform *)
Definition cop_of (r : nat) (o : cop) : Prop :=
  match o with
  | CNone => True
  | CPush s _ _ _ => s = r
  | CPop _ d _ => d = r
  | CBc root _ => root = r
  end.

Definition cen (o : cop) (c : chans) : Prop :=
  match o with CPop s d t => c s d t <> [] | _ => True end.

Definition lact (r : nat) (p : proc) (c : chans) : option (proc * cop * list event) :=
  match p with
  | Send d t m k => if Nat.ltb d n then Some (k, CPush r d (Some t) m, [])
                    else Some (Fail NoSuchRank, CNone, [])
  | Recv s t k => match c s r (Some t) with
                  | m :: _ => Some (k m, CPop s r (Some t), [])
                  | [] => None end
  | Bcast root m k =>
      if Nat.eqb r root then Some (k m, CBc root m, [])
      else match c root r None with
           | m' :: _ => Some (k m', CPop root r None, [])
           | [] => None end
  | Out e k => Some (k, CNone, [e])
  | _ => None
  end.

Definition mkstep (r : nat) (c : cfg) (a : proc * cop * list event) : cfg :=
  let '(p, o, le) := a in
  mkCfg (upd (pr c) r p) (capply o (ch c)) (upd (lg c) r (lg c r ++ le)).

Lemma bstep_rank : forall r c,
  bstep (LRank r) c =
  if Nat.ltb r n then option_map (mkstep r c) (lact r (pr c r) (ch c)) else None.
Proof.
  intros r c. unfold bstep, lact. destruct (Nat.ltb r n); auto.
  destruct (pr c r) eqn:E; simpl; auto.
  - destruct (Nat.ltb dst n); simpl; rewrite app_nil_r, upd_id; auto.
  - destruct (ch c src r (Some tag)) eqn:Q; simpl; auto.
    rewrite app_nil_r, upd_id, Q; auto.
  - destruct (Nat.eqb_spec r root); simpl.
    + rewrite app_nil_r, upd_id; auto.
    + destruct (ch c root r None) eqn:Q; simpl; auto. rewrite app_nil_r, upd_id, Q; auto.
Qed.

Lemma lact_cop : forall r p c p' o le, lact r p c = Some (p', o, le) -> cop_of r o /\ cen o c.
Proof.
  intros r p c p' o le H. unfold lact in H. destruct p; try discriminate.
  - destruct (Nat.ltb dst n); inversion H; simpl; auto.
  - destruct (c src r (Some tag)) eqn:Q; inversion H; simpl; split; auto; congruence.
  - destruct (Nat.eqb_spec r root); [inversion H; simpl; auto|].
    destruct (c root r None) eqn:Q; inversion H; simpl; split; auto; congruence.
  - inversion H; simpl; auto.
Qed.

(** The head of a queue read by [r2] is not changed by an operation of [r1]. *)
Lemma capply_head : forall r1 r2 o c s t m q,
  r1 <> r2 -> cop_of r1 o -> c s r2 t = m :: q ->
  exists q', capply o c s r2 t = m :: q'.
Proof.
  intros r1 r2 o c s t m q Hne Ho Hq. destruct o; simpl in *; subst; eauto.
  - unfold Mpi.cupd. destruct (key_eqb_spec r1 d t0 s r2 t) as [[? [? ?]]|]; eauto.
    subst. rewrite Hq. simpl. eauto.
  - unfold Mpi.cupd. destruct (key_eqb_spec s0 r1 t0 s r2 t) as [[? [? ?]]|]; eauto.
    congruence.
  - unfold Mpi.cbcast. rewrite Hq. destruct (_ && _ && _ && _); simpl; eauto.
Qed.

Lemma lact_stable : forall r1 r2 o p c a,
  r1 <> r2 -> cop_of r1 o -> lact r2 p c = Some a -> lact r2 p (capply o c) = Some a.
Proof.
  intros r1 r2 o p c a Hne Ho H. unfold lact in *. destruct p; try discriminate; auto.
  - destruct (c src r2 (Some tag)) eqn:Q; [discriminate|].
    destruct (capply_head r1 r2 o c _ _ _ _ Hne Ho Q) as [q' E]. rewrite E. auto.
  - destruct (Nat.eqb_spec r2 root); auto.
    destruct (c root r2 None) eqn:Q; [discriminate|].
    destruct (capply_head r1 r2 o c _ _ _ _ Hne Ho Q) as [q' E]. rewrite E. auto.
Qed.

Lemma capply_comm : forall r1 r2 o1 o2 c,
  r1 <> r2 -> cop_of r1 o1 -> cop_of r2 o2 -> cen o1 c -> cen o2 c ->
  capply o1 (capply o2 c) = capply o2 (capply o1 c).
Proof.
  intros r1 r2 o1 o2 c Hne H1 H2 E1 E2.
  apply functional_extensionality; intro x; apply functional_extensionality; intro y;
    apply functional_extensionality; intro z.
  destruct o1, o2; simpl in *; subst; auto; unfold Mpi.cupd, Mpi.cbcast.
  (* push push *)
  - destruct (key_eqb_spec r1 d t x y z) as [[? [? ?]]|];
      destruct (key_eqb_spec r2 d0 t0 x y z) as [[? [? ?]]|]; subst; try congruence.
    + destruct (key_eqb_spec r2 d0 t0 x y z) as [[? [? ?]]|]; [congruence|]. auto.
    + destruct (key_eqb_spec r1 d t x y z) as [[? [? ?]]|]; [congruence|]. auto.
  (* push pop *)
  - destruct (key_eqb_spec r1 d t x y z) as [[? [? ?]]|];
      destruct (key_eqb_spec s0 r2 t0 x y z) as [[? [? ?]]|]; subst; try congruence.
    + destruct (key_eqb_spec x y z x y z) as [_|N]; [|intuition].
      destruct (c x y z); [congruence|]. auto.
    + destruct (key_eqb_spec s0 r2 t0 x y z) as [[? [? ?]]|]; [intuition congruence|]. auto.
    + destruct (key_eqb_spec r1 d t x y z) as [[? [? ?]]|]; [intuition congruence|]. auto.
  (* push bcast *)
  - destruct (key_eqb_spec r1 d t x y z) as [[? [? ?]]|]; subst.
    + destruct (Nat.eqb_spec x r2); [congruence|]. simpl.
      destruct (Nat.eqb_spec y r2); auto.
    + destruct (Nat.eqb_spec x r2); simpl; auto.
  (* pop push *)
  - destruct (key_eqb_spec s r1 t x y z) as [[? [? ?]]|];
      destruct (key_eqb_spec r2 d0 t0 x y z) as [[? [? ?]]|]; subst; try congruence.
    + destruct (key_eqb_spec x y z x y z) as [_|N]; [|intuition].
      destruct (c x y z); [congruence|]. auto.
    + destruct (key_eqb_spec r2 d0 t0 x y z) as [[? [? ?]]|]; [intuition congruence|]. auto.
    + destruct (key_eqb_spec s r1 t x y z) as [[? [? ?]]|]; [intuition congruence|]. auto.
  (* pop pop *)
  - destruct (key_eqb_spec s r1 t x y z) as [[? [? ?]]|];
      destruct (key_eqb_spec s0 r2 t0 x y z) as [[? [? ?]]|]; subst; try congruence.
    + destruct (key_eqb_spec s0 r2 t0 x y z) as [[? [? ?]]|]; [intuition congruence|]. auto.
    + destruct (key_eqb_spec s r1 t x y z) as [[? [? ?]]|]; [intuition congruence|]. auto.
  (* pop bcast *)
  - destruct (key_eqb_spec s r1 t x y z) as [[? [? ?]]|]; subst; auto.
    destruct (_ && _ && _ && _); auto.
    destruct (c x y z); [congruence|]. auto.
  (* bcast push *)
  - destruct (key_eqb_spec r2 d t x y z) as [[? [? ?]]|]; subst.
    + destruct (Nat.eqb_spec x r1); [congruence|]. simpl. auto.
    + destruct (Nat.eqb_spec x r1); simpl; auto.
  (* bcast pop *)
  - destruct (key_eqb_spec s r2 t x y z) as [[? [? ?]]|]; subst; auto.
    destruct (_ && _ && _ && _); auto.
    destruct (c x y z); [congruence|]. auto.
  (* bcast bcast *)
  - destruct (Nat.eqb_spec x r1), (Nat.eqb_spec x r2); simpl; auto. congruence.
Qed.

Lemma all_at_barrier_spec : forall c : cfg,
  all_at_barrier msg event F n c = true <-> (forall r, r < n -> exists k, pr c r = Barrier k).
Proof.
  intros c. unfold all_at_barrier. rewrite forallb_forall. split; intros H r Hr.
  - specialize (H r). rewrite in_seq in H. specialize (H ltac:(lia)).
    destruct (pr c r); try discriminate. eauto.
  - rewrite in_seq in Hr. destruct (H r) as [k E]; [lia|]. rewrite E. auto.
Qed.

Lemma bar_excl : forall c c1 r c2, bstep LBar c = Some c1 -> bstep (LRank r) c = Some c2 -> False.
Proof.
  intros c c1 r c2 H1 H2. unfold Mpi.bstep in H1.
  destruct (all_at_barrier msg event F n c) eqn:E; [|discriminate].
  rewrite bstep_rank in H2. destruct (Nat.ltb_spec r n); [|discriminate].
  rewrite all_at_barrier_spec in E. destruct (E r H) as [k Ek].
  rewrite Ek in H2. discriminate.
Qed.

Lemma diamond : forall l1 l2 c c1 c2, l1 <> l2 ->
  bstep l1 c = Some c1 -> bstep l2 c = Some c2 ->
  exists c', bstep l2 c1 = Some c' /\ bstep l1 c2 = Some c'.
Proof.
  intros l1 l2 c c1 c2 Hne H1 H2. destruct l1 as [r1|], l2 as [r2|]; try congruence.
  - assert (Hr : r1 <> r2) by congruence.
    rewrite bstep_rank in H1, H2. rewrite !bstep_rank.
    destruct (Nat.ltb_spec r1 n); [|discriminate].
    destruct (Nat.ltb_spec r2 n); [|discriminate].
    destruct (lact r1 (pr c r1) (ch c)) as [[[p1 o1] e1]|] eqn:A1; [|discriminate].
    destruct (lact r2 (pr c r2) (ch c)) as [[[p2 o2] e2]|] eqn:A2; [|discriminate].
    simpl in H1, H2. inversion H1; inversion H2; subst; clear H1 H2. simpl.
    rewrite (upd_ne _ r1 p1 r2) by auto. rewrite (upd_ne _ r2 p2 r1) by auto.
    destruct (lact_cop _ _ _ _ _ _ A1) as [C1 N1].
    destruct (lact_cop _ _ _ _ _ _ A2) as [C2 N2].
    rewrite (lact_stable r1 r2 o1 _ _ _ Hr C1 A2).
    rewrite (lact_stable r2 r1 o2 _ _ _ (not_eq_sym Hr) C2 A1).
    simpl. eexists. split; [reflexivity|]. f_equal. f_equal.
    + apply upd_comm; auto.
    + eapply capply_comm; eauto.
    + rewrite (upd_ne (lg c) r1 _ r2) by auto. rewrite (upd_ne (lg c) r2 _ r1) by auto.
      apply upd_comm; auto.
  - exfalso; eapply bar_excl; eauto.
  - exfalso; eapply bar_excl; eauto.
Qed.

Lemma brun_app : forall l1 l2 c, brun (l1 ++ l2) c =
  match brun l1 c with Some c' => brun l2 c' | None => None end.
Proof.
  induction l1; simpl; intros; auto. destruct (bstep a c); auto.
Qed.

Lemma finished_stuck : forall c l, 0 < n -> finished c -> bstep l c = None.
Proof.
  intros c l Hn Hf. destruct l as [r|].
  - rewrite bstep_rank. destruct (Nat.ltb_spec r n); auto.
    destruct (Hf r H) as [x E]. rewrite E. auto.
  - unfold Mpi.bstep. destruct (all_at_barrier msg event F n c) eqn:E; auto.
    rewrite all_at_barrier_spec in E. destruct (E 0 Hn), (Hf 0 Hn). congruence.
Qed.

Lemma label_eq_dec : forall a b : label, {a = b} + {a <> b}.
Proof. decide equality. apply Nat.eq_dec. Qed.

(** Any first step of a configuration that has a run to a stuck configuration
    can be completed to the same configuration. *)
Lemma commute_final : forall ls c d l c1,
  brun ls c = Some d -> (forall l, bstep l d = None) -> bstep l c = Some c1 ->
  exists ls', brun ls' c1 = Some d /\ S (length ls') = length ls.
Proof.
  induction ls as [|l0 ls IH]; intros c d l c1 Hr Hs Hl; simpl in Hr.
  - inversion Hr; subst. rewrite Hs in Hl. discriminate.
  - destruct (bstep l0 c) as [c0|] eqn:E0; [|discriminate].
    destruct (label_eq_dec l0 l) as [->|Hne].
    + rewrite Hl in E0. inversion E0; subst. exists ls; auto.
    + destruct (diamond l0 l c c0 c1 Hne E0 Hl) as [c' [H1 H2]].
      destruct (IH c0 d l c' Hr Hs H1) as [ls' [H3 H4]].
      exists (l0 :: ls'). simpl. rewrite H2. split; auto.
Qed.

Lemma commute_final_run : forall ls1 ls c d c1,
  brun ls c = Some d -> (forall l, bstep l d = None) -> brun ls1 c = Some c1 ->
  exists ls', brun ls' c1 = Some d /\ length ls1 + length ls' = length ls.
Proof.
  induction ls1 as [|l ls1 IH]; intros ls c d c1 Hr Hs H1; simpl in H1.
  - inversion H1; subst. exists ls; auto.
  - destruct (bstep l c) as [c0|] eqn:E; [|discriminate].
    destruct (commute_final ls c d l c0 Hr Hs E) as [ls0 [R0 L0]].
    destruct (IH ls0 c0 d c1 R0 Hs H1) as [ls' [R' L']].
    exists ls'. simpl. split; auto. lia.
Qed.

(** A label that occurs in a run and is enabled at the start can be moved to the front. *)
Lemma commute_front : forall ls c X l c1,
  brun ls c = Some X -> bstep l c = Some c1 -> In l ls ->
  exists ls', brun ls' c1 = Some X.
Proof.
  induction ls as [|l0 ls IH]; intros c X l c1 Hr Hl Hin; [destruct Hin|].
  simpl in Hr. destruct (bstep l0 c) as [c0|] eqn:E0; [|discriminate].
  destruct (label_eq_dec l0 l) as [->|Hne].
  - rewrite Hl in E0; inversion E0; subst. eauto.
  - destruct Hin as [?|Hin]; [congruence|].
    destruct (diamond l0 l c c0 c1 Hne E0 Hl) as [c' [H1 H2]].
    destruct (IH c0 X l c' Hr H1 Hin) as [ls' R].
    exists (l0 :: ls'). simpl. rewrite H2. auto.
Qed.

(** A rank whose label does not occur in a run, and which is not at a barrier, has not moved. *)
Lemma unmoved : forall ls c X r,
  r < n -> brun ls c = Some X -> ~ In (LRank r) ls ->
  (forall k, pr c r <> Barrier k) -> pr X r = pr c r.
Proof.
  induction ls as [|l ls IH]; intros c X r Hr Hrun Hin Hb; simpl in Hrun.
  - inversion Hrun; auto.
  - destruct (bstep l c) as [c0|] eqn:E; [|discriminate].
    assert (E' : pr c0 r = pr c r).
    { destruct l as [r'|].
      - rewrite bstep_rank in E. destruct (Nat.ltb r' n); [|discriminate].
        destruct (lact r' (pr c r') (ch c)) as [[[p o] le]|]; [|discriminate].
        simpl in E. inversion E; subst; simpl. apply upd_ne.
        intro; subst; apply Hin; left; auto.
      - exfalso. unfold Mpi.bstep in E.
        destruct (all_at_barrier msg event F n c) eqn:A; [|discriminate].
        rewrite all_at_barrier_spec in A. destruct (A r Hr) as [k Ek]. eapply Hb; eauto. }
    rewrite <- E'. eapply IH; eauto.
    + intro; apply Hin; right; auto.
    + rewrite E'. auto.
Qed.

(** Queues from a rank that has not moved do not grow. *)
Lemma step_queue : forall r c c0 s d t,
  bstep (LRank r) c = Some c0 ->
  (r <> s -> r <> d -> ch c0 s d t = ch c s d t)
  /\ (r <> s -> ch c s d t = [] -> ch c0 s d t = [])
  /\ (r <> d -> ch c s d t <> [] -> ch c0 s d t <> []).
Proof.
  intros r c c0 s d t E. rewrite bstep_rank in E. destruct (Nat.ltb r n); [|discriminate].
  destruct (lact r (pr c r) (ch c)) as [[[p o] le]|] eqn:L; [|discriminate].
  simpl in E. inversion E; subst; clear E; simpl.
  destruct (lact_cop _ _ _ _ _ _ L) as [C _].
  destruct o; simpl in *; subst; auto.
  - unfold Mpi.cupd. destruct (key_eqb_spec r d0 t0 s d t) as [[? [? ?]]|]; [|auto].
    subst. repeat split; intros; try congruence. destruct (ch c s d t); simpl; congruence.
  - unfold Mpi.cupd. destruct (key_eqb_spec s0 r t0 s d t) as [[? [? ?]]|]; [|auto].
    subst. repeat split; intros; try congruence. rewrite H0; auto.
  - unfold Mpi.cbcast. destruct (Nat.eqb_spec s r); simpl; [|auto].
    repeat split; intros; try congruence.
    destruct (_ && _ && _); auto. destruct (ch c s d t); simpl; congruence.
Qed.

Lemma bar_queue : forall c c0, bstep LBar c = Some c0 -> ch c0 = ch c.
Proof.
  intros c c0 E. unfold Mpi.bstep in E. destruct (all_at_barrier msg event F n c); inversion E; auto.
Qed.

Lemma queue_empty_unmoved : forall ls c X s d t,
  brun ls c = Some X -> ~ In (LRank s) ls -> ch c s d t = [] -> ch X s d t = [].
Proof.
  induction ls as [|l ls IH]; intros c X s d t Hr Hin H0; simpl in Hr.
  - inversion Hr; subst; auto.
  - destruct (bstep l c) as [c0|] eqn:E; [|discriminate].
    eapply IH; [exact Hr|intro; apply Hin; right; auto|].
    destruct l as [r|].
    + apply (step_queue r c c0 s d t E); auto. intro; subst; apply Hin; left; auto.
    + rewrite (bar_queue _ _ E); auto.
Qed.

Lemma queue_full_unmoved : forall ls c X s d t,
  brun ls c = Some X -> ~ In (LRank d) ls -> ch c s d t <> [] -> ch X s d t <> [].
Proof.
  induction ls as [|l ls IH]; intros c X s d t Hr Hin H0; simpl in Hr.
  - inversion Hr; subst; auto.
  - destruct (bstep l c) as [c0|] eqn:E; [|discriminate].
    eapply IH; [exact Hr|intro; apply Hin; right; auto|].
    destruct l as [r|].
    + apply (step_queue r c c0 s d t E); auto. intro; subst; apply Hin; left; auto.
    + rewrite (bar_queue _ _ E); auto.
Qed.

(** A receiver waiting on an empty queue cannot move before its sender. *)
Lemma recv_waits : forall ls c X s d t k,
  d < n -> brun ls c = Some X -> ~ In (LRank s) ls -> pr c d = Recv s t k ->
  ch c s d (Some t) = [] -> ~ In (LRank d) ls.
Proof.
  induction ls as [|l ls IH]; intros c X s d t k Hd Hr Hin Hp Hq; [auto|].
  simpl in Hr. destruct (bstep l c) as [c0|] eqn:E; [|discriminate].
  intros [->|H].
  - rewrite bstep_rank in E. destruct (Nat.ltb d n); [|discriminate].
    rewrite Hp in E. simpl in E. rewrite Hq in E. discriminate.
  - destruct l as [r|].
    + assert (r <> s) by (intro; subst; apply Hin; left; auto).
      assert (r <> d).
      { intro; subst. rewrite bstep_rank in E. destruct (Nat.ltb d n); [|discriminate].
        rewrite Hp in E. simpl in E. rewrite Hq in E. discriminate. }
      eapply (IH c0 X s d t k); eauto.
      * intro; apply Hin; right; auto.
      * rewrite bstep_rank in E. destruct (Nat.ltb r n); [|discriminate].
        destruct (lact r (pr c r) (ch c)) as [[[p o] le]|]; [|discriminate].
        simpl in E; inversion E; subst; simpl. rewrite upd_ne; auto.
      * apply (step_queue r c c0 s d (Some t) E); auto.
    + unfold Mpi.bstep in E. destruct (all_at_barrier msg event F n c) eqn:A; [|discriminate].
      rewrite all_at_barrier_spec in A. destruct (A d Hd). congruence.
Qed.

(** ** The broadcast as a sequence of eager steps *)
Section BcastRun.
Variables (root : nat) (mm : nat -> msg) (kk : nat -> msg -> proc).

(** after the root and the ranks of [done] have taken their part *)
Definition bc_state (c : cfg) (done : list nat) : cfg :=
  mkCfg (fun r => if Nat.ltb r n && (Nat.eqb r root || existsb (Nat.eqb r) done)
                  then kk r (mm root) else pr c r)
        (fun s d t => if Nat.eqb s root && negb (Nat.eqb d root) && Nat.ltb d n
                         && match t with None => true | Some _ => false end
                         && negb (existsb (Nat.eqb d) done)
                      then [mm root] else ch c s d t)
        (lg c).

Lemma existsb_eqb_in : forall x l, existsb (Nat.eqb x) l = true <-> In x l.
Proof.
  intros. rewrite existsb_exists. split.
  - intros [y [H E]]. apply Nat.eqb_eq in E. subst; auto.
  - intros H. exists x. rewrite Nat.eqb_refl. auto.
Qed.

Variable c : cfg.
Hypothesis Hroot : root < n.
Hypothesis Hp : forall r, r < n -> pr c r = Bcast root (mm r) (kk r).
Hypothesis Hc : forall d, ch c root d None = [].

Lemma bc_first : bstep (LRank root) c = Some (bc_state c []).
Proof.
  rewrite bstep_rank. destruct (Nat.ltb_spec root n); [|lia].
  rewrite (Hp root) by auto. simpl. rewrite Nat.eqb_refl. simpl.
  unfold bc_state. f_equal. f_equal.
  - apply functional_extensionality; intro x. unfold upd.
    destruct (Nat.eqb_spec x root); subst; simpl.
    + destruct (Nat.ltb_spec root n); auto; lia.
    + rewrite andb_false_r. auto.
  - repeat (apply functional_extensionality; intro). unfold Mpi.cbcast.
    rewrite andb_true_r. destruct (Nat.eqb_spec x root); simpl; auto. subst.
    destruct x1; simpl; rewrite ?andb_false_r, ?andb_true_r; auto.
    rewrite Hc. destruct (_ && _); auto.
  - rewrite app_nil_r, upd_id; auto.
Qed.

Lemma bc_next : forall done r, r < n -> r <> root -> ~ In r done ->
  bstep (LRank r) (bc_state c done) = Some (bc_state c (r :: done)).
Proof.
  intros done r Hr Hne Hin. rewrite bstep_rank.
  destruct (Nat.ltb_spec r n) as [Hlt|]; [|lia].
  assert (Hnot : existsb (Nat.eqb r) done = false).
  { destruct (existsb (Nat.eqb r) done) eqn:E; auto. apply existsb_eqb_in in E. tauto. }
  unfold bc_state at 1 2. cbn [pr ch lg].
  rewrite (proj2 (Nat.ltb_lt r n) Hr), (proj2 (Nat.eqb_neq r root) Hne), Hnot. simpl.
  rewrite (Hp r Hr). unfold lact.
  rewrite (proj2 (Nat.eqb_neq r root) Hne), Nat.eqb_refl,
     (proj2 (Nat.ltb_lt r n) Hr), Hnot. simpl.
  f_equal. unfold bc_state. f_equal.
  - apply functional_extensionality; intro x. unfold upd. simpl.
    destruct (Nat.eqb_spec x r); subst; simpl.
    + rewrite (proj2 (Nat.ltb_lt r n) Hr), orb_true_r. auto.
    + auto.
  - apply functional_extensionality; intro x; apply functional_extensionality; intro y;
      apply functional_extensionality; intro z. unfold Mpi.cupd.
    rewrite Nat.eqb_refl, (proj2 (Nat.eqb_neq r root) Hne), (proj2 (Nat.ltb_lt r n) Hr), Hnot. simpl.
    destruct (key_eqb_spec root r None x y z) as [[? [? ?]]|N].
    + subst. rewrite !Nat.eqb_refl. simpl. rewrite !andb_false_r. auto.
    + destruct (Nat.eqb_spec x root); simpl; auto.
      destruct (Nat.eqb_spec y r); simpl.
      * subst. destruct z; simpl; [rewrite !andb_false_r; auto|]. exfalso; apply N; auto.
      * auto.
  - rewrite app_nil_r, upd_id. auto.
Qed.

Lemma bc_all : forall todo done, NoDup todo -> (forall r, In r todo -> r < n /\ r <> root /\ ~ In r done) ->
  brun (map LRank todo) (bc_state c done) = Some (bc_state c (rev todo ++ done)).
Proof.
  induction todo as [|r todo IH]; intros done Hnd Hall; [reflexivity|].
  cbn [Mpi.brun map rev].
  destruct (Hall r) as [H1 [H2 H3]]; [left; auto|].
  rewrite bc_next by auto. inversion Hnd; subst.
  rewrite IH; auto.
  - rewrite <- app_assoc. auto.
  - intros x Hx. destruct (Hall x) as [A [B C]]; [right; auto|].
    repeat split; auto. intros [?|?]; subst; auto.
Qed.

Definition others : list nat := filter (fun r => negb (Nat.eqb r root)) (seq 0 n).

Lemma others_in : forall r, In r others <-> r < n /\ r <> root.
Proof using n root.
  clear Hroot Hp Hc.
  intros. unfold others. rewrite filter_In, in_seq, negb_true_iff, Nat.eqb_neq. lia.
Qed.

Lemma bc_done : forall done, (forall r, r < n -> r <> root -> In r done) ->
  bc_state c done = mkCfg (fun r => if Nat.ltb r n then kk r (mm root) else pr c r) (ch c) (lg c).
Proof.
  intros done H. unfold bc_state. f_equal.
  - apply functional_extensionality; intro r.
    destruct (Nat.ltb_spec r n); simpl; auto.
    destruct (Nat.eqb_spec r root); simpl; auto.
    rewrite (proj2 (existsb_eqb_in r done)); auto.
  - repeat (apply functional_extensionality; intro).
    destruct (Nat.eqb_spec x root); simpl; auto.
    destruct (Nat.eqb_spec x0 root); simpl; auto.
    destruct (Nat.ltb_spec x0 n); simpl; auto.
    destruct x1; simpl; auto.
    rewrite (proj2 (existsb_eqb_in x0 done)); simpl; auto.
Qed.

Lemma bc_run : brun (LRank root :: map LRank others) c =
  Some (mkCfg (fun r => if Nat.ltb r n then kk r (mm root) else pr c r) (ch c) (lg c)).
Proof.
  cbn [Mpi.brun]. rewrite bc_first. rewrite bc_all.
  - f_equal. apply bc_done. intros r H1 H2. rewrite app_nil_r, <- in_rev. apply others_in; auto.
  - unfold others. apply NoDup_filter, seq_NoDup.
  - intros r H. apply others_in in H. simpl. tauto.
Qed.

End BcastRun.

(** ** Each mixed step is a non-empty eager run *)
Lemma cupd_pushpop : forall (c : chans) s d t m, c s d t = [] ->
  cupd (cupd c s d t (c s d t ++ [m])) s d t [] = c.
Proof.
  intros. repeat (apply functional_extensionality; intro). unfold Mpi.cupd.
  destruct (key_eqb_spec s d t x x0 x1) as [[? [? ?]]|]; subst; auto.
Qed.

Lemma comm_run : forall (c : cfg) s d t m k k', s < n -> d < n -> s <> d ->
  pr c s = Send d t m k -> pr c d = Recv s t k' -> ch c s d (Some t) = [] ->
  brun [LRank s; LRank d] c = Some (mkCfg (upd (upd (pr c) s k) d (k' m)) (ch c) (lg c)).
Proof.
  intros c s d t m k k' Hs Hd Hne E1 E2 Eq.
  cbn [Mpi.brun]. unfold Mpi.bstep at 1. rewrite (proj2 (Nat.ltb_lt s n) Hs), E1, (proj2 (Nat.ltb_lt d n) Hd).
  unfold Mpi.bstep. rewrite (proj2 (Nat.ltb_lt d n) Hd). cbn [pr ch lg].
  rewrite upd_ne by auto. rewrite E2.
  assert (Eh : cupd (ch c) s d (Some t) (ch c s d (Some t) ++ [m]) s d (Some t) = [m]).
  { unfold Mpi.cupd. destruct (key_eqb_spec s d (Some t) s d (Some t)); [|intuition]. rewrite Eq; auto. }
  rewrite Eh. rewrite cupd_pushpop by auto. auto.
Qed.

Lemma mstep_run : forall c c', mstep c c' -> exists ls, ls <> [] /\ brun ls c = Some c'.
Proof.
  intros c c' H. inversion H; subst; clear H.
  - exists [l]. simpl. rewrite H0. split; auto; congruence.
  - exists [LRank s; LRank d]. split; [congruence|]. apply comm_run with (t := t); auto.
  - exists (LRank root :: map LRank (others root)). split; [congruence|].
    rewrite (bc_run root mm kk c H0 H1 H4). do 2 f_equal.
    apply functional_extensionality; intro r.
    destruct (Nat.ltb_spec r n); auto. symmetry; auto.
Qed.

Lemma mstar_run : forall c k c', mstar c k c' -> exists ls, k <= length ls /\ brun ls c = Some c'.
Proof.
  induction 1.
  - exists []. auto.
  - destruct (mstep_run _ _ H) as [l1 [N1 R1]]. destruct IHmstar as [l2 [L2 R2]].
    exists (l1 ++ l2). rewrite brun_app, R1, app_length. split; auto.
    destruct l1; [congruence|]. simpl. lia.
Qed.

Lemma ustep_mstep : forall c c', ustep c c' -> mstep c c'.
Proof.
  intros c c' H. inversion H; subst.
  - eapply m_eager; eauto.
  - eapply m_rendezvous; eauto.
  - eapply m_joint; eauto.
Qed.

(** ** A synchronous step is an eager run on empty queues *)
Lemma sstep_run : forall c c', sstep c c' -> exists ls, brun ls (inj c) = Some (inj c').
Proof.
  intros c c' H. inversion H; subst; clear H.
  - exists [LRank s; LRank d]. apply (comm_run (inj c) s d t m k k'); auto.
  - exists [LRank r]. simpl. rewrite (proj2 (Nat.ltb_lt r n) H0), H1. auto.
  - exists [LBar]. cbn [Mpi.brun]. unfold Mpi.bstep.
    assert (A : all_at_barrier msg event F n (inj c) = true).
    { apply all_at_barrier_spec. intros r Hr. exists (kk r). apply H1; auto. }
    rewrite A. unfold inj; simpl. do 2 f_equal.
    apply functional_extensionality; intro r. destruct (Nat.ltb_spec r n); auto.
    rewrite H1; auto.
  - exists (LRank root :: map LRank (others root)).
    rewrite (bc_run root mm kk (inj c)); auto.
Qed.

Lemma sstar_run : forall c c', sstar c c' -> exists ls, brun ls (inj c) = Some (inj c').
Proof.
  induction 1.
  - exists []; auto.
  - destruct (sstep_run _ _ H) as [l1 R1]. destruct IHsstar as [l2 R2].
    exists (l1 ++ l2). rewrite brun_app, R1. auto.
Qed.

(** ** Progress without buffering *)
Lemma run_labels_all_waiting : forall ls c X,
  brun ls c = Some X -> (forall l c', bstep l c = Some c' -> False) -> ls = [].
Proof.
  intros [|l ls] c X H Hs; auto. simpl in H.
  destruct (bstep l c) eqn:E; [|discriminate]. exfalso; eauto.
Qed.

Lemma in_dec_label : forall (l : label) ls, {In l ls} + {~ In l ls}.
Proof. intros; apply in_dec, label_eq_dec. Qed.

Lemma progress_from : forall c d, sstar c d -> finished (inj d) ->
  forall ls X, brun ls (inj c) = Some X -> finished X \/ exists X', ustep X X'.
Proof.
  intros c d H. induction H as [c|c c1 d Hs Hst IH]; intros Hf ls X Hr.
  - left. destruct ls as [|l ls]; [inversion Hr; subst; auto|].
    destruct (Nat.eq_dec n 0) as [E|E].
    + intros r Hlt. lia.
    + simpl in Hr. rewrite finished_stuck in Hr; [discriminate|lia|auto].
  - specialize (IH Hf). inversion Hs; subst; clear Hs.
    + (* communication s -> d *)
      rename d0 into dd.
      destruct (in_dec_label (LRank s) ls) as [Is|Ns].
      * assert (Es : bstep (LRank s) (inj c) =
           Some (mkCfg (upd (spr c) s k) (cupd (no_chans msg) s dd (Some t) [m]) (slg c))).
        { unfold Mpi.bstep. simpl. rewrite (proj2 (Nat.ltb_lt s n) H), H2, (proj2 (Nat.ltb_lt dd n) H0). auto. }
        destruct (commute_front _ _ _ _ _ Hr Es Is) as [ls1 R1].
        destruct (in_dec_label (LRank dd) ls1) as [Id|Nd].
        -- assert (Ed : bstep (LRank dd) (mkCfg (upd (spr c) s k) (cupd (no_chans msg) s dd (Some t) [m]) (slg c))
                = Some (inj (mkS (upd (upd (spr c) s k) dd (k' m)) (slg c)))).
           { pose proof (comm_run (inj c) s dd t m k k' H H0 H1 H2 H3 eq_refl) as R.
             cbn [Mpi.brun] in R. rewrite Es in R.
             destruct (bstep (LRank dd) _); [|discriminate]. auto. }
           destruct (commute_front _ _ _ _ _ R1 Ed Id) as [ls2 R2]. eauto.
        -- right.
           assert (Hq : ch X s dd (Some t) <> []).
           { eapply queue_full_unmoved; [exact R1|auto|]. simpl. unfold Mpi.cupd.
             destruct (key_eqb_spec s dd (Some t) s dd (Some t)); [congruence|intuition]. }
           assert (Hpd : pr X dd = Recv s t k').
           { rewrite <- H3. transitivity (upd (spr c) s k dd).
             - apply (unmoved ls1 _ X dd H0 R1 Nd). simpl. rewrite upd_ne by auto. rewrite H3. congruence.
             - rewrite upd_ne; auto. }
           destruct (ch X s dd (Some t)) as [|m' q] eqn:Q; [congruence|].
           eexists. eapply (u_eager msg event F n (LRank dd)).
           ++ simpl. rewrite Hpd. auto.
           ++ simpl. rewrite (proj2 (Nat.ltb_lt dd n) H0), Hpd, Q. reflexivity.
      * right.
        assert (Hps : pr X s = Send dd t m k).
        { rewrite <- H2. apply (unmoved ls (inj c) X s H Hr Ns). simpl. rewrite H2. congruence. }
        assert (Nd : ~ In (LRank dd) ls) by (eapply (recv_waits ls (inj c)); eauto).
        assert (Hpd : pr X dd = Recv s t k').
        { rewrite <- H3. apply (unmoved ls (inj c) X dd H0 Hr Nd). simpl. rewrite H3. congruence. }
        assert (Hq : ch X s dd (Some t) = []) by (eapply queue_empty_unmoved; eauto).
        eexists. apply (u_rendezvous msg event F n X s dd t m k k' H H0 H1 Hps Hpd Hq).
    + (* output *)
      assert (Er : bstep (LRank r) (inj c) =
         Some (inj (mkS (upd (spr c) r k) (upd (slg c) r (slg c r ++ [e]))))).
      { simpl. rewrite (proj2 (Nat.ltb_lt r n) H), H0. auto. }
      destruct (in_dec_label (LRank r) ls) as [Ir|Nr].
      * destruct (commute_front _ _ _ _ _ Hr Er Ir) as [ls1 R1]. eauto.
      * right. assert (Hpr : pr X r = Out e k).
        { rewrite <- H0. apply (unmoved ls (inj c) X r H Hr Nr). simpl. rewrite H0. congruence. }
        eexists. eapply (u_eager msg event F n (LRank r)).
        -- simpl. rewrite Hpr; auto.
        -- simpl. rewrite (proj2 (Nat.ltb_lt r n) H), Hpr. reflexivity.
    + (* barrier *)
      assert (Eb : bstep LBar (inj c) =
         Some (inj (mkS (fun r => if Nat.ltb r n then kk r else spr c r) (slg c)))).
      { unfold Mpi.bstep.
        assert (A : all_at_barrier msg event F n (inj c) = true).
        { apply all_at_barrier_spec. intros r Hr'. exists (kk r). apply H0; auto. }
        rewrite A. unfold inj; simpl. do 2 f_equal.
        apply functional_extensionality; intro r. destruct (Nat.ltb_spec r n); auto.
        rewrite H0; auto. }
      destruct (in_dec_label LBar ls) as [Ib|Nb].
      * destruct (commute_front _ _ _ _ _ Hr Eb Ib) as [ls1 R1]. eauto.
      * right. assert (ls = []).
        { destruct ls as [|l ls]; auto. exfalso. simpl in Hr.
          destruct (bstep l (inj c)) eqn:E; [|discriminate].
          destruct l as [r|]; [|apply Nb; left; auto].
          apply (bar_excl _ _ _ _ Eb E). }
        subst. inversion Hr; subst. eexists. apply (u_eager msg event F n LBar _ _ eq_refl Eb).
    + (* broadcast *)
      set (c0 := inj c) in *.
      assert (Hp0 : forall r, r < n -> pr c0 r = Bcast root (mm r) (kk r)) by (intros; apply H0; auto).
      assert (Hc0 : forall x, ch c0 root x None = []) by auto.
      destruct (in_dec_label (LRank root) ls) as [Ir|Nr].
      * destruct (commute_front _ _ _ _ _ Hr (bc_first root mm kk c0 H Hp0 Hc0) Ir) as [ls1 R1].
        (* process the other ranks one by one *)
        assert (Step : forall todo done lsx, NoDup todo ->
            (forall r, In r todo -> r < n /\ r <> root /\ ~ In r done) ->
            (forall r, r < n -> r <> root -> In r todo \/ In r done) ->
            brun lsx (bc_state root mm kk c0 done) = Some X ->
            finished X \/ exists X', ustep X X').
        { induction todo as [|r todo IHt]; intros done lsx Hnd Hall Hcov Hrun.
          - rewrite bc_done in Hrun; auto.
            + eapply IH. exact Hrun.
            + intros r A B. destruct (Hcov r A B) as [[]|]; auto.
          - destruct (Hall r) as [A [B C]]; [left; auto|].
            destruct (in_dec_label (LRank r) lsx) as [I|N].
            + destruct (commute_front _ _ _ _ _ Hrun
                 (bc_next root mm kk c0 H Hp0 Hc0 done r A B C) I) as [ls2 R2].
              inversion Hnd; subst.
              apply (IHt (r :: done) ls2); auto.
              * intros x Hx. destruct (Hall x) as [A1 [B1 C1]]; [right; auto|].
                repeat split; auto. intros [?|?]; subst; auto.
              * intros x A1 B1. destruct (Hcov x A1 B1) as [[?|?]|?]; simpl; auto.
            + right.
              assert (Hnot : existsb (Nat.eqb r) done = false).
              { destruct (existsb (Nat.eqb r) done) eqn:E; auto. apply existsb_eqb_in in E. tauto. }
              assert (Hpr0 : pr (bc_state root mm kk c0 done) r = Bcast root (mm r) (kk r)).
              { simpl. rewrite (proj2 (Nat.eqb_neq r root) B), Hnot. simpl.
                rewrite andb_false_r. apply H0; auto. }
              assert (Hpr : pr X r = Bcast root (mm r) (kk r)).
              { rewrite <- Hpr0. apply (unmoved lsx _ X r A Hrun N). rewrite Hpr0. congruence. }
              assert (Hq : ch X root r None <> []).
              { eapply queue_full_unmoved; [exact Hrun|auto|]. simpl.
                rewrite Nat.eqb_refl, (proj2 (Nat.eqb_neq r root) B), (proj2 (Nat.ltb_lt r n) A), Hnot.
                simpl. congruence. }
              destruct (ch X root r None) as [|m' q] eqn:Q; [congruence|].
              eexists. eapply (u_eager msg event F n (LRank r)).
              * simpl. rewrite Hpr. apply Nat.eqb_neq; auto.
              * simpl. rewrite (proj2 (Nat.ltb_lt r n) A), Hpr, (proj2 (Nat.eqb_neq r root) B), Q.
                reflexivity. }
        apply (Step (others root) [] ls1); auto.
        -- unfold others. apply NoDup_filter, seq_NoDup.
        -- intros r Hx. apply others_in in Hx. simpl. destruct Hx; repeat split; auto.
        -- intros r A B. left. apply others_in; auto.
      * right.
        assert (ls = []).
        { destruct ls as [|l ls]; auto. exfalso. simpl in Hr.
          destruct (bstep l c0) eqn:E; [|discriminate].
          destruct l as [r|].
          - rewrite bstep_rank in E. destruct (Nat.ltb_spec r n); [|discriminate].
            rewrite (Hp0 r) in E by auto. unfold lact in E.
            destruct (Nat.eqb_spec r root); [subst; apply Nr; left; auto|].
            rewrite Hc0 in E. discriminate.
          - unfold Mpi.bstep in E. destruct (all_at_barrier msg event F n c0) eqn:A; [|discriminate].
            rewrite all_at_barrier_spec in A. destruct (A root H) as [k Ek].
            rewrite Hp0 in Ek by auto. discriminate. }
        subst. inversion Hr; subst. eexists.
        eapply (u_joint msg event F n c0 root (mm root) (fun r => kk r (mm root)) kk mm); eauto.
Qed.

(** ** The result used by the program proofs *)
Theorem every_schedule : forall c d, 0 < n -> sstar c d -> finished (inj d) ->
  exists N, forall k X, mstar (inj c) k X ->
    (* bounded length *)
    k <= N /\
    (* progress, even when nothing is ever buffered *)
    (finished X \/ exists X', ustep X X') /\
    (* no rank runs into undefined behaviour *)
    (forall r e, r < n -> pr X r <> Fail e) /\
    (* completed runs all end in the same configuration, with empty queues *)
    (finished X -> X = inj d) /\
    (* a completed run remains reachable *)
    (exists k', mstar X k' (inj d)).
Proof.
  intros c d Hn Hs Hf. destruct (sstar_run _ _ Hs) as [ls R].
  assert (Stuck : forall l, bstep l (inj d) = None) by (intros; apply finished_stuck; auto).
  exists (length ls). intros k X HX.
  destruct (mstar_run _ _ _ HX) as [l1 [L1 R1]].
  destruct (commute_final_run _ _ _ _ _ R Stuck R1) as [l2 [R2 L2]].
  assert (Hreach : forall l Y, brun l Y = Some (inj d) -> mstar Y (length l) (inj d)).
  { induction l as [|a l IHl]; intros Y HY; simpl in *.
    - inversion HY; subst; constructor.
    - destruct (bstep a Y) eqn:E; [|discriminate]. econstructor; [eapply m_eager; eauto|auto]. }
  repeat split.
  - lia.
  - eapply progress_from; eauto.
  - intros r e Hr Ef.
    assert (K : forall l Y, brun l Y = Some (inj d) -> pr Y r = Fail e -> False).
    { induction l as [|a l IHl]; intros Y HY EY; simpl in HY.
      - inversion HY; subst. destruct (Hf r Hr). congruence.
      - destruct (bstep a Y) as [Y'|] eqn:E; [|discriminate].
        apply (IHl Y' HY). destruct a as [r'|].
        + rewrite bstep_rank in E. destruct (Nat.ltb r' n); [|discriminate].
          destruct (lact r' (pr Y r') (ch Y)) as [[[p o] le]|] eqn:La; [|discriminate].
          simpl in E; inversion E; subst; simpl. rewrite upd_ne; auto.
          intro; subst. rewrite EY in La. discriminate.
        + unfold Mpi.bstep in E. destruct (all_at_barrier msg event F n Y) eqn:A; [|discriminate].
          rewrite all_at_barrier_spec in A. destruct (A r Hr). congruence. }
    eauto.
  - intros HfX. destruct l2 as [|a l2]; [inversion R2; auto|].
    simpl in R2. rewrite finished_stuck in R2; [discriminate|auto|auto].
  - eauto.
Qed.

End Meta.
