(** Reasoning about a group of ranks running in step: lemmas for the communication shapes
    used by the program (root sends to all, root collects from all, barrier, broadcast). *)
From Coq Require Import ZArith Arith List Bool Lia FunctionalExtensionality.
From Verif Require Import Base Mpi MpiMeta.
Import ListNotations.
Local Open Scope nat_scope.

Section Spmd.
Context {msg event F : Type}.
Variable n : nat.
Notation proc := (proc msg event).
Notation sstar := (sstar msg event F n).
Notation sstep := (sstep msg event F n).

Definition SYS (P : nat -> proc F) (L : nat -> list event) : scfg msg event F :=
  mkS (fun r => if Nat.ltb r n then P r else Fail NoSuchRank) L.

Definition addlog (L es : nat -> list event) : nat -> list event :=
  fun r => if Nat.ltb r n then L r ++ es r else L r.

Definition ev {X} (f : nat -> proc X) (x : nat -> X) (es : nat -> list event) : Prop :=
  forall (K : nat -> X -> proc F) L,
    sstar (SYS (fun r => pbind (f r) (K r)) L) (SYS (fun r => K r (x r)) (addlog L es)).

Lemma SYS_ext : forall P Q L, (forall r, r < n -> P r = Q r) -> SYS P L = SYS Q L.
Proof.
  intros. unfold SYS. f_equal. apply functional_extensionality; intro r.
  destruct (Nat.ltb_spec r n); auto.
Qed.

Lemma addlog_ext : forall L a b, (forall r, r < n -> a r = b r) -> addlog L a = addlog L b.
Proof.
  intros. unfold addlog. apply functional_extensionality; intro r.
  destruct (Nat.ltb_spec r n); auto. rewrite H; auto.
Qed.

Lemma addlog_app : forall L a b, addlog (addlog L a) b = addlog L (fun r => a r ++ b r).
Proof.
  intros. unfold addlog. apply functional_extensionality; intro r.
  destruct (Nat.ltb_spec r n); auto. rewrite app_assoc; auto.
Qed.

Lemma addlog_nil : forall L es, (forall r, r < n -> es r = []) -> addlog L es = L.
Proof.
  intros. unfold addlog. apply functional_extensionality; intro r.
  destruct (Nat.ltb_spec r n); auto. rewrite H, app_nil_r; auto.
Qed.

Lemma ev_ext : forall {X} (f f' : nat -> proc X) x x' es es',
  (forall r, r < n -> f r = f' r) -> (forall r, r < n -> x r = x' r) ->
  (forall r, r < n -> es r = es' r) -> ev f x es -> ev f' x' es'.
Proof.
  intros X f f' x x' es es' Hf Hx He H K L. specialize (H K L).
  rewrite (SYS_ext (fun r => pbind (f' r) (K r)) (fun r => pbind (f r) (K r))).
  - rewrite (SYS_ext (fun r => K r (x' r)) (fun r => K r (x r))).
    + rewrite (addlog_ext L es' es); auto. intros; symmetry; auto.
    + intros; rewrite Hx; auto.
  - intros; rewrite Hf; auto.
Qed.

Lemma ev_ret : forall {X} (x : nat -> X), ev (fun r => Ret (x r)) x (fun _ => []).
Proof.
  intros X x K L. simpl. rewrite addlog_nil; auto. apply ss_refl.
Qed.

Lemma ev_bind : forall {X Y} (f : nat -> proc X) (g : nat -> X -> proc Y) x y e1 e2,
  ev f x e1 -> ev (fun r => g r (x r)) y e2 ->
  ev (fun r => pbind (f r) (g r)) y (fun r => e1 r ++ e2 r).
Proof.
  intros X Y f g x y e1 e2 H1 H2 K L.
  rewrite (SYS_ext _ (fun r => pbind (f r) (fun v => pbind (g r v) (K r))));
    [|intros; apply pbind_assoc].
  eapply sstar_trans; [apply H1|]. simpl.
  rewrite <- addlog_app. apply H2.
Qed.

(** a bind whose first part produces no event *)
Lemma ev_bind0 : forall {X Y} (f : nat -> proc X) (g : nat -> X -> proc Y) x y e2,
  ev f x (fun _ => []) -> ev (fun r => g r (x r)) y e2 ->
  ev (fun r => pbind (f r) (g r)) y e2.
Proof.
  intros. eapply ev_ext; [reflexivity|reflexivity| |eapply (ev_bind f g x y (fun _ => []) e2); eauto].
  reflexivity.
Qed.

Lemma ev_barrier : forall {X} (f : nat -> proc X) x es,
  0 < n -> ev f x es -> ev (fun r => Barrier (f r)) x es.
Proof.
  intros X f x es Hn H K L. eapply ss_step; [|apply H].
  simpl. assert (S : sstep (SYS (fun r => Barrier (pbind (f r) (K r))) L)
    (mkS (fun r => if Nat.ltb r n then pbind (f r) (K r) else spr (SYS (fun r => Barrier (pbind (f r) (K r))) L) r) L)).
  { apply (s_bar msg event F n (SYS (fun r => Barrier (pbind (f r) (K r))) L)
             (fun r => pbind (f r) (K r))); auto.
    intros r Hr. simpl. rewrite (proj2 (Nat.ltb_lt r n) Hr). auto. }
  match goal with |- Mpi.sstep _ _ _ _ _ ?c => replace c with
    (mkS (fun r => if Nat.ltb r n then pbind (f r) (K r) else spr (SYS (fun r => Barrier (pbind (f r) (K r))) L) r) L) end; auto.
  unfold SYS. f_equal. apply functional_extensionality; intro r. simpl.
  destruct (Nat.ltb r n); auto.
Qed.

Lemma ev_bcast : forall {X} (mm : nat -> msg) (k : nat -> msg -> proc X) x es,
  0 < n -> ev (fun r => k r (mm 0)) x es -> ev (fun r => Bcast 0 (mm r) (k r)) x es.
Proof.
  intros X mm k x es Hn H K L. eapply ss_step; [|apply H]. simpl.
  set (S0 := SYS (fun r => Bcast 0 (mm r) (fun m => pbind (k r m) (K r))) L).
  replace (SYS (fun r => pbind (k r (mm 0)) (K r)) L) with
    (mkS (fun r => if Nat.ltb r n then pbind (k r (mm 0)) (K r) else spr S0 r) L).
  - apply (s_bcast msg event F n S0 0 (fun r m => pbind (k r m) (K r)) mm Hn).
    intros r Hr. simpl. rewrite (proj2 (Nat.ltb_lt r n) Hr). auto.
  - unfold SYS. f_equal. apply functional_extensionality; intro r. simpl.
    destruct (Nat.ltb r n); auto.
Qed.

(** outputs: rank by rank *)
Lemma sys_pouts_rank : forall r es (P : nat -> proc F) k L,
  r < n -> P r = pouts es k ->
  sstar (SYS P L) (SYS (upd P r k) (upd L r (L r ++ es))).
Proof.
  intros r es. induction es as [|e es IH]; intros P k L Hr HP.
  - simpl in HP. rewrite app_nil_r, upd_id. rewrite (SYS_ext (upd P r k) P).
    + apply ss_refl.
    + intros x Hx. unfold upd. destruct (Nat.eqb_spec x r); subst; auto.
  - simpl in HP. eapply ss_step.
    + eapply (s_out msg event F n (SYS P L) r e (pouts es k) Hr).
      simpl. rewrite (proj2 (Nat.ltb_lt r n) Hr). exact HP.
    + cbn [slg SYS].
      match goal with |- Mpi.sstar _ _ _ _ ?c _ => replace c with
        (SYS (upd P r (pouts es k)) (upd L r (L r ++ [e]))) end.
      2:{ unfold SYS. f_equal. apply functional_extensionality; intro x. unfold upd. simpl.
          destruct (Nat.eqb_spec x r); subst; auto. rewrite (proj2 (Nat.ltb_lt r n) Hr); auto. }
      eapply sstar_trans; [eapply (IH _ k _ Hr); apply upd_eq|].
      rewrite upd_eq. rewrite <- app_assoc. simpl.
      replace (upd (upd P r (pouts es k)) r k) with (upd P r k).
      2:{ apply functional_extensionality; intro x. unfold upd. destruct (Nat.eqb x r); auto. }
      replace (upd (upd L r (L r ++ [e])) r (L r ++ e :: es)) with (upd L r (L r ++ e :: es)).
      2:{ apply functional_extensionality; intro x. unfold upd. destruct (Nat.eqb x r); auto. }
      apply ss_refl.
Qed.

Lemma sys_pouts_upto : forall es k L j, j <= n ->
  sstar (SYS (fun r => pouts (es r) (k r)) L)
        (SYS (fun r => if Nat.ltb r j then k r else pouts (es r) (k r))
             (fun r => if Nat.ltb r j then L r ++ es r else L r)).
Proof.
  intros es k L j. induction j as [|j IH]; intros Hj.
  - apply ss_refl.
  - eapply sstar_trans; [apply IH; lia|].
    match goal with |- Mpi.sstar _ _ _ _ (SYS ?P ?LL) _ =>
      pose proof (sys_pouts_rank j (es j) P (k j) LL ltac:(lia)) as Hs end.
    cbv beta in Hs. rewrite Nat.ltb_irrefl in Hs. specialize (Hs eq_refl).
    match goal with |- Mpi.sstar _ _ _ _ _ (SYS ?Q ?LL) =>
      match type of Hs with Mpi.sstar _ _ _ _ _ (SYS ?Q2 ?L2) =>
        replace LL with L2; [rewrite (SYS_ext Q Q2); [exact Hs|]|] end end.
    + intros r Hr. unfold upd. destruct (Nat.eqb_spec r j); subst.
      * rewrite (proj2 (Nat.ltb_lt j (S j))) by lia. auto.
      * destruct (Nat.ltb_spec r j), (Nat.ltb_spec r (S j)); auto; lia.
    + apply functional_extensionality; intro r. unfold upd. destruct (Nat.eqb_spec r j); subst.
      * rewrite (proj2 (Nat.ltb_lt j (S j))) by lia. auto.
      * destruct (Nat.ltb_spec r j), (Nat.ltb_spec r (S j)); auto; lia.
Qed.

Lemma ev_pouts : forall {X} (o : nat -> list event) (k : nat -> proc X) x es,
  ev k x es -> ev (fun r => pouts (o r) (k r)) x (fun r => o r ++ es r).
Proof.
  intros X o k x es H K L. rewrite <- addlog_app.
  assert (B : forall l (p : proc X) (c : X -> proc F), pbind (pouts l p) c = pouts l (pbind p c)).
  { induction l; simpl; intros; auto. rewrite IHl; auto. }
  rewrite (SYS_ext _ (fun r => pouts (o r) (pbind (k r) (K r)))) by (intros; apply B).
  eapply sstar_trans; [apply (sys_pouts_upto o (fun r => pbind (k r) (K r)) L n (le_n n))|].
  rewrite (SYS_ext _ (fun r => pbind (k r) (K r))).
  - apply H.
  - intros r Hr. rewrite (proj2 (Nat.ltb_lt r n) Hr). auto.
Qed.

(** ** Root sends, the others receive *)
Fixpoint send_list {X} (l : list (nat * (nat * msg))) (k : proc X) : proc X :=
  match l with [] => k | (d, (t, m)) :: l' => Send d t m (send_list l' k) end.

Definition msgs_for (r : nat) (l : list (nat * (nat * msg))) : list (nat * msg) :=
  map snd (filter (fun x => Nat.eqb (fst x) r) l).

Inductive feeds {X} : proc X -> list (nat * msg) -> proc X -> Prop :=
| feed_nil : forall p, feeds p [] p
| feed_cons : forall t m k l p', feeds (k m) l p' -> feeds (Recv 0 t k) ((t, m) :: l) p'.

Lemma sys_scatter : forall sends P L k0 (ps : nat -> proc F),
  P 0 = send_list sends k0 ->
  (forall d tm, In (d, tm) sends -> 0 < d < n) ->
  (forall r, 0 < r < n -> feeds (P r) (msgs_for r sends) (ps r)) ->
  sstar (SYS P L) (SYS (fun r => if Nat.eqb r 0 then k0 else ps r) L).
Proof.
  induction sends as [|[d [t m]] sends IH]; intros P L k0 ps H0 Hd Hf.
  - rewrite (SYS_ext (fun r => if Nat.eqb r 0 then k0 else ps r) P); [apply ss_refl|].
    intros r Hr. destruct (Nat.eqb_spec r 0); subst; auto.
    specialize (Hf r ltac:(lia)). inversion Hf; auto.
  - destruct (Hd d (t, m)) as [Hd1 Hd2]; [left; auto|].
    pose proof (Hf d (conj Hd1 Hd2)) as Hfd.
    unfold msgs_for in Hfd. simpl in Hfd. rewrite Nat.eqb_refl in Hfd. simpl in Hfd.
    inversion Hfd as [|t' m' k' l' p' Hk Hp]; subst.
    simpl in H0. eapply ss_step.
    + eapply (s_comm msg event F n (SYS P L) 0 d t m (send_list sends k0) k'); try lia.
      * simpl. rewrite (proj2 (Nat.ltb_lt 0 n)) by lia. auto.
      * simpl. rewrite (proj2 (Nat.ltb_lt d n)) by lia. auto.
    + cbn [slg SYS].
      match goal with |- Mpi.sstar _ _ _ _ ?c _ => replace c with
        (SYS (upd (upd P 0 (send_list sends k0)) d (k' m)) L) end.
      2:{ unfold SYS. f_equal. apply functional_extensionality; intro x. unfold upd. simpl.
          destruct (Nat.eqb_spec x d); subst; [rewrite (proj2 (Nat.ltb_lt d n)) by lia; auto|].
          destruct (Nat.eqb_spec x 0); subst; auto. rewrite (proj2 (Nat.ltb_lt 0 n)) by lia; auto. }
      apply IH.
      * unfold upd. destruct (Nat.eqb_spec 0 d); [lia|]. auto.
      * intros; eapply Hd; right; eauto.
      * intros r Hr. unfold upd. destruct (Nat.eqb_spec r d); subst; auto.
        destruct (Nat.eqb_spec r 0); [lia|].
        specialize (Hf r Hr). unfold msgs_for in Hf. simpl in Hf.
        destruct (Nat.eqb_spec d r); [congruence|]. auto.
Qed.

(** ** The others send, root receives *)
Fixpoint sendto0 {X} (l : list (nat * msg)) (k : proc X) : proc X :=
  match l with [] => k | (t, m) :: l' => Send 0 t m (sendto0 l' k) end.

Inductive drains {X} : proc X -> list (nat * (nat * msg)) -> proc X -> Prop :=
| drain_nil : forall p, drains p [] p
| drain_cons : forall s t m k l p', drains (k m) l p' -> drains (Recv s t k) ((s, (t, m)) :: l) p'.

Lemma drains_app : forall {X} l1 l2 (p p' p'' : proc X),
  drains p l1 p' -> drains p' l2 p'' -> drains p (l1 ++ l2) p''.
Proof. induction 1; simpl; auto. intros. constructor; auto. Qed.

Lemma sys_gather : forall srcs P L k0 (ps : nat -> proc F),
  drains (P 0) srcs k0 ->
  (forall d tm, In (d, tm) srcs -> 0 < d < n) ->
  (forall r, 0 < r < n -> P r = sendto0 (msgs_for r srcs) (ps r)) ->
  sstar (SYS P L) (SYS (fun r => if Nat.eqb r 0 then k0 else ps r) L).
Proof.
  induction srcs as [|[d [t m]] srcs IH]; intros P L k0 ps H0 Hd Hf.
  - inversion H0; subst. rewrite (SYS_ext (fun r => if Nat.eqb r 0 then P 0 else ps r) P); [apply ss_refl|].
    intros r Hr. destruct (Nat.eqb_spec r 0); subst; auto.
    specialize (Hf r ltac:(lia)). auto.
  - destruct (Hd d (t, m)) as [Hd1 Hd2]; [left; auto|].
    pose proof (Hf d (conj Hd1 Hd2)) as Hfd.
    unfold msgs_for in Hfd. simpl in Hfd. rewrite Nat.eqb_refl in Hfd. simpl in Hfd.
    inversion H0 as [|s' t' m' k' l' p' Hk Hp]; subst.
    eapply ss_step.
    + eapply (s_comm msg event F n (SYS P L) d 0 t m); try lia.
      * simpl. rewrite (proj2 (Nat.ltb_lt d n)) by lia. exact Hfd.
      * simpl. rewrite (proj2 (Nat.ltb_lt 0 n)) by lia. symmetry. exact Hp.
    + cbn [slg SYS].
      match goal with |- Mpi.sstar _ _ _ _ (mkS (upd (upd _ d ?a) 0 ?b) _) _ =>
        match goal with |- Mpi.sstar _ _ _ _ ?c _ => replace c with (SYS (upd (upd P d a) 0 b) L) end end.
      2:{ unfold SYS. f_equal. apply functional_extensionality; intro x. unfold upd. simpl.
          destruct (Nat.eqb_spec x 0); subst; [rewrite (proj2 (Nat.ltb_lt 0 n)) by lia; auto|].
          destruct (Nat.eqb_spec x d); subst; auto. rewrite (proj2 (Nat.ltb_lt d n)) by lia; auto. }
      apply IH.
      * unfold upd. simpl. exact Hk.
      * intros; eapply Hd; right; eauto.
      * intros r Hr. unfold upd. destruct (Nat.eqb_spec r 0); [lia|].
        destruct (Nat.eqb_spec r d); subst; auto.
        specialize (Hf r Hr). unfold msgs_for in Hf. simpl in Hf.
        destruct (Nat.eqb_spec d r); [congruence|]. auto.
Qed.

(** messages for rank r in a loop over ranks *)
Definition tagged (i : nat) (l : list (nat * msg)) : list (nat * (nat * msg)) :=
  map (fun tm => (i, tm)) l.

Lemma msgs_for_app : forall r a b, msgs_for r (a ++ b) = msgs_for r a ++ msgs_for r b.
Proof. intros. unfold msgs_for. rewrite filter_app, map_app. auto. Qed.

Lemma msgs_for_tagged_eq : forall r l, msgs_for r (tagged r l) = l.
Proof.
  intros. unfold msgs_for, tagged. induction l; simpl; auto.
  rewrite Nat.eqb_refl. simpl. f_equal; auto.
Qed.

Lemma msgs_for_tagged_ne : forall r i l, r <> i -> msgs_for r (tagged i l) = [].
Proof.
  intros. unfold msgs_for, tagged. induction l; simpl; auto.
  destruct (Nat.eqb_spec i r); [congruence|]. auto.
Qed.

Lemma msgs_for_concat_notin : forall r ms l, ~ In r l ->
  msgs_for r (concat (map (fun i => tagged i (ms i)) l)) = [].
Proof.
  induction l; simpl; intros; auto.
  rewrite msgs_for_app, msgs_for_tagged_ne, IHl; auto.
Qed.

Lemma msgs_for_concat : forall r ms l, NoDup l -> In r l ->
  msgs_for r (concat (map (fun i => tagged i (ms i)) l)) = ms r.
Proof.
  induction l; simpl; intros Hnd Hin; [tauto|].
  inversion Hnd; subst. rewrite msgs_for_app. destruct Hin as [->|Hin].
  - rewrite msgs_for_tagged_eq, msgs_for_concat_notin, app_nil_r; auto.
  - rewrite msgs_for_tagged_ne by (intro; subst; auto). auto.
Qed.

Lemma in_concat_tagged : forall d tm ms l,
  In (d, tm) (concat (map (fun i => tagged i (ms i)) l)) -> In d l.
Proof.
  intros d tm ms l H. apply in_concat in H. destruct H as [x [H1 H2]].
  apply in_map_iff in H1. destruct H1 as [i [<- Hi]].
  unfold tagged in H2. apply in_map_iff in H2. destruct H2 as [y [E _]]. inversion E; subst; auto.
Qed.

Lemma pbind_send_list : forall {X Y} l (k : proc X) (K : X -> proc Y),
  pbind (send_list l k) K = send_list l (pbind k K).
Proof. induction l as [|[d [t m]] l IH]; simpl; intros; auto. rewrite IH; auto. Qed.

Lemma send_list_app : forall {X} a b (k : proc X), send_list (a ++ b) k = send_list a (send_list b k).
Proof. induction a as [|[d [t m]] a IH]; simpl; intros; auto. rewrite IH; auto. Qed.

(** a root loop that only sends *)
Lemma pfor_sends : forall {S} (ms : nat -> list (nat * msg)) (body : nat -> S -> proc S) l s,
  (forall i, In i l -> body i s = send_list (tagged i (ms i)) (Ret s)) ->
  pfor l body s = send_list (concat (map (fun i => tagged i (ms i)) l)) (Ret s).
Proof.
  induction l as [|i l IH]; simpl; intros s H; auto.
  rewrite H by (left; auto). rewrite pbind_send_list. simpl.
  rewrite send_list_app, IH; auto.
Qed.

(** ** ev-level versions *)
Lemma ev_scatter : forall {X} (ms : nat -> list (nat * msg)) l (f f' : nat -> proc X) x es,
  NoDup l -> (forall r, In r l <-> 0 < r < n) ->
  f 0 = send_list (concat (map (fun i => tagged i (ms i)) l)) (f' 0) ->
  (forall r, 0 < r < n -> feeds (f r) (ms r) (f' r)) ->
  ev f' x es -> ev f x es.
Proof.
  intros X ms l f f' x es Hnd Hl H0 Hf H K L.
  assert (FB : forall (p p' : proc X) ml (c : X -> proc F), feeds p ml p' -> feeds (pbind p c) ml (pbind p' c)).
  { induction 1; simpl; constructor; auto. }
  eapply sstar_trans; [|apply H].
  match goal with |- Mpi.sstar _ _ _ _ _ (SYS ?Q _) =>
    rewrite (SYS_ext Q (fun r => if Nat.eqb r 0 then pbind (f' 0) (K 0) else pbind (f' r) (K r))) end.
  - apply (sys_scatter (concat (map (fun i => tagged i (ms i)) l))).
    + rewrite H0. apply pbind_send_list.
    + intros d tm Hin. apply Hl. eapply in_concat_tagged; eauto.
    + intros r Hr. rewrite msgs_for_concat; auto. apply Hl; auto.
  - intros r Hr. destruct (Nat.eqb_spec r 0); subst; auto.
Qed.

Lemma ev_gather : forall {X} (ms : nat -> list (nat * msg)) l (f f' : nat -> proc X) x es,
  NoDup l -> (forall r, In r l <-> 0 < r < n) ->
  drains (f 0) (concat (map (fun i => tagged i (ms i)) l)) (f' 0) ->
  (forall r, 0 < r < n -> f r = sendto0 (ms r) (f' r)) ->
  ev f' x es -> ev f x es.
Proof.
  intros X ms l f f' x es Hnd Hl H0 Hf H K L.
  assert (FB : forall (p p' : proc X) ml (c : X -> proc F), drains p ml p' -> drains (pbind p c) ml (pbind p' c)).
  { induction 1; simpl; constructor; auto. }
  assert (SB : forall ml (p : proc X) (c : X -> proc F), pbind (sendto0 ml p) c = sendto0 ml (pbind p c)).
  { induction ml as [|[t m] ml IH]; simpl; intros; auto. rewrite IH; auto. }
  eapply sstar_trans; [|apply H].
  match goal with |- Mpi.sstar _ _ _ _ _ (SYS ?Q _) =>
    rewrite (SYS_ext Q (fun r => if Nat.eqb r 0 then pbind (f' 0) (K 0) else pbind (f' r) (K r))) end.
  - apply (sys_gather (concat (map (fun i => tagged i (ms i)) l))).
    + auto.
    + intros d tm Hin. apply Hl. eapply in_concat_tagged; eauto.
    + intros r Hr. rewrite msgs_for_concat, Hf, SB; auto. apply Hl; auto.
  - intros r Hr. destruct (Nat.eqb_spec r 0); subst; auto.
Qed.

End Spmd.
