(** Commands that go wrong on every path, and paths that exist. *)
From Coq Require Import ZArith List Bool Lia.
From Verif Require Import Heap HeapFacts.
Import ListNotations.
Open Scope Z_scope.
Open Scope hcmd.

Section Bad.
Variable J : hst -> Prop.
Variable ok : ev -> Prop.
Hypothesis Jok : forall s e s', J s -> ok e -> hstep s e = Some s' -> J s'.
Fixpoint evs (c : cmd) : Prop :=
  match c with
  | Nop => True
  | Do e => ok e
  | Then a b => evs a /\ evs b
  | Or a b => evs a /\ evs b
  | For lo hi f => forall z, lo <= z < hi -> evs (f z)
  | Many c => evs c
  | Pick P f => forall z, P z -> evs (f z)
  end.
Lemma evs_tr : forall c t, tr c t -> evs c -> List.Forall ok t.
Proof.
  intros c t H. induction H; cbn; intros C; auto; try (apply Forall_app; split); try tauto.
  - apply IHtr1. apply C. lia.
  - apply IHtr2. intros z Hz. apply C. lia.
Qed.
Lemma J_run : forall t s s', J s -> List.Forall ok t -> hrun s t = Some s' -> J s'.
Proof.
  induction t as [|e t IH]; intros s s' HJ F H; cbn in H; [congruence|]. destruct (hstep s e) eqn:E; [|discriminate]. inversion F; subst. eapply IH; [|eassumption|eassumption]. eapply Jok; eauto.
Qed.
Definition bad (c : cmd) : Prop := forall t, tr c t -> forall s, J s -> hrun s t = None.
Lemma bad_do : forall e, (forall s, J s -> hstep s e = None) -> bad (Do e).
Proof. intros e H t Ht s HJ. inversion Ht; subst. cbn. rewrite H; auto. Qed.
Lemma bad_l : forall a b, bad a -> bad (a;; b).
Proof. intros a b H t Ht s HJ. inversion Ht; subst. rewrite hrun_app, H; auto. Qed.
Lemma bad_r : forall a b, evs a -> bad b -> bad (a;; b).
Proof.
  intros a b H1 H2 t Ht s HJ. inversion Ht as [| |? ? t1 t2 T1 T2| | | | | | |]; subst. rewrite hrun_app. destruct (hrun s t1) as [s1|] eqn:E; auto. apply H2; auto. exact (J_run t1 s s1 HJ (evs_tr _ _ T1 H1) E).
Qed.
Lemma bad_for : forall f lo hi z, lo <= z < hi -> (forall i, lo <= i < z -> evs (f i)) -> bad (f z) -> bad (For lo hi f).
Proof.
  intros f lo hi z Hz H1 H2 t Ht. remember (For lo hi f) as c eqn:Ec. revert lo Hz H1 Ec. induction Ht; intros lo' Hz H1 Ec s HJ; try discriminate; injection Ec as -> -> ->.
  - lia.
  - rewrite hrun_app. destruct (hrun s t) as [s1|] eqn:E; auto. destruct (Z.eq_dec lo' z) as [->|D].
    + rewrite (H2 t Ht1 s HJ) in E. discriminate.
    + apply (IHHt2 (lo' + 1)); auto; [lia|intros; apply H1; lia|]. eapply J_run; [|eapply evs_tr; [exact Ht1|apply H1; lia]|eassumption]. exact HJ.
Qed.
End Bad.

(** a path exists when every choice has a number to choose *)
Fixpoint open (c : cmd) : Prop :=
  match c with
  | Nop => True
  | Do e => True
  | Then a b => open a /\ open b
  | Or a b => open a \/ open b
  | For lo hi f => forall z, lo <= z < hi -> open (f z)
  | Many c => True
  | Pick P f => exists z, P z /\ open (f z)
  end.
Lemma has_for : forall f lo hi, (forall z, lo <= z < hi -> exists t, tr (f z) t) -> exists t, tr (For lo hi f) t.
Proof.
  intros f lo hi. remember (Z.to_nat (hi - lo)) as k eqn:Ek. revert lo Ek. induction k as [|k IH]; intros lo Ek H.
  - exists []. apply tr_fend. lia.
  - destruct (H lo ltac:(lia)) as [t Ht]. destruct (IH (lo + 1)) as [u Hu]; [lia|intros; apply H; lia|]. exists (t ++ u). apply tr_for; auto. lia.
Qed.
Lemma has : forall c, open c -> exists t, tr c t.
Proof.
  induction c; cbn [open]; intros H0.
  - exists []. constructor.
  - exists [e]. constructor.
  - destruct H0 as [A B]. destruct (IHc1 A) as [t Ht]. destruct (IHc2 B) as [u Hu]. exists (t ++ u). constructor; auto.
  - destruct H0 as [A|A]; [destruct (IHc1 A) as [t Ht]|destruct (IHc2 A) as [t Ht]]; exists t; [apply tr_orl|apply tr_orr]; auto.
  - apply has_for. auto.
  - exists []. constructor.
  - destruct H0 as [z [Hz Ho]]. destruct (H z Ho) as [t Ht]. exists t. econstructor; eauto.
Qed.
(** a path with a given event *)
Definition meets (e : ev) (c : cmd) : Prop := exists t, tr c t /\ In e t.
Lemma m_do : forall e, meets e (Do e).
Proof. intros e. exists [e]. split; [constructor|left; auto]. Qed.
Lemma m_l : forall e a b, meets e a -> open b -> meets e (a;; b).
Proof. intros e a b [t [Ht Hi]] Hb. destruct (has b Hb) as [u Hu]. exists (t ++ u). split; [constructor; auto|apply in_or_app; auto]. Qed.
Lemma m_r : forall e a b, open a -> meets e b -> meets e (a;; b).
Proof. intros e a b Ha [u [Hu Hi]]. destruct (has a Ha) as [t Ht]. exists (t ++ u). split; [constructor; auto|apply in_or_app; auto]. Qed.
Lemma m_orl : forall e a b, meets e a -> meets e (Or a b).
Proof. intros e a b [t [Ht Hi]]. exists t. split; [apply tr_orl; auto|auto]. Qed.
Lemma m_orr : forall e a b, meets e b -> meets e (Or a b).
Proof. intros e a b [t [Ht Hi]]. exists t. split; [apply tr_orr; auto|auto]. Qed.
Lemma m_many : forall e c, meets e c -> meets e (Many c).
Proof. intros e c [t [Ht Hi]]. exists (t ++ []). split; [apply tr_more; [auto|constructor]|apply in_or_app; auto]. Qed.
Lemma m_pick : forall e (P : Z -> Prop) f z, P z -> meets e (f z) -> meets e (Pick P f).
Proof. intros e P f z Hz [t [Ht Hi]]. exists t. split; [econstructor; eauto|auto]. Qed.
Lemma m_for0 : forall e lo hi f, lo < hi -> meets e (f lo) -> (forall z, lo < z < hi -> open (f z)) -> meets e (For lo hi f).
Proof.
  intros e lo hi f Hl [t [Ht Hi]] H. destruct (has_for f (lo + 1) hi) as [u Hu]; [intros z Hz; apply has; apply H; lia|].
  exists (t ++ u). split; [apply tr_for; auto|apply in_or_app; auto].
Qed.
