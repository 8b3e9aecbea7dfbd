(** Proof rules for the heap commands of Heap.v and the specification of each function. *)
From Coq Require Import ZArith List Bool Lia.
From Verif Require Import Heap.
Import ListNotations.
Open Scope Z_scope.
Open Scope hcmd.

(** what is asked of a variable: no live block, a live block, or a live block of n1 * n2 cells whose first k cells were written *)
Inductive req := Dead | Any | Up (n1 n2 k : Z).
Definition holds (q : req) (c : cell) : Prop :=
  match q with
  | Dead => match c with Live _ _ _ => False | _ => True end
  | Any => match c with Live _ _ _ => True | _ => False end
  | Up n1 n2 k => exists ini, c = Live n1 n2 ini /\ forall p, 0 <= p < k -> ini p = true
  end.
Definition spec := pv -> req.
Definition sat (R : spec) (s : hst) : Prop := forall v, holds (R v) (var s v).
Definition upd (R : spec) (v : pv) (q : req) : spec := fun w => if pv_eq v w then q else R w.
Definition req_le (a b : req) : Prop :=
  match a, b with Dead, Dead => True | Up n1 n2 k, Up m1 m2 l => n1 = m1 /\ n2 = m2 /\ l <= k | Any, Any => True | Up _ _ _, Any => True | _, _ => False end.
Definition spec_le (R Q : spec) : Prop := forall v, req_le (R v) (Q v).

Definition good (B : Z) (s : hst) (t : list ev) (s' : hst) : Prop :=
  hrun s t = Some s' /\ forall t1 t2 s1, t = t1 ++ t2 -> hrun s t1 = Some s1 -> files s1 <= B.
Definition tri (R : spec) (c : cmd) (Q : spec) (ls : list (pv * Z)) : Prop :=
  forall t, tr c t -> forall s, sat R s -> files s = 0 -> exists s', good 1 s t s' /\ sat Q s' /\ lost s' = ls ++ lost s /\ files s' = 0.
(** the same inside a result file: no file is opened *)
Definition tri1 (R : spec) (c : cmd) (Q : spec) (ls : list (pv * Z)) : Prop :=
  forall t, tr c t -> forall s, sat R s -> files s = 1 -> exists s', good 1 s t s' /\ sat Q s' /\ lost s' = ls ++ lost s /\ files s' = 1.
(** with a number of open files *)
Definition trif (f f' : Z) (R : spec) (c : cmd) (Q : spec) (ls : list (pv * Z)) : Prop :=
  forall t, tr c t -> forall s, sat R s -> files s = f -> exists s', good 1 s t s' /\ sat Q s' /\ lost s' = ls ++ lost s /\ files s' = f'.

Lemma hrun_app : forall t u s, hrun s (t ++ u) = match hrun s t with Some s' => hrun s' u | None => None end.
Proof. induction t as [|e t IH]; intros u s; cbn; [reflexivity|]. destruct (hstep s e); auto. Qed.
Lemma good_nil : forall B s, files s <= B -> good B s [] s.
Proof. intros B s H. split; [reflexivity|]. intros t1 t2 s1 E R. symmetry in E. apply app_eq_nil in E. destruct E as [-> _]. injection R as <-. auto. Qed.
Lemma good_app : forall B s t s' u s'', good B s t s' -> good B s' u s'' -> good B s (t ++ u) s''.
Proof.
  intros B s t s' u s'' [R1 F1] [R2 F2]. split; [rewrite hrun_app, R1; auto|].
  intros t1 t2 s1 E R. apply app_eq_app in E. destruct E as [l [[E1 E2]|[E1 E2]]].
  - subst. eapply F1; eauto.
  - subst. rewrite hrun_app, R1 in R. eapply F2; eauto.
Qed.
Lemma good_one : forall B s e s', hstep s e = Some s' -> files s <= B -> files s' <= B -> good B s [e] s'.
Proof.
  intros B s e s' H F F'. split; [cbn; rewrite H; auto|]. intros t1 t2 s1 E R. destruct t1 as [|x t1].
  - injection R as <-. auto.
  - injection E as <- E. symmetry in E. apply app_eq_nil in E. destruct E as [-> _]. cbn in R. rewrite H in R. injection R as <-. auto.
Qed.

(** *** rules *)
Section Rules.
Variables f f' f'' : Z.
Hypothesis (F : f <= 1) (F' : f' <= 1) (F'' : f'' <= 1).
Lemma t_nop : forall R, trif f f R Nop R [].
Proof using F. intros R t Ht s Hs E. inversion Ht; subst. exists s. split; [apply good_nil; lia|]. auto. Qed.
Lemma t_then : forall R a Q b P l m, trif f f' R a Q l -> trif f' f'' Q b P m -> trif f f'' R (a;; b) P (m ++ l).
Proof.
  clear F F' F''. intros R a Q b P l m H1 H2 t Ht s Hs E. inversion Ht as [| |? ? t1 t2 T1 T2| | | | | | |]; subst.
  destruct (H1 _ T1 s Hs eq_refl) as [s1 [G1 [S1 [L1 E1]]]]. destruct (H2 _ T2 s1 S1 E1) as [s2 [G2 [S2 [L2 E2]]]].
  exists s2. split; [eapply good_app; eauto|]. split; auto. split; auto. rewrite L2, L1, app_assoc. reflexivity.
Qed.
Lemma t_or : forall R a b Q l, trif f f' R a Q l -> trif f f' R b Q l -> trif f f' R (Or a b) Q l.
Proof. clear F F' F''. intros R a b Q l H1 H2 t Ht s Hs E. inversion Ht; subst; [eapply H1|eapply H2]; eauto. Qed.
Lemma t_pick : forall R (P : Z -> Prop) c Q l, (forall z, P z -> trif f f' R (c z) Q l) -> trif f f' R (Pick P c) Q l.
Proof. clear F F' F''. intros R P c Q l H t Ht s Hs E. inversion Ht; subst. eapply H; eauto. Qed.
Lemma t_many : forall R c, trif f f R c R [] -> trif f f R (Many c) R [].
Proof using F.
  intros R c H t Ht. remember (Many c) as m eqn:Em. revert Em. induction Ht; intros Em s Hs E; try discriminate.
  - exists s. split; [apply good_nil; lia|]. auto.
  - injection Em as ->. destruct (H _ Ht1 s Hs E) as [s1 [G1 [S1 [L1 E1]]]]. destruct (IHHt2 eq_refl s1 S1 E1) as [s2 [G2 [S2 [L2 E2]]]].
    exists s2. split; [eapply good_app; eauto|]. split; auto. split; auto. cbn in L1, L2. rewrite L2, L1. reflexivity.
Qed.
Lemma t_for : forall (J : Z -> spec) lo hi c, lo <= hi -> (forall z, lo <= z < hi -> trif f f (J z) (c z) (J (z + 1)) []) ->
  trif f f (J lo) (For lo hi c) (J hi) [].
Proof using F.
  intros J lo hi c Hl H t Ht. remember (For lo hi c) as m eqn:Em. revert lo Hl H Em. induction Ht; intros lo' Hl H' Em s Hs E; try discriminate.
  - injection Em as -> -> ->. assert (lo' = hi) as -> by lia. exists s. split; [apply good_nil; lia|]. auto.
  - injection Em as -> -> ->. destruct (H' lo' ltac:(lia) _ Ht1 s Hs E) as [s1 [G1 [S1 [L1 E1]]]].
    destruct (IHHt2 (lo' + 1) ltac:(lia) ltac:(intros; apply H'; lia) eq_refl s1 S1 E1) as [s2 [G2 [S2 [L2 E2]]]].
    exists s2. split; [eapply good_app; eauto|]. split; auto. split; auto. cbn in L1, L2. rewrite L2, L1. reflexivity.
Qed.
Lemma t_for_same : forall R lo hi c, (forall z, lo <= z < hi -> trif f f R (c z) R []) -> trif f f R (For lo hi c) R [].
Proof using F.
  intros R lo hi c H. destruct (Z.le_gt_cases lo hi) as [L|L]; [apply (t_for (fun _ => R)); auto|].
  intros t Ht s Hs E. inversion Ht; subst; [|lia]. exists s. split; [apply good_nil; lia|]. auto.
Qed.
End Rules.

Lemma t_weak : forall f f' R0 R c Q Q0 l, spec_le R0 R -> trif f f' R c Q l -> spec_le Q Q0 -> trif f f' R0 c Q0 l.
Proof.
  assert (W : forall R Q s, spec_le R Q -> sat R s -> sat Q s).
  { intros R Q s H S v. specialize (H v). specialize (S v). destruct (R v), (Q v); cbn in *; try tauto. { destruct S as [ini [-> _]]. exact I. }
    destruct H as [-> [-> H]]. destruct S as [ini [E P]]. exists ini. split; auto. intros p Hp. apply P. lia. }
  intros f f' R0 R c Q Q0 l H1 H H2 t Ht s Hs E. destruct (H t Ht s (W _ _ _ H1 Hs) E) as [s' [G [S [L E']]]]. exists s'. split; auto. split; [eapply W; eauto|auto].
Qed.
Lemma le_refl : forall R, spec_le R R.
Proof. intros R v. destruct (R v); cbn; auto. split; auto. split; auto. lia. Qed.

Lemma sat_upd : forall R s v q c, sat R s -> holds q c -> sat (upd R v q) (hset s v c).
Proof. intros R s v q c S H w. unfold upd, hset. cbn. destruct (pv_eq v w); auto. Qed.
Lemma sat_lost : forall R s l k, sat R s -> sat R (mkH (var s) l k).
Proof. intros R s l k S v. apply S. Qed.

Lemma t_malloc : forall f R v n1 n2, f <= 1 -> R v = Dead -> 0 <= n1 -> 0 <= n2 -> trif f f R (Do (Malloc v n1 n2)) (upd R v (Up n1 n2 0)) [].
Proof.
  intros f R v n1 n2 Hf HR H1 H2 t Ht s Hs E. inversion Ht; subst. pose proof (Hs v) as Hv. rewrite HR in Hv. cbn in Hv.
  exists (hset (hlose s v) v (Live n1 n2 (fun _ => false))).
  assert (L : hlose s v = s) by (unfold hlose; destruct (var s v); tauto). rewrite L.
  split; [apply good_one; [cbn; rewrite (proj2 (Z.leb_le 0 n1)), (proj2 (Z.leb_le 0 n2)), L by lia; reflexivity|lia|cbn; lia]|].
  split; [apply sat_upd; auto; cbn; exists (fun _ => false); split; auto; intros; lia|]. auto.
Qed.
Lemma t_malloc_lost : forall f R v m1 m2 k n1 n2, f <= 1 -> R v = Up m1 m2 k -> 0 <= n1 -> 0 <= n2 ->
  trif f f R (Do (Malloc v n1 n2)) (upd R v (Up n1 n2 0)) [(v, m1 * m2)].
Proof.
  intros f R v m1 m2 k n1 n2 Hf HR H1 H2 t Ht s Hs E. inversion Ht; subst. pose proof (Hs v) as Hv. rewrite HR in Hv. destruct Hv as [ini [EV _]].
  exists (hset (hlose s v) v (Live n1 n2 (fun _ => false))).
  split; [apply good_one; [cbn; rewrite (proj2 (Z.leb_le 0 n1)), (proj2 (Z.leb_le 0 n2)) by lia; reflexivity|lia|cbn; unfold hlose; rewrite EV; cbn; lia]|].
  split; [|unfold hlose; rewrite EV; auto]. 
  assert (S1 : sat R (hlose s v)) by (unfold hlose; rewrite EV; apply sat_lost; auto).
  apply sat_upd; auto. cbn. exists (fun _ => false). split; auto. intros; lia.
Qed.
Lemma t_free : forall f R v n1 n2 k, f <= 1 -> R v = Up n1 n2 k -> trif f f R (Do (Free v)) (upd R v Dead) [].
Proof.
  intros f R v n1 n2 k Hf HR t Ht s Hs E. inversion Ht; subst. pose proof (Hs v) as Hv. rewrite HR in Hv. destruct Hv as [ini [EV _]].
  exists (hset s v Freed). split; [apply good_one; [cbn; rewrite EV; reflexivity|lia|cbn; lia]|]. split; [apply sat_upd; cbn; auto|auto].
Qed.
Lemma t_free_any : forall f R v, f <= 1 -> R v = Any -> trif f f R (Do (Free v)) (upd R v Dead) [].
Proof.
  intros f R v Hf HR t Ht s Hs E. inversion Ht; subst. pose proof (Hs v) as Hv. rewrite HR in Hv. cbn in Hv. destruct (var s v) eqn:EV; try tauto.
  exists (hset s v Freed). split; [apply good_one; [cbn; rewrite EV; reflexivity|lia|cbn; lia]|]. split; [apply sat_upd; cbn; auto|auto].
Qed.
Lemma t_free2 : forall f R v n1 n2 k, f <= 1 -> R v = Up n1 n2 k -> 1 <= n1 -> trif f f R (Do (Free2 v)) (upd R v Dead) [].
Proof.
  intros f R v n1 n2 k Hf HR H1 t Ht s Hs E. inversion Ht; subst. pose proof (Hs v) as Hv. rewrite HR in Hv. destruct Hv as [ini [EV _]].
  exists (hset s v Freed). split; [apply good_one; [cbn; rewrite EV, (proj2 (Z.leb_le 1 n1)) by lia; reflexivity|lia|cbn; lia]|]. split; [apply sat_upd; cbn; auto|auto].
Qed.
Lemma t_null : forall f R v, f <= 1 -> R v = Dead -> trif f f R (Do (SetNull v)) R [].
Proof.
  intros f R v Hf HR t Ht s Hs E. inversion Ht; subst. pose proof (Hs v) as Hv. rewrite HR in Hv. cbn in Hv.
  assert (L : hlose s v = s) by (unfold hlose; destruct (var s v); tauto).
  exists (hset s v Null). split; [apply good_one; [cbn; rewrite L; reflexivity|lia|cbn; lia]|]. split; [|auto].
  intros w. unfold hset. cbn. destruct (pv_eq v w) as [<-|]; [rewrite HR; cbn; auto|apply Hs].
Qed.
Lemma t_null_lost : forall f R v n1 n2 k, f <= 1 -> R v = Up n1 n2 k -> trif f f R (Do (SetNull v)) (upd R v Dead) [(v, n1 * n2)].
Proof.
  intros f R v n1 n2 k Hf HR t Ht s Hs E. inversion Ht; subst. pose proof (Hs v) as Hv. rewrite HR in Hv. destruct Hv as [ini [EV _]].
  exists (hset (hlose s v) v Null). split; [apply good_one; [reflexivity|lia|cbn; unfold hlose; rewrite EV; cbn; lia]|]. 
  split; [|unfold hlose; rewrite EV; auto]. apply sat_upd; cbn; auto. unfold hlose. rewrite EV. apply sat_lost; auto.
Qed.
Lemma t_rd : forall f R v i j n1 n2 k, f <= 1 -> R v = Up n1 n2 k -> 0 <= i < n1 -> 0 <= j < n2 -> i * n2 + j < k -> trif f f R (Do (Rd v i j)) R [].
Proof.
  intros f R v i j n1 n2 k Hf HR Hi Hj Hk t Ht s Hs E. inversion Ht; subst. pose proof (Hs v) as Hv. rewrite HR in Hv. destruct Hv as [ini [EV P]].
  exists s. split; [|auto]. apply good_one; [cbn|lia|lia]. rewrite EV.
  rewrite (proj2 (Z.leb_le 0 i)), (proj2 (Z.ltb_lt i n1)), (proj2 (Z.leb_le 0 j)), (proj2 (Z.ltb_lt j n2)), P by nia. reflexivity.
Qed.
Lemma t_wr_gen : forall f R v i j n1 n2 k k', f <= 1 -> R v = Up n1 n2 k -> 0 <= i < n1 -> 0 <= j < n2 -> (k' = k \/ (k' = k + 1 /\ i * n2 + j = k)) ->
  trif f f R (Do (Wr v i j)) (upd R v (Up n1 n2 k')) [].
Proof.
  intros f R v i j n1 n2 k k' Hf HR Hi Hj Hk t Ht s Hs E. inversion Ht; subst. pose proof (Hs v) as Hv. rewrite HR in Hv. destruct Hv as [ini [EV P]].
  exists (hset s v (Live n1 n2 (fun p => (p =? i * n2 + j) || ini p))). split; [|split; [|auto]].
  - apply good_one; [cbn|lia|cbn; lia]. rewrite EV.
    rewrite (proj2 (Z.leb_le 0 i)), (proj2 (Z.ltb_lt i n1)), (proj2 (Z.leb_le 0 j)), (proj2 (Z.ltb_lt j n2)) by lia. reflexivity.
  - apply sat_upd; auto. cbn. eexists. split; [reflexivity|]. intros p Hp. cbn. destruct (Z.eqb_spec p (i * n2 + j)); cbn; auto. apply P. lia.
Qed.
Lemma t_wr_old : forall f R v i j n1 n2 k, f <= 1 -> R v = Up n1 n2 k -> 0 <= i < n1 -> 0 <= j < n2 -> trif f f R (Do (Wr v i j)) R [].
Proof.
  intros f R v i j n1 n2 k Hf HR Hi Hj. eapply t_weak; [apply le_refl|eapply t_wr_gen; eauto|].
  intros w. unfold upd. destruct (pv_eq v w) as [<-|]; [rewrite HR; cbn; split; auto; split; auto; lia|apply le_refl].
Qed.
Lemma t_wr_next : forall f R v i j n1 n2 k, f <= 1 -> R v = Up n1 n2 k -> 0 <= i < n1 -> 0 <= j < n2 -> i * n2 + j = k ->
  trif f f R (Do (Wr v i j)) (upd R v (Up n1 n2 (k + 1))) [].
Proof. intros. eapply t_wr_gen; eauto. Qed.
Lemma t_open : forall R, trif 0 1 R (Do Open) R [].
Proof.
  intros R t Ht s Hs E. inversion Ht; subst. exists (mkH (var s) (lost s) (files s + 1)). 
  split; [apply good_one; [reflexivity|lia|cbn; lia]|]. split; [apply sat_lost; auto|]. cbn. split; auto. lia.
Qed.
Lemma t_close : forall R, trif 1 0 R (Do Close) R [].
Proof.
  intros R t Ht s Hs E. inversion Ht; subst. exists (mkH (var s) (lost s) (files s - 1)). 
  split; [apply good_one; [cbn; rewrite E; reflexivity|lia|cbn; lia]|]. split; [apply sat_lost; auto|]. cbn. split; auto. lia.
Qed.
