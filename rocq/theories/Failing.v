(** Runs that stop: the tools to follow the group of ranks up to the failure of one of them. *)
From Coq Require Import ZArith Arith List Bool Lia FunctionalExtensionality.
From Verif Require Import Base Arith Rand Mh Ladder Tune Mpi MpiMeta Spmd Prog Seq ListAux MhSpec SeqWf Refine SeqTotal System.
Import ListNotations.
Open Scope Z_scope.

Section Gen.
Context {msg event F : Type}.
Variable n : nat.
Notation proc := (proc msg event).
Notation sstar := (sstar msg event F n).
Notation SYS := (SYS (msg := msg) (event := event) (F := F) n).

(** the group can run until some rank has stopped with e *)
Definition evf {X} (f : nat -> proc X) (e : stop) : Prop :=
  forall (K : nat -> X -> proc F) L, exists P' L' r,
    sstar (SYS (fun r => pbind (f r) (K r)) L) (SYS P' L') /\ (r < n)%nat /\ P' r = Fail e.

Lemma evf_ext : forall {X} (f f' : nat -> proc X) e,
  (forall r, (r < n)%nat -> f r = f' r) -> evf f e -> evf f' e.
Proof.
  intros X f f' e Hf H K L. rewrite (SYS_ext n (fun r => pbind (f' r) (K r)) (fun r => pbind (f r) (K r))).
  - apply H.
  - intros; rewrite Hf; auto.
Qed.

Lemma evf_fail : forall {X} (f : nat -> proc X) e r, (r < n)%nat -> f r = Fail e -> evf f e.
Proof.
  intros X f e r Hr Hf K L. exists (fun r => pbind (f r) (K r)), L, r. split; [apply ss_refl|]. split; auto.
  rewrite Hf. reflexivity.
Qed.

Lemma evf_bind : forall {X Y} (f : nat -> proc X) (g : nat -> X -> proc Y) x es e,
  ev (F := F) n f x es -> evf (fun r => g r (x r)) e -> evf (fun r => pbind (f r) (g r)) e.
Proof.
  intros X Y f g x es e H1 H2 K L.
  rewrite (SYS_ext n _ (fun r => pbind (f r) (fun v => pbind (g r v) (K r)))); [|intros; apply pbind_assoc].
  destruct (H2 K (addlog n L es)) as [P' [L' [r [H3 [H4 H5]]]]]. exists P', L', r. split; auto.
  eapply sstar_trans; [apply H1|]. exact H3.
Qed.

Lemma evf_head : forall {X Y} (f : nat -> proc X) (g : nat -> X -> proc Y) e,
  evf f e -> evf (fun r => pbind (f r) (g r)) e.
Proof.
  intros X Y f g e H K L.
  rewrite (SYS_ext n _ (fun r => pbind (f r) (fun v => pbind (g r v) (K r)))); [|intros; apply pbind_assoc].
  apply H.
Qed.

Lemma evf_barrier : forall {X} (f : nat -> proc X) e, (0 < n)%nat -> evf f e -> evf (fun r => Barrier (f r)) e.
Proof.
  intros X f e Hn H.
  eapply (evf_ext (fun r => pbind (Barrier (Ret tt)) (fun _ => f r))); [reflexivity|].
  eapply (evf_bind (fun _ => Barrier (Ret tt)) (fun r _ => f r) (fun _ => tt)); [|exact H].
  apply ev_barrier; auto. apply (ev_ret n (fun _ => tt)).
Qed.

Lemma evf_pouts : forall {X} (o : nat -> list event) (f : nat -> proc X) e, evf f e -> evf (fun r => pouts (o r) (f r)) e.
Proof.
  intros X o f e H.
  eapply (evf_ext (fun r => pbind (pouts (o r) (Ret tt)) (fun _ => f r))).
  { intros r Hr. generalize (o r). induction l; cbn [pouts pbind]; auto. rewrite IHl. auto. }
  eapply (evf_bind (fun r => pouts (o r) (Ret tt)) (fun r _ => f r) (fun _ => tt)); [|exact H].
  apply ev_pouts. apply (ev_ret n (fun _ => tt)).
Qed.

Lemma evf_scatter : forall {X} (ms : nat -> list (nat * msg)) l (f f' : nat -> proc X) e,
  NoDup l -> (forall r, In r l <-> (0 < r < n)%nat) ->
  f 0%nat = send_list (concat (map (fun i => tagged i (ms i)) l)) (f' 0%nat) ->
  (forall r, (0 < r < n)%nat -> feeds (f r) (ms r) (f' r)) ->
  evf f' e -> evf f e.
Proof.
  intros X ms l f f' e Hnd Hl H0 Hf H K L.
  assert (FB : forall (p p' : proc X) ml (c : X -> proc F), feeds p ml p' -> feeds (pbind p c) ml (pbind p' c)).
  { induction 1; simpl; constructor; auto. }
  destruct (H K L) as [P' [L' [r [S2 [R1 R2]]]]]. exists P', L', r. split; auto.
  eapply sstar_trans; [|exact S2].
  match goal with |- Mpi.sstar _ _ _ _ _ (Spmd.SYS _ ?Q _) =>
    rewrite (SYS_ext n Q (fun r => if Nat.eqb r 0 then pbind (f' 0%nat) (K 0%nat) else pbind (f' r) (K r))) end.
  - apply (sys_scatter n (concat (map (fun i => tagged i (ms i)) l))).
    + rewrite H0. apply pbind_send_list.
    + intros d tm Hin. apply Hl. eapply in_concat_tagged; eauto.
    + intros q Hq. rewrite msgs_for_concat; auto. apply Hl; auto.
  - intros q Hq. destruct (Nat.eqb_spec q 0); subst; auto.
Qed.

(** from synchronous runs to executions *)
Lemma brun_mstar : forall l (Y Z : cfg msg event F), brun msg event F n l Y = Some Z -> mstar msg event F n Y (length l) Z.
Proof.
  induction l as [|a l IHl]; intros Y Z HY; cbn [brun] in *.
  - injection HY as <-. constructor.
  - destruct (bstep msg event F n a Y) eqn:E; [|discriminate]. cbn [length]. econstructor; [eapply m_eager; eauto|auto].
Qed.

(** a stopped rank stays stopped *)
Lemma bstep_fail : forall l (c c' : cfg msg event F) r e, (r < n)%nat -> bstep msg event F n l c = Some c' -> pr c r = Fail e -> pr c' r = Fail e.
Proof.
  intros [q|] c c' r e Hr H Hf.
  - destruct (Nat.eq_dec q r) as [->|Hne].
    + unfold bstep in H. destruct (Nat.ltb r n); [|discriminate]. rewrite Hf in H. discriminate.
    + unfold bstep in H. destruct (Nat.ltb q n); [|discriminate].
      destruct (pr c q) as [x|d t m k|s t k|rt m k|k|ev k|e']; try discriminate.
      * destruct (Nat.ltb d n); injection H as <-; cbn [pr]; rewrite upd_ne; auto.
      * destruct (ch c s q (Some t)); [discriminate|]. injection H as <-; cbn [pr]; rewrite upd_ne; auto.
      * destruct (Nat.eqb q rt).
        -- injection H as <-; cbn [pr]; rewrite upd_ne; auto.
        -- destruct (ch c rt q None); [discriminate|]. injection H as <-; cbn [pr]; rewrite upd_ne; auto.
      * injection H as <-; cbn [pr]; rewrite upd_ne; auto.
  - unfold bstep in H. destruct (all_at_barrier msg event F n c) eqn:Eb; [|discriminate].
    unfold all_at_barrier in Eb. rewrite forallb_forall in Eb. specialize (Eb r). rewrite Hf in Eb. cbn in Eb.
    assert (In r (seq 0 n)) by (apply in_seq; lia). apply Eb in H0. discriminate.
Qed.

Lemma brun_fail : forall l (c c' : cfg msg event F) r e, (r < n)%nat -> brun msg event F n l c = Some c' -> pr c r = Fail e -> pr c' r = Fail e.
Proof.
  induction l as [|a l IH]; intros c c' r e Hr H Hf; cbn [brun] in H.
  - injection H as <-. auto.
  - destruct (bstep msg event F n a c) eqn:E; [|discriminate]. eapply IH; eauto. eapply bstep_fail; eauto.
Qed.

(** if one execution runs into a failure, no execution completes *)
Lemma fail_no_complete : forall (c : cfg msg event F) l X r e, (0 < n)%nat -> brun msg event F n l c = Some X -> (r < n)%nat -> pr X r = Fail e ->
  forall k Y, mstar msg event F n c k Y -> ~ finished msg event F n Y.
Proof.
  intros c l X r e Hn HX Hr Hf k Y HY HF.
  destruct (mstar_run n _ _ _ HY) as [l1 [_ R1]].
  assert (Stuck : forall l, bstep msg event F n l Y = None) by (intros; apply finished_stuck; auto).
  destruct (commute_final_run n l l1 c Y X R1 Stuck HX) as [l2 [R2 _]].
  pose proof (brun_fail _ _ _ _ _ Hr R2 Hf) as K. destruct (HF r Hr) as [x Ex]. congruence.
Qed.
End Gen.
