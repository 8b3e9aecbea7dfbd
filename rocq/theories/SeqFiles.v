(** What the reference run writes to init.randseed and init.parm. *)
From Coq Require Import ZArith Arith List Bool Lia Permutation.
From Verif Require Import Base Arith Rand Mh Ladder Tune Mpi MpiMeta Spmd Prog Seq ListAux MhSpec
  SeqWf Refine SeqTotal System.
Import ListNotations.
Open Scope Z_scope.

Section Files.
Context {A : Arith}.
Variable C : Cfg A.
Variable U : User A.
Variable n : nat.
Variable E : Env (A := A).

(** the kinds of records written after the initialisation *)
Definition later (e : event A) : Prop :=
  match e with EvRow _ _ | EvSigma _ _ | EvBeta _ => True | _ => False end.
Definition laters (t : glog (A := A)) : Prop := forall q e, In (q, e) t -> later e.

Lemma laters_app : forall a b, laters a -> laters b -> laters (a ++ b).
Proof. intros a b Ha Hb q e H. apply in_app_iff in H. destruct H; eauto. Qed.

Lemma file_app : forall f (a b : list (nat * event A)), file f (a ++ b) = file f a ++ file f b.
Proof. intros. unfold file. rewrite map_app, filter_app. auto. Qed.

Lemma laters_file : forall t, laters t -> file FSeed t = [] /\ file FInit t = [].
Proof.
  induction t as [|[q e] t IH]; intros H; [split; auto|].
  destruct IH as [I1 I2]; [intros q' e' Hi; apply (H q' e'); right; auto|].
  specialize (H q e (or_introl eq_refl)). unfold file in *. simpl. destruct e; simpl in *; try contradiction; auto.
Qed.

Lemma rows_laters : forall k a (bs : list (batch_out (A := A))), laters (concat (map2 rows_log (seq a k) bs)).
Proof.
  induction k as [|k IH]; intros a bs q e H; simpl in H; try contradiction.
  destruct bs as [|b bs]; simpl in H; try contradiction.
  apply in_app_iff in H. destruct H as [H|H]; [|eapply IH; eauto].
  unfold rows_log in H. apply in_map_iff in H. destruct H as [x [H _]]. inversion H; subst; simpl; auto.
Qed.

Lemma stack_loop_laters : forall D len fuel G it ix isw nsw npr G' nsw' npr' t,
  seq_stack_loop C U n D len fuel G it ix isw nsw npr = OK (G', nsw', npr', t) -> laters t.
Proof.
  induction fuel as [|fuel IH]; intros G it ix isw nsw npr G' nsw' npr' t H;
    cbn [seq_stack_loop] in H; destruct (ix <? len); rinv; try (intros q e []).
  apply laters_app; [|eapply IH; eauto]. unfold seq_batch in *. rinv. apply rows_laters.
Qed.

Lemma sigma_laters : forall k a (l : list (loc (A := A))),
  laters (map2 (fun r x => (r, EvSigma r (l_sig x))) (seq a k) l).
Proof.
  induction k as [|k IH]; intros a l q e H; simpl in H; try contradiction.
  destruct l as [|x l]; simpl in H; try contradiction.
  destruct H as [H|H]; [inversion H; subst; simpl; auto|eapply IH; eauto].
Qed.

Lemma flow_laters : forall D fuel G len it ix G' t,
  seq_flow_loop C U n D fuel G len it ix = OK (G', t) -> laters t.
Proof.
  induction fuel as [|fuel IH]; intros G len it ix G' t H;
    cbn [seq_flow_loop] in H; destruct (ix <? N_iter C); rinv; try (intros q e []).
  apply laters_app; [|apply laters_app; [|eapply IH; eauto]].
  - apply (sigma_laters n 0).
  - unfold seq_stack in *. rinv. intros q e [Hi|Hi]; [inversion Hi; subst; simpl; auto|].
    eapply stack_loop_laters; eauto.
Qed.

Lemma file_map_none : forall f (g : nat -> event A) l, (forall r, in_file f (g r) = false) ->
  file f (map (fun r => (r, g r)) l) = [].
Proof.
  intros f g l H. unfold file. induction l as [|r l IH]; simpl; auto. rewrite H. auto.
Qed.

Lemma file_map_all : forall f (g : nat -> event A) l, (forall r, in_file f (g r) = true) ->
  file f (map (fun r => (r, g r)) l) = map g l.
Proof.
  intros f g l H. unfold file. induction l as [|r l IH]; simpl; auto. rewrite H, IH. auto.
Qed.

Lemma map2_rows_none : forall f (g : nat -> list (num A) * num A -> event A) l m,
  (forall r x, in_file f (g r x) = false) -> file f (map2 (fun r x => (r, g r x)) l m) = [].
Proof.
  intros f g l. induction l as [|r l IH]; intros m H; auto. destruct m; auto.
  specialize (IH m H). unfold file in *. simpl. rewrite H. auto.
Qed.

Lemma main_files : forall ndim G t, seq_main C U n E ndim = OK (G, t) ->
  file FSeed t = map (fun r => EvSeed r (u2i (seed_of C n E r))) (seq 0 n) /\
  file FInit t = [EvInit (map (fun r => fst (u_init U (seed_of C n E r))) (seq 0 n))].
Proof.
  intros ndim G t H. unfold seq_main in H. rinv.
  match goal with H : seq_flow_loop _ _ _ _ _ _ _ _ _ = _ |- _ => apply flow_laters in H; apply laters_file in H; destruct H as [F1 F2] end.
  match goal with H : seq_init _ _ _ _ _ = _ |- _ => unfold seq_init in H end. rinv.
  change ((root, EvDir) :: ?x) with ([(root, @EvDir A)] ++ x).
  rewrite !file_app, F1, F2.
  rewrite (file_map_all FSeed (fun r => EvSeed r (u2i (seed_of C n E r)))) by reflexivity.
  rewrite (file_map_none FInit (fun r => EvSeed r (u2i (seed_of C n E r)))) by reflexivity.
  change ((root, @EvInit A ?x) :: ?y) with ([(root, EvInit x)] ++ y). rewrite !file_app.
  rewrite (file_map_none FSeed (fun r => EvSigma r (u_gp U))) by reflexivity.
  rewrite (file_map_none FInit (fun r => EvSigma r (u_gp U))) by reflexivity.
  rewrite !(map2_rows_none _ (fun r xl => EvRow r (mkRow (fst xl) (snd xl) 0 0))) by reflexivity.
  cbn [file map filter in_file snd app]. rewrite !app_nil_r, map_map. split; reflexivity.
Qed.
End Files.
