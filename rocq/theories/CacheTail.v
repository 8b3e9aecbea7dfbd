(** The cached log-posterior of one rank: once it is right it stays right while the ladder is kept, and an accepted step makes it right. *)
From Coq Require Import ZArith Arith List Bool Lia.
From Verif Require Import Base Arith Rand Mh Ladder Tune Mpi MpiMeta Spmd Prog Seq ListAux MhSpec SeqWf Refine
  SeqTotal System Runs SeqFiles History Views RunHist HistCount HistRows SwapLemmas SwapReal ChainInv Stale LadderRuns TuneRuns PropLadder PropTune.
Import ListNotations.
Open Scope Z_scope.

Lemma last_next : forall {X} (l : list X) (q p : X), last (q :: l) p = last l q.
Proof. intros X. induction l as [|a l IH]; intros q p; [reflexivity|]. change (last (a :: l) p = last (a :: l) q). rewrite !IH. reflexivity. Qed.
Lemma walk_cached : forall A (U : User A) D np sigma beta g p rows bs g', mhwalk U D np sigma beta g p rows bs g' ->
  r_lp p = logpost_at U D (r_parm p) beta \/ In true bs ->
  r_lp (last rows p) = logpost_at U D (r_parm (last rows p)) beta.
Proof.
  intros A U D np sigma beta g p rows bs g' H.
  induction H as [g p|g p new0 g1 g2 q rows bs g' H Hok Hg H1 H2 H3 H4 Hw IH|g p new0 g1 q rows bs g' H Hok H1 H2 H3 H4 Hw IH]; intros K.
  - destruct K as [K|[]]. exact K.
  - rewrite last_next. apply IH. left. rewrite H1, H2. reflexivity.
  - rewrite last_next. apply IH. destruct K as [K|[K|K]]; [left; rewrite H1, H2; exact K|discriminate|right; exact K].
Qed.

Section Tail.
Context {A : Arith}.
Variable S : Setup A.
Hypothesis HL : Legal S.
Notation C := (s_cfg S).
Notation U := (s_user S).
Notation n := (s_n S).
Let RK := proj1 HL.
Let VC := proj1 (proj2 HL).
Let VU := proj1 (proj2 (proj2 HL)).
Variable D : Data A.
Variable k : nat.
Hypothesis Hk : (k < n)%nat.

Definition rankP (r : nat) (x : list (num A)) (lp b : num A) : Prop := r = k -> lp = logpost_at U D x b.
Lemma rank_step : StepInv S D rankP.
Proof.
  constructor.
  - intros r sigma b s _ _ _ H E. apply mhstep_cached. apply H; auto.
  - intros. split; intros _; reflexivity.
Qed.
Notation good := (holds S rankP).
Lemma good_k : forall G, good G <-> cached_at S D G k.
Proof. intros G. split; [intros H; apply (H k Hk); auto|intros H r Hr ->; exact H]. Qed.

Let g0 := g0_holds S HL rankP.
Let bat := batch_holds S HL D rankP rank_step.
Let swp := swap_step_holds S HL D rankP rank_step.

Lemma bruns_later : forall len i G isw nsw npr bl G' a b, bruns C U n D len i G isw nsw npr bl G' a b -> wf C n G ->
  forall b1 x b2, bl = b1 ++ x :: b2 -> good (br_mid x) -> good (br_post x) /\ Forall (ball C n good) b2 /\ good G'.
Proof.
  induction 1 as [|i G isw nsw npr l0 nx nb g G1 G2 lg G3 isw' nsw' npr' bl G4 nsw2 npr2 Hi Hl Hn HG HB HS HR IH]; intros W b1 x b2 E Hx.
  - destruct b1; discriminate.
  - assert (T : Q C n (fun _ => True) G) by (split; auto).
    pose proof (Q_g0 C n VC (fun _ => True) (fun _ _ _ _ _ _ => I) _ _ _ T HG) as T1.
    pose proof (Q_batch C U n D VC VU (fun _ => True) (fun _ _ _ _ _ _ _ => I) _ _ _ _ T1 HB) as T2.
    pose proof (Q_rounds C U n D RK VC (fun _ => True) (fun _ _ _ _ _ _ => I) (fun _ _ _ _ _ _ _ _ => I) _ _ _ _ _ _ _ _ _ T2 HS) as T3.
    destruct b1 as [|y b1]; cbn [app] in E; injection E as E1 E2.
    + subst x b2. cbn [br_mid br_post] in *.
      assert (Q2 : Q C n good G2) by (split; [apply T2|exact Hx]).
      pose proof (Q_rounds C U n D RK VC good g0 swp _ _ _ _ _ _ _ _ _ Q2 HS) as Q3.
      destruct (bruns_all C U n D RK VC VU good g0 bat swp _ _ _ _ _ _ _ _ _ _ HR Q3) as [K1 K2].
      split; [apply Q3|]. split; [exact K1|apply K2].
    + subst. apply (IH (proj1 T3) b1 x b2 eq_refl Hx).
Qed.

(** a stack after which the ladder is as before *)
Lemma stack_end : forall G0 h Gf, history S D G0 h Gf -> forall s, In s h -> beta_at (sr_post s) k = beta_at (sr_in s) k ->
  good (sr_mid s) -> good (sr_post s).
Proof.
  intros G0 h Gf HH s Hs HB HM. apply (proj2 (good_k _)). apply (proj1 (good_k _)) in HM. unfold cached_at in *.
  destruct (ladder_stale S HL D _ _ _ HH s Hs k Hk) as [E1 [E2 E3]]. destruct (C32_run A S HL D _ _ _ HH s Hs) as [T1 [T2 _]].
  rewrite HB, <- E3. unfold x_at, lp_at in *. rewrite T1, T2, E1, E2. exact HM.
Qed.

Lemma stack_rest : forall G0 h Gf, history S D G0 h Gf -> forall s, In s h ->
  forall b1 x b2, sr_batches s = b1 ++ x :: b2 -> good (br_mid x) -> good (br_post x) /\ Forall (ball C n good) b2 /\ good (sr_mid s).
Proof.
  intros G0 h Gf HH s Hs b1 x b2 E Hx. destruct (history_count S HL _ _ _ _ HH) as [_ [F _]]. rewrite Forall_forall in F.
  destruct (F s Hs) as [_ [_ [_ [_ [Wi [Wp [_ [_ [_ [Ep [_ [_ [_ [HB _]]]]]]]]]]]]]].
  exact (bruns_later _ _ _ _ _ _ _ _ _ _ HB Wp b1 x b2 E Hx).
Qed.

(** stacks with one ladder *)
Lemma stacks_keep : forall G0 h Gf, history S D G0 h Gf -> forall l i G, sfollow i G l Gf -> (forall s, In s l -> In s h) ->
  (forall s, In s l -> beta_at (sr_post s) k = beta_at (sr_in s) k) -> good G -> Forall (ball C n good) (hbatches l) /\ good Gf.
Proof.
  intros G0 h Gf HH. induction l as [|s l IH]; intros i G HF Hin HB HG; cbn [sfollow] in HF.
  - subst. split; [constructor|exact HG].
  - destruct HF as [_ [Ei HF]]. subst G.
    destruct (holds_stack S HL D _ rank_step _ _ _ HH s (Hin s (or_introl eq_refl)) HG) as [_ [K1 K2]].
    pose proof (stack_end _ _ _ HH s (Hin s (or_introl eq_refl)) (HB s (or_introl eq_refl)) K2) as K3.
    destruct (IH _ _ HF (fun t Ht => Hin t (or_intror Ht)) (fun t Ht => HB t (or_intror Ht)) K3) as [K4 K5].
    split; [|exact K5]. unfold hbatches. cbn [map concat]. apply Forall_app. split; auto.
Qed.

Lemma tail_cached : forall G0 h Gf, history S D G0 h Gf -> forall h1 t h2, h = h1 ++ t :: h2 ->
  (forall s, In s (t :: h2) -> beta_at (sr_post s) k = beta_at (sr_in s) k) ->
  forall b1 x b2, sr_batches t = b1 ++ x :: b2 -> cached_at S D (br_mid x) k ->
  cached_at S D (br_post x) k /\ (forall y, In y (b2 ++ hbatches h2) -> cached_at S D (br_pre y) k /\ cached_at S D (br_mid y) k /\ cached_at S D (br_post y) k) /\
  cached_at S D Gf k.
Proof.
  intros G0 h Gf HH h1 t h2 Eh HB b1 x b2 E Hx. apply (proj2 (good_k _)) in Hx.
  assert (Hin : forall s, In s (t :: h2) -> In s h) by (intros s Hs; rewrite Eh; apply in_or_app; auto).
  destruct (stack_rest _ _ _ HH t (Hin t (or_introl eq_refl)) b1 x b2 E Hx) as [K1 [K2 K3]].
  pose proof (stack_end _ _ _ HH t (Hin t (or_introl eq_refl)) (HB t (or_introl eq_refl)) K3) as K4.
  assert (HF : sfollow (sr_from t + sr_len t) (sr_post t) h2 Gf).
  { destruct (history_count S HL _ _ _ _ HH) as [_ [_ [HF _]]]. rewrite Eh in HF. apply sfollow_app in HF. cbn [sfollow] in HF. apply HF. }
  destruct (stacks_keep _ _ _ HH h2 _ _ HF (fun s Hs => Hin s (or_intror Hs)) (fun s Hs => HB s (or_intror Hs)) K4) as [K5 K6].
  split; [apply (proj1 (good_k _)); auto|]. split; [|apply (proj1 (good_k _)); auto].
  intros y Hy. assert (B : ball C n good y) by (apply in_app_or in Hy; destruct Hy as [Hy|Hy]; [rewrite Forall_forall in K2; auto|rewrite Forall_forall in K5; auto]).
  destruct B as [[_ B1] [[_ B2] [_ B3]]]. split; [apply (proj1 (good_k _)); auto|]. split; apply (proj1 (good_k _)); auto.
Qed.
End Tail.
