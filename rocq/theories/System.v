(** Runs of the whole program with their global order of file appends, and what every schedule
    has in common. *)
From Coq Require Import ZArith Arith List Bool Lia FunctionalExtensionality Permutation.
From Verif Require Import Base Arith Rand Mh Ladder Tune Mpi MpiMeta Spmd Prog Seq ListAux MhSpec
  SeqWf Refine SeqTotal.
Import ListNotations.
Open Scope Z_scope.

Section Runs.
Context {msg event F : Type}.
Variable n : nat.
Notation cfg := (cfg msg event F).
Notation mstep := (mstep msg event F n).
Notation mstar := (mstar msg event F n).

(** what rank r wrote, in a global list of appends *)
Definition gproj (r : nat) (t : list (nat * event)) : list event :=
  map snd (filter (fun x => Nat.eqb (fst x) r) t).

Lemma gproj_app : forall r a b, gproj r (a ++ b) = gproj r a ++ gproj r b.
Proof. intros. unfold gproj. rewrite filter_app, map_app. auto. Qed.

Lemma gproj_cons : forall r q e l, gproj r ((q, e) :: l) = (if Nat.eqb q r then [e] else []) ++ gproj r l.
Proof. intros. unfold gproj. simpl. destruct (Nat.eqb q r); auto. Qed.

(** [mrun c k t c']: a run of k steps from c to c' in which the appends happened in the order t.
    Every step appends at most one record, and [t] agrees with what the logs gained. *)
Inductive mrun : cfg -> nat -> list (nat * event) -> cfg -> Prop :=
| mr_refl : forall c, mrun c 0 [] c
| mr_step : forall c c' c'' k e t, mstep c c' -> (length e <= 1)%nat ->
    (forall r, lg c' r = lg c r ++ gproj r e) ->
    mrun c' k t c'' -> mrun c (S k) (e ++ t) c''.

Lemma mstep_emits : forall c c', mstep c c' ->
  exists e, (length e <= 1)%nat /\ forall r, lg c' r = lg c r ++ gproj r e.
Proof.
  intros c c' H. destruct H.
  - destruct l as [r|].
    + unfold bstep in H. destruct (Nat.ltb r n); [|discriminate].
      destruct (pr c r); try discriminate.
      * destruct (Nat.ltb dst n); inversion H; subst; exists []; split; auto; intros; simpl; rewrite app_nil_r; auto.
      * destruct (ch c src r (Some tag)); inversion H; subst; exists []; split; auto; intros; simpl; rewrite app_nil_r; auto.
      * destruct (Nat.eqb r root).
        -- inversion H; subst; exists []; split; auto; intros; simpl; rewrite app_nil_r; auto.
        -- destruct (ch c root r None); inversion H; subst; exists []; split; auto; intros; simpl; rewrite app_nil_r; auto.
      * inversion H; subst. exists [(r, e)]. split; auto. intros q. cbn [lg].
        unfold gproj, upd; simpl. rewrite (Nat.eqb_sym r q).
        destruct (Nat.eqb_spec q r); subst; simpl; auto. rewrite app_nil_r; auto.
    + unfold bstep in H. destruct (all_at_barrier msg event F n c); inversion H; subst.
      exists []; split; auto; intros; simpl; rewrite app_nil_r; auto.
  - exists []; split; auto; intros; simpl; rewrite app_nil_r; auto.
  - exists []; split; auto; intros; simpl; rewrite app_nil_r; auto.
Qed.

(** nothing is lost by recording the order *)
Lemma mstar_mrun : forall c k c', mstar c k c' -> exists t, mrun c k t c'.
Proof.
  induction 1.
  - exists []; constructor.
  - destruct IHmstar as [t Ht]. destruct (mstep_emits _ _ H) as [e [He1 He2]].
    exists (e ++ t). econstructor; eauto.
Qed.

Lemma mrun_mstar : forall c k t c', mrun c k t c' -> mstar c k c'.
Proof. induction 1; [constructor|econstructor; eauto]. Qed.

Lemma mrun_log : forall c k t c', mrun c k t c' -> forall r, lg c' r = lg c r ++ gproj r t.
Proof.
  induction 1; intros r.
  - simpl. rewrite app_nil_r; auto.
  - rewrite IHmrun, H1, gproj_app, app_assoc; auto.
Qed.

Lemma mrun_app : forall c k t c', mrun c k t c' -> forall k2 t2 c'', mrun c' k2 t2 c'' ->
  mrun c (k + k2) (t ++ t2) c''.
Proof.
  induction 1; intros k2 t2 d Hd; simpl; auto.
  rewrite <- app_assoc. econstructor; eauto.
Qed.

Lemma gproj_single : forall (e1 e2 : list (nat * event)), (length e1 <= 1)%nat -> (length e2 <= 1)%nat ->
  (forall r, gproj r e1 = gproj r e2) -> e1 = e2.
Proof.
  intros [|[r1 a1] [|]] [|[r2 a2] [|]] H1 H2 H; simpl in *; try lia; auto.
  - specialize (H r2). unfold gproj in H. simpl in H. rewrite Nat.eqb_refl in H. discriminate.
  - specialize (H r1). unfold gproj in H. simpl in H. rewrite Nat.eqb_refl in H. discriminate.
  - pose proof (H r1) as H'. unfold gproj in H'. simpl in H'. rewrite Nat.eqb_refl in H'.
    destruct (Nat.eqb_spec r2 r1); simpl in H'; [|discriminate]. inversion H'; subst; auto.
Qed.

(** two global orders with the same per-rank orders are permutations of each other *)
Lemma gproj_perm : forall (a b : list (nat * event)), (forall r, gproj r a = gproj r b) -> Permutation a b.
Proof.
  induction a as [|[r e] a IH]; intros b H.
  - destruct b as [|[r e] b]; auto. specialize (H r). rewrite gproj_cons, Nat.eqb_refl in H. discriminate.
  - assert (S : exists b1 b2, b = b1 ++ (r, e) :: b2 /\ gproj r b1 = []).
    { pose proof (H r) as Hr. rewrite gproj_cons, Nat.eqb_refl in Hr. simpl in Hr.
      clear IH H. induction b as [|[q f] b IHb]; [discriminate|].
      rewrite gproj_cons in Hr. destruct (Nat.eqb_spec q r).
      - simpl in Hr. inversion Hr; subst. exists [], b. auto.
      - simpl in Hr. destruct (IHb Hr) as [b1 [b2 [-> Hb]]]. exists ((q, f) :: b1), b2. split; auto.
        rewrite gproj_cons. destruct (Nat.eqb_spec q r); [congruence|auto]. }
    destruct S as [b1 [b2 [-> Hb1]]]. apply Permutation_cons_app. apply IH.
    intros q. specialize (H q). rewrite gproj_cons in H. rewrite gproj_app, gproj_cons in H.
    rewrite gproj_app. destruct (Nat.eqb_spec r q).
    + subst. rewrite Hb1 in *. simpl in H. inversion H; auto.
    + simpl in H. auto.
Qed.

End Runs.

(** ** The program *)
Section Sys.
Context {A : Arith}.
Variable C : Cfg A.
Variable U : User A.
Variable n : nat.
Variable E : Env (A := A).
Variable ndim : Z.

Notation run := (mrun (msg := msg A) (event := event A) (F := st (A := A)) n).

(** All ranks enter main; no message under way, nothing written. *)
Definition start : cfg (msg A) (event A) (st (A := A)) :=
  mkCfg (fun r => if Nat.ltb r n then main C U n E ndim r else Fail NoSuchRank)
        (no_chans (msg A)) (fun _ => []).

(** All ranks returned from main: rank r with its part of the state G, having written its part
    of the log; no message under way. *)
Definition final (G : gst (A := A)) (t : glog (A := A)) : cfg (msg A) (event A) (st (A := A)) :=
  mkCfg (fun r => if Nat.ltb r n then Ret (st_of G r) else Fail NoSuchRank)
        (no_chans (msg A)) (fun r => if Nat.ltb r n then proj r t else []).

Hypothesis RK : RandOK A.
Hypothesis VC : ValidCfg C n.
Hypothesis VU : ValidUser C U.
Hypothesis VE : ValidEnv E ndim.

Lemma sys_sstar : forall G t, seq_main C U n E ndim = OK (G, t) ->
  exists c d, inj c = start /\ inj d = final G t /\ sstar (msg A) (event A) (st (A := A)) n c d.
Proof.
  intros G t H.
  pose proof (ev_main C U n E (st (A := A)) (vu_ok _ _ VU) (vc_n _ _ VC) ndim G t (vc_seed _ _ VC) (ve_data _ _ VE) H) as Hev.
  specialize (Hev (fun _ => Ret) (fun _ => [])).
  exists (SYS n (fun r => main C U n E ndim r) (fun _ => [])),
         (SYS n (fun r => Ret (st_of G r)) (addlog n (fun _ => []) (fun r => proj r t))).
  split; [reflexivity|]. split; [reflexivity|].
  rewrite (SYS_ext n (fun r => main C U n E ndim r) (fun r => pbind (main C U n E ndim r) Ret)).
  - exact Hev.
  - intros. symmetry. apply pbind_ret.
Qed.

Theorem sys_all : exists G t, seq_main C U n E ndim = OK (G, t) /\ wf C n G /\
  exists N, forall k X, mstar (msg A) (event A) (st (A := A)) n start k X ->
    (k <= N)%nat /\
    (finished (msg A) (event A) (st (A := A)) n X \/ exists X', ustep (msg A) (event A) (st (A := A)) n X X') /\
    (forall r e, (r < n)%nat -> pr X r <> Fail e) /\
    (finished (msg A) (event A) (st (A := A)) n X -> X = final G t) /\
    (exists k', mstar (msg A) (event A) (st (A := A)) n X k' (final G t)).
Proof.
  destruct (seq_main_total C U n E RK VC VU ndim VE) as [G [t [H W]]].
  exists G, t. split; auto. split; auto.
  destruct (sys_sstar G t H) as [c [d [Hc [Hd Hs]]]].
  pose proof (vc_n C n VC).
  destruct (every_schedule n c d) as [N HN]; auto.
  - lia.
  - rewrite Hd. intros r Hr. exists (st_of G r). simpl. rewrite (proj2 (Nat.ltb_lt r n) Hr). auto.
  - exists N. rewrite Hc, Hd in HN. exact HN.
Qed.

(** The same, for a given result of the reference. *)
Lemma sys_given : forall G t, seq_main C U n E ndim = OK (G, t) ->
  exists N, forall k X, mstar (msg A) (event A) (st (A := A)) n start k X ->
    (k <= N)%nat /\
    (finished (msg A) (event A) (st (A := A)) n X \/ exists X', ustep (msg A) (event A) (st (A := A)) n X X') /\
    (forall r e, (r < n)%nat -> pr X r <> Fail e) /\
    (finished (msg A) (event A) (st (A := A)) n X -> X = final G t) /\
    (exists k', mstar (msg A) (event A) (st (A := A)) n X k' (final G t)).
Proof.
  intros G t H. destruct sys_all as [G' [t' [H' [_ HN]]]]. rewrite H in H'. inversion H'; subst. exact HN.
Qed.

(** ** Who writes what *)
Definition owner (e : event A) : nat :=
  match e with
  | EvDir => 0 | EvSeed r _ => r | EvInit _ => 0 | EvRow r _ => r | EvSigma r _ => r | EvBeta _ => 0
  end.
Definition owned (t : glog (A := A)) : Prop := forall q e, In (q, e) t -> owner e = q /\ (q < n)%nat.

Lemma owned_app : forall a b, owned a -> owned b -> owned (a ++ b).
Proof. intros a b Ha Hb q e H. apply in_app_iff in H. destruct H; auto. Qed.

Lemma owned_map : forall (f : nat -> event A), (forall r, owner (f r) = r) -> owned (map (fun r => (r, f r)) (ranks n)).
Proof.
  intros f Hf q e H. apply in_map_iff in H. destruct H as [r [H Hr]]. inversion H; subst.
  apply in_seq in Hr. split; auto; lia.
Qed.

Lemma owned_map2 : forall {X} (f : nat -> X -> event A) (l : list X), (forall r x, owner (f r x) = r) ->
  owned (map2 (fun r x => (r, f r x)) (ranks n) l).
Proof.
  intros X f l Hf. unfold ranks. assert (K : forall k a, (a + k <= n)%nat -> owned (map2 (fun r x => (r, f r x)) (seq a k) l)).
  { revert l. induction l as [|x l IH]; intros [|k] a Ha q e H; simpl in H; try contradiction.
    destruct H as [H|H].
    - inversion H; subst. split; auto; lia.
    - apply (IH k (S a)) in H; auto. lia. }
  apply K. lia.
Qed.

Lemma owned_rows : forall bs : list (batch_out (A := A)), owned (concat (map2 rows_log (ranks n) bs)).
Proof.
  intros bs. unfold ranks. assert (K : forall k a, (a + k <= n)%nat -> owned (concat (map2 rows_log (seq a k) bs))).
  { induction bs as [|b bs IH]; intros [|k] a Ha q e H; simpl in H; try contradiction.
    apply in_app_iff in H. destruct H as [H|H].
    - unfold rows_log in H. apply in_map_iff in H. destruct H as [x [H _]]. inversion H; subst. simpl; split; auto; lia.
    - apply (IH k (S a)) in H; auto. lia. }
  apply K. lia.
Qed.

Lemma seq_batch_owned : forall D G nb G' t, seq_batch C U n D G nb = OK (G', t) -> owned t.
Proof. intros. unfold seq_batch in H. rinv. apply owned_rows. Qed.

Lemma seq_stack_loop_owned : forall D len fuel G it ix isw nsw npr G' nsw' npr' t,
  seq_stack_loop C U n D len fuel G it ix isw nsw npr = OK (G', nsw', npr', t) -> owned t.
Proof.
  induction fuel as [|fuel IH]; intros G it ix isw nsw npr G' nsw' npr' t H;
    cbn [seq_stack_loop] in H; destruct (ix <? len); rinv; try (intros q e []).
  apply owned_app; [eapply seq_batch_owned; eauto|eapply IH; eauto].
Qed.

Lemma seq_stack_owned : forall D G len G' t, seq_stack C U n D G len = OK (G', t) -> owned t.
Proof.
  intros. unfold seq_stack in H. rinv. pose proof (vc_n C n VC).
  intros q e Hi. destruct Hi as [Hi|Hi]; [inversion Hi; subst; simpl; unfold root; split; auto; lia|].
  eapply seq_stack_loop_owned; eauto.
Qed.

Lemma seq_flow_loop_owned : forall D fuel G len it ix G' t,
  seq_flow_loop C U n D fuel G len it ix = OK (G', t) -> owned t.
Proof.
  induction fuel as [|fuel IH]; intros G len it ix G' t H;
    cbn [seq_flow_loop] in H; destruct (ix <? N_iter C); rinv; try (intros q e []).
  apply owned_app; [apply (owned_map2 (fun r l => EvSigma r (l_sig l))); auto|].
  apply owned_app; [eapply seq_stack_owned; eauto|eapply IH; eauto].
Qed.

Lemma seq_main_owned : forall G t, seq_main C U n E ndim = OK (G, t) -> owned t.
Proof.
  intros G t H. unfold seq_main in H. rinv. pose proof (vc_n C n VC).
  assert (O1 : owned g0).
  { unfold seq_init in E3. rinv.
    apply owned_app; [apply (owned_map (fun r => EvSeed r (u2i (seed_of C n E r)))); auto|].
    apply (owned_app [_]); [intros q e [Hi|[]]; inversion Hi; subst; simpl; unfold root; split; auto; lia|].
    apply owned_app; [apply (owned_map2 (fun r xl => EvRow r (mkRow (fst xl) (snd xl) 0 0))); auto|].
    apply (owned_map (fun r => EvSigma r (u_gp U))); auto. }
  intros q e Hi. destruct Hi as [Hi|Hi]; [inversion Hi; subst; simpl; unfold root; split; auto; lia|].
  apply in_app_iff in Hi. destruct Hi; auto. eapply seq_flow_loop_owned; eauto.
Qed.

(** ** Files *)
Inductive fname : Type :=
| FChain (r : nat)      (* chain<r>.dat *)
| FSigma (r : nat)      (* gaussian_prop.chain<r> *)
| FBeta                 (* Beta_Values_in_stack.dat *)
| FInit                 (* init.parm *)
| FSeed.                (* init.randseed *)

Definition in_file (f : fname) (e : event A) : bool :=
  match f, e with
  | FChain r, EvRow q _ => Nat.eqb q r
  | FSigma r, EvSigma q _ => Nat.eqb q r
  | FBeta, EvBeta _ => true
  | FInit, EvInit _ => true
  | FSeed, EvSeed _ _ => true
  | _, _ => false
  end.

(** contents of a file after the appends [t], oldest line first *)
Definition file (f : fname) (t : list (nat * event A)) : list (event A) := filter (in_file f) (map snd t).

Definition fowner (f : fname) : nat :=
  match f with FChain r => r | FSigma r => r | FBeta => 0 | FInit => 0 | FSeed => 0 end.

Lemma file_proj : forall f (t : glog (A := A)), f <> FSeed -> owned t ->
  file f t = filter (in_file f) (proj (fowner f) t).
Proof.
  intros f t Hf. unfold file, proj. induction t as [|[q e] t IH]; intros Ho; simpl; auto.
  assert (O' : owned t) by (intros q' e' Hi; apply Ho; right; auto).
  specialize (IH O'). destruct (Ho q e (or_introl eq_refl)) as [Hq _].
  destruct (Nat.eqb_spec q (fowner f)); simpl.
  - rewrite IH; auto.
  - rewrite <- IH. destruct (in_file f e) eqn:Ein; auto. exfalso.
    destruct f, e; simpl in *; try discriminate; try congruence; apply Nat.eqb_eq in Ein; congruence.
Qed.

Lemma gproj_proj : forall r (t : glog (A := A)), gproj r t = proj r t.
Proof. reflexivity. Qed.

Lemma run_facts : forall G t k tr X, seq_main C U n E ndim = OK (G, t) -> run start k tr X ->
  exists k2 tr2, run X k2 tr2 (final G t) /\ forall r, proj r (tr ++ tr2) = proj r t.
Proof.
  intros G t k tr X H HX. destruct (sys_given G t H) as [N HN].
  destruct (HN k X (mrun_mstar _ _ _ _ _ HX)) as [_ [_ [_ [_ [k' Hk']]]]].
  destruct (mstar_mrun _ _ _ _ Hk') as [tr2 Hr]. exists k', tr2. split; auto.
  pose proof (mrun_app _ _ _ _ _ HX _ _ _ Hr) as Hall.
  intros r. pose proof (mrun_log _ _ _ _ _ Hall r) as HL. rewrite <- gproj_proj. simpl in HL.
  rewrite <- HL. destruct (Nat.ltb_spec r n); auto.
  (* a rank outside the communicator wrote nothing *)
  pose proof (seq_main_owned G t H) as Ho. unfold proj.
  clear -Ho H0. induction t as [|[q e] t IH]; simpl; auto.
  destruct (Ho q e (or_introl eq_refl)) as [_ Hq]. destruct (Nat.eqb_spec q r); [lia|].
  apply IH. intros q' e' Hi. apply Ho. right; auto.
Qed.

Lemma owned_perm : forall a b, Permutation a b -> owned b -> owned a.
Proof. intros a b P H q e Hi. apply H. eapply Permutation_in; eauto. Qed.

Lemma run_files : forall G t k tr X, seq_main C U n E ndim = OK (G, t) -> run start k tr X ->
  forall f, f <> FSeed -> exists rest, file f t = file f tr ++ rest.
Proof.
  intros G t k tr X H HX f Hf. destruct (run_facts G t k tr X H HX) as [k2 [tr2 [_ HP]]].
  assert (P : Permutation (tr ++ tr2) t) by (apply gproj_perm; exact HP).
  pose proof (owned_perm _ _ P (seq_main_owned G t H)) as Ho.
  rewrite (file_proj f t Hf (seq_main_owned G t H)). rewrite <- HP.
  rewrite <- (file_proj f (tr ++ tr2) Hf Ho).
  exists (file f tr2). unfold file. rewrite map_app, filter_app. auto.
Qed.

Lemma mrun_finished : forall X k t Y, run X k t Y -> (0 < n)%nat ->
  finished (msg A) (event A) (st (A := A)) n X -> t = [] /\ X = Y.
Proof.
  intros X k t Y HR H0 HF. destruct HR; auto. exfalso. destruct H.
  - rewrite finished_stuck in H; auto. discriminate.
  - destruct (HF s H) as [x Hx]. congruence.
  - match goal with H : (?q < n)%nat |- _ => destruct (HF q H) as [x Hx] end. match goal with H : forall r, _ -> pr _ r = _ |- _ => rewrite H in Hx by auto end. discriminate.
Qed.

Lemma run_files_finished : forall G t k tr X, seq_main C U n E ndim = OK (G, t) -> run start k tr X ->
  finished (msg A) (event A) (st (A := A)) n X ->
  Permutation tr t /\ forall f, f <> FSeed -> file f tr = file f t.
Proof.
  intros G t k tr X H HX HF. destruct (run_facts G t k tr X H HX) as [k2 [tr2 [HR HP]]].
  destruct (mrun_finished _ _ _ _ HR ltac:(pose proof (vc_n C n VC); lia) HF) as [-> ->].
  rewrite app_nil_r in HP.
  assert (P : Permutation tr t) by (apply gproj_perm; exact HP). split; auto.
  intros f Hf. rewrite (file_proj f t Hf (seq_main_owned G t H)).
  rewrite (file_proj f tr Hf (owned_perm _ _ P (seq_main_owned G t H))). rewrite HP. auto.
Qed.

(** ** The results directory comes first *)
Definition rest0 : proc (msg A) (event A) (st (A := A)) :=
  match main C U n E ndim 0 with Out _ k => k | p => p end.

Lemma main0 : main C U n E ndim 0 = Out EvDir rest0.
Proof. reflexivity. Qed.

Lemma main_slave : forall r, r <> 0%nat -> exists m k, main C U n E ndim r = Bcast 0 m k.
Proof.
  intros r Hr. unfold main, mpi_get_nlines, is_root, root.
  destruct (Nat.eqb_spec r 0); [congruence|]. cbn [pbind]. eauto.
Qed.

Lemma start_pr : forall r, (r < n)%nat -> pr start r = main C U n E ndim r.
Proof. intros. simpl. rewrite (proj2 (Nat.ltb_lt r n) H). auto. Qed.

Lemma start_step : forall X, mstep (msg A) (event A) (st (A := A)) n start X ->
  forall r, lg X r = if Nat.eqb r 0 then [EvDir] else [].
Proof.
  intros X HX. pose proof (vc_n C n VC) as Hn.
  remember start as s0 eqn:Es. destruct HX; subst c.
  - destruct l as [r|].
    + unfold bstep in H. destruct (Nat.ltb_spec r n) as [Hr|Hr]; [|discriminate].
      rewrite start_pr in H by auto. destruct (Nat.eq_dec r 0) as [->|Hne].
      * rewrite main0 in H. inversion H; subst. intros q. simpl. unfold upd.
        destruct (Nat.eqb_spec q 0); subst; auto.
      * destruct (main_slave r Hne) as [m [k Hm]]. rewrite Hm in H.
        destruct (Nat.eqb_spec r 0); [congruence|]. discriminate.
    + exfalso. unfold bstep in H.
      destruct (all_at_barrier (msg A) (event A) (st (A := A)) n start) eqn:Eb; [|discriminate].
      rewrite all_at_barrier_spec in Eb. destruct (Eb 0%nat ltac:(lia)) as [k Hk].
      rewrite start_pr, main0 in Hk by lia. discriminate.
  - exfalso. rewrite start_pr in H2 by auto. destruct (Nat.eq_dec s 0) as [->|Hne].
    + rewrite main0 in H2. discriminate.
    + destruct (main_slave s Hne) as [m' [k2 Hm]]. congruence.
  - exfalso. specialize (H0 0%nat ltac:(lia)). rewrite start_pr, main0 in H0 by lia. discriminate.
Qed.

Lemma dir_first : forall k tr X, run start k tr X -> tr <> [] -> exists tr', tr = (0%nat, EvDir) :: tr'.
Proof.
  intros k tr X HR Hne. remember start as s0 eqn:Es. destruct HR; [congruence|]. subst c.
  pose proof (start_step c' H) as HS.
  assert (e = [(0%nat, EvDir)]).
  { apply gproj_single; auto. intros r. specialize (H1 r). rewrite HS in H1. simpl in H1. rewrite <- H1.
    unfold gproj. simpl. destruct r; auto. }
  subst e. simpl. eauto.
Qed.

End Sys.
