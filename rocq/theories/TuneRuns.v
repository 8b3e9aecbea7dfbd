(** Tuning of the widths along runs: when it happens, what it leaves alone, what it does to a row. *)
From Coq Require Import ZArith Arith List Bool Lia.
From Verif Require Import Base Arith Rand Mh Ladder Tune Mpi MpiMeta Spmd Prog Seq ListAux MhSpec SeqWf Refine
  SeqTotal System Runs SeqFiles History Views RunHist HistCount HistRows LadderRuns.
Import ListNotations.
Open Scope Z_scope.

(** ** One rank during tuning, whatever messages it receives *)
Section Quiet.
Variables msg event : Type.

(** no record is written and every returned value satisfies P, for all messages received *)
Fixpoint quiet {X} (P : X -> Prop) (p : proc msg event X) : Prop :=
  match p with
  | Ret x => P x
  | Send _ _ _ k => quiet P k
  | Recv _ _ k => forall m, quiet P (k m)
  | Bcast _ _ k => forall m, quiet P (k m)
  | Barrier k => quiet P k
  | Out _ _ => False
  | Fail _ => True
  end.

Lemma quiet_bind : forall X Y (P : X -> Prop) (Q : Y -> Prop) (p : proc msg event X) f,
  quiet P p -> (forall x, P x -> quiet Q (f x)) -> quiet Q (pbind p f).
Proof. intros X Y P Q p f. induction p; cbn; intros HP HF; auto; contradiction. Qed.
Lemma quiet_lift : forall X (P : X -> Prop) (r : res X), (forall x, r = OK x -> P x) -> quiet P (plift r).
Proof. intros X P [x|e] H; cbn; auto. Qed.
Lemma quiet_for : forall S I (P : S -> Prop) (l : list I) body s, P s -> (forall i s, P s -> quiet P (body i s)) ->
  quiet P (pfor l body s).
Proof.
  intros S I P l body. induction l as [|i l IH]; intros s Hs H; cbn; auto.
  apply quiet_bind with (P := P); auto.
Qed.
End Quiet.
Arguments quiet {msg event X}.

Section OneRank.
Context {A : Arith}.
Variables (C : Cfg A) (U : User A) (n : nat) (D : Data A) (me : nat).
Notation row := (list (num A)).

(** all but the generator and the widths *)
Definition kept (s s' : st (A := A)) : Prop :=
  l_it (lo s') = l_it (lo s) /\ l_acc (lo s') = l_acc (lo s) /\ l_beta (lo s') = l_beta (lo s) /\
  transit (ro s') = transit (ro s) /\ lps (ro s') = lps (ro s).
Lemma kept_refl : forall s, kept s s.
Proof. intros. repeat split. Qed.
Lemma kept_trans : forall a b c, kept a b -> kept b c -> kept a c.
Proof. intros a b c [A1 [A2 [A3 [A4 A5]]]] [B1 [B2 [B3 [B4 B5]]]]. repeat split; congruence. Qed.

Ltac qb := eapply quiet_bind; [|intros ? _].
Ltac qt := instantiate (1 := fun _ => True).
Ltac ql := apply quiet_lift; intros; exact I.

Lemma distribute_quiet : forall t, quiet (fun _ => True) (mpi_distribute_sigma C n me t).
Proof.
  intros t. unfold mpi_distribute_sigma. destruct (is_root me).
  - eapply quiet_bind with (P := fun _ => True); [ql|intros own _].
    eapply quiet_bind with (P := fun _ => True); [|intros; exact I].
    apply quiet_for; auto. intros i u _. eapply quiet_bind with (P := fun _ => True); [ql|intros; exact I].
  - cbn. intros m. ql.
Qed.

Lemma iparm_quiet : forall s x lp rk, quiet (fun p => kept s (fst p)) (mpi_tune_iparmNrank C U n D me s x lp rk).
Proof.
  intros s x lp rk. unfold mpi_tune_iparmNrank.
  eapply quiet_bind with (P := fun _ => True); [ql|intros beta _].
  eapply quiet_bind with (P := fun _ => True); [ql|intros [ar g] _].
  destruct (is_root me).
  - eapply quiet_bind with (P := fun _ => True); [ql|intros t0 _].
    eapply quiet_bind with (P := fun _ => True).
    { apply quiet_for; auto. intros i t _. cbn. intros m. eapply quiet_bind with (P := fun _ => True); [ql|intros v _; ql]. }
    intros t _. eapply quiet_bind with (P := fun _ => True); [ql|intros l _]. cbn. repeat split.
  - cbn. repeat split.
Qed.

Lemma parm_quiet : forall rk al x lp jp s ars, quiet (fun p => kept s (fst p)) (tune_parm C U n D me rk al x lp jp (s, ars)).
Proof.
  intros rk al x lp jp s ars. unfold tune_parm.
  eapply quiet_bind with (P := fun _ => True); [destruct (is_root me); [ql|exact I]|intros mat _].
  eapply quiet_bind with (P := fun _ => True); [apply distribute_quiet|intros sig _].
  cbn [quiet]. eapply quiet_bind; [apply iparm_quiet|]. intros [s1 ar] HK. cbn in *. exact HK.
Qed.

Lemma irank_quiet : forall s rk, quiet (kept s) (mpi_tune_irank C U n D me s rk).
Proof.
  intros s rk. unfold mpi_tune_irank.
  eapply quiet_bind with (P := fun _ => True).
  { destruct (is_root me); [|exact I].
    eapply quiet_bind with (P := fun _ => True); [ql|intros al _].
    eapply quiet_bind with (P := fun _ => True); [ql|intros lp _].
    eapply quiet_bind with (P := fun _ => True); [ql|intros x _]. exact I. }
  intros [[al x0] lp0] _. cbn [quiet]. intros m1.
  eapply quiet_bind with (P := fun _ => True); [ql|intros x _]. cbn [quiet]. intros m2.
  eapply quiet_bind with (P := fun _ => True); [ql|intros lp _]. cbn [quiet].
  eapply quiet_bind with (P := fun p => kept s (fst p)).
  { apply quiet_for; [apply kept_refl|]. intros jp [s1 ars] HK. 
    pose proof (parm_quiet rk al x lp jp s1 ars) as Q. revert Q. generalize (tune_parm C U n D me rk al x lp jp (s1, ars)).
    intros p. induction p; cbn; auto. intros K. eapply kept_trans; eauto. }
  intros [s1 ars] HK. cbn [fst] in HK. eapply quiet_bind with (P := kept s); [|intros s2 H2; exact H2].
  destruct (is_root me); [|exact HK].
  eapply quiet_bind with (P := fun _ => True); [ql|intros [[ip ir] g] _].
  eapply quiet_bind with (P := fun _ => True); [ql|intros t _]. exact HK.
Qed.

Lemma all_quiet : forall flags s, quiet (kept s) (tune_all C U n D me flags s).
Proof.
  intros flags s. unfold tune_all. apply quiet_for; [apply kept_refl|]. intros r s1 HK.
  eapply quiet_bind with (P := fun _ => True); [ql|intros f _].
  eapply quiet_bind with (P := kept s); [|intros s2 H2; exact H2].
  destruct (f =? 1); [|exact HK].
  pose proof (irank_quiet s1 r) as Q. revert Q. generalize (mpi_tune_irank C U n D me s1 r).
  intros p. induction p; cbn; auto. intros K. eapply kept_trans; eauto.
Qed.
End OneRank.

Section Run.
Context {A : Arith}.
Variable S : Setup A.
Hypothesis HL : Legal S.
Variable D : Data A.
Notation C := (s_cfg S). Notation U := (s_user S). Notation n := (s_n S).
Let RK : RandOK A := proj1 HL.
Let VC : ValidCfg C n := proj1 (proj2 HL).
Let VU : ValidUser C U := proj1 (proj2 (proj2 HL)).

(** ** Widths in a stack *)
Lemma stack_widths : forall G0 h Gf, history S D G0 h Gf -> forall s, In s h ->
  forall G, G = sr_pre s \/ In G (concat (map bstates (sr_batches s))) \/ G = sr_mid s \/ G = sr_lad s ->
  sigt (g_ro G) = sigt (g_ro (sr_in s)) /\ forall r, (r < n)%nat -> l_sig (loc_at G r) = sigt_at (sr_in s) r.
Proof.
  intros G0 h Gf HH s Hs. pose proof (vc_n _ _ VC) as Hn.
  set (P := fun G : gst (A := A) => sigt (g_ro G) = sigt (g_ro (sr_in s)) /\ forall r, (r < n)%nat -> l_sig (loc_at G r) = sigt_at (sr_in s) r).
  destruct (history_count S HL _ _ _ _ HH) as [_ [F _]]. rewrite Forall_forall in F.
  destruct (F s Hs) as [_ [_ [_ [_ [Wi [Wp [Wm [_ [_ [E [_ [_ [_ [_ [HLad [_ [_ [_ [HS _]]]]]]]]]]]]]]]]]]].
  assert (Pp : P (sr_pre s)).
  { split; auto. rewrite E. reflexivity. }
  destruct (stack_inner S HL D P) with (G0 := G0) (h := h) (Gf := Gf) (s := s) as [Pb Pm]; auto.
  - intros G g G' W [P1 P2] HG. destruct (with_g0_view C n VC _ _ _ W HG) as [R V]. split; [rewrite R; auto|].
    intros r Hr. destruct (V r Hr) as [-> _]. auto.
  - intros G nb G' lg W [P1 P2] HG. destruct (seq_batch_view C U n D VC VU _ _ _ _ W HG) as [_ [R V]]. split; [congruence|].
    intros r Hr. destruct (V r Hr) as [_ [-> _]]. auto.
  - intros G i G' d W [P1 P2] Hi HG. destruct (seq_swap_view C U n D RK VC _ _ _ _ W Hi HG) as [j [g1 [_ [_ [R [V _]]]]]].
    split; [congruence|]. intros r Hr. destruct (V r Hr) as [-> _]. auto.
  - assert (Pl : P (sr_lad s)).
    { destruct (adapts C (sr_mid s)); [|injection HLad; intros <-; auto].
      destruct (ladder_view C n VC _ _ _ _ Wm HLad) as [R [b [_ [_ V]]]]. destruct Pm as [M1 M2]. split; [congruence|].
      intros r Hr. destruct (V r Hr) as [-> _]. auto. }
    intros G [E1 | [HG | [E1 | E1]]]; try (rewrite E1; assumption). apply Pb. exact HG.
Qed.

(** the steps of every batch are made with the row of the root's table *)
Lemma batch_widths : forall G0 h Gf, history S D G0 h Gf -> forall s, In s h -> forall b, In b (sr_batches s) ->
  forall r, (r < n)%nat ->
  ms_at (br_mid b) r = mhn U D (sigt_at (sr_in s) r) (beta_at (sr_in s) r) (Z.to_nat (br_len b)) (ms_at (br_pre b) r).
Proof.
  intros G0 h Gf HH s Hs b Hb r Hr.
  destruct (history_count S HL _ _ _ _ HH) as [_ [F _]]. rewrite Forall_forall in F.
  pose proof (F s Hs) as Fs. destruct Fs as [_ [_ [_ [_ [_ [_ [_ [_ [_ [_ [_ [FB _]]]]]]]]]]]]. rewrite Forall_forall in FB.
  destruct (FB b Hb) as [_ [_ [Wp [_ [HB _]]]]].
  destruct (seq_batch_view C U n D VC VU _ _ _ _ Wp HB) as [_ [_ V]]. destruct (V r Hr) as [E _]. rewrite E.
  assert (Hin : In (br_pre b) (concat (map bstates (sr_batches s)))).
  { apply in_concat. exists (bstates b). split; [apply in_map; auto|left; auto]. }
  destruct (stack_widths _ _ _ HH s Hs (br_pre b) (or_intror (or_introl Hin))) as [_ W]. rewrite (W r Hr).
  assert (Eb : beta_at (br_pre b) r = beta_at (sr_in s) r).
  { unfold beta_at. f_equal. pose proof (vc_n _ _ VC) as Hn.
    destruct (ends_always S HL D _ _ _ HH (sr_in s)) as [bb [_ [Lb _]]].
    { right. apply in_or_app. left. apply in_concat. exists (sstates s). split; [apply in_map; auto|left; auto]. }
    destruct (stack_betas S HL D _ _ _ HH s Hs bb Lb) as [_ [K _]]. rewrite (K (br_pre b) Hin r Hr). symmetry. apply Lb. exact Hr. }
  rewrite Eb. reflexivity.
Qed.

(** ** when the table changes *)
Lemma table_frozen : forall G0 h Gf, history S D G0 h Gf -> forall s, In s h ->
  ~ (N_begintune C < sr_end s /\ sr_end s < N_stoptune C /\ sr_end s < N_iter C) ->
  sigt (g_ro (sr_post s)) = sigt (g_ro (sr_in s)).
Proof.
  intros G0 h Gf HH s Hs HN. destruct (history_count S HL _ _ _ _ HH) as [_ [F _]]. rewrite Forall_forall in F.
  destruct (F s Hs) as [_ [_ [_ [_ [_ [_ [_ [_ [_ [_ [_ [_ [_ [_ [_ [HT [_ [_ [_ HS]]]]]]]]]]]]]]]]]]].
  assert (E : tunes C (sr_end s) = false).
  { unfold tunes. destruct (Z.ltb_spec (N_begintune C) (sr_end s)), (Z.ltb_spec (sr_end s) (N_stoptune C)), (Z.ltb_spec (sr_end s) (N_iter C)); auto.
    exfalso. apply HN. lia. }
  rewrite E in HT. injection HT; intros <-. exact HS.
Qed.

Definition table (G : gst (A := A)) := sigt (g_ro G).

(** all states of a stack after which no tuning happens have the table of its beginning *)
Lemma stack_table : forall G0 h Gf, history S D G0 h Gf -> forall s, In s h ->
  ~ (N_begintune C < sr_end s /\ sr_end s < N_stoptune C /\ sr_end s < N_iter C) ->
  forall G, In G (sstates s) -> table G = table (sr_in s).
Proof.
  intros G0 h Gf HH s Hs HN G HG. unfold sstates in HG. cbn [In] in HG. unfold table.
  destruct HG as [<-|[<-|HG]]; auto.
  - apply (stack_widths _ _ _ HH s Hs). auto.
  - apply in_app_or in HG. destruct HG as [HG|[<-|[<-|[<-|[]]]]].
    + apply (stack_widths _ _ _ HH s Hs). auto.
    + apply (stack_widths _ _ _ HH s Hs). auto.
    + apply (stack_widths _ _ _ HH s Hs). auto.
    + eapply table_frozen; eauto.
Qed.

(** from the beginning of the first stack that ends at or after N_stoptune on, the table does not change *)
Lemma frozen_tail : forall G0 h Gf, history S D G0 h Gf -> forall h1 s h2, h = h1 ++ s :: h2 ->
  N_stoptune C <= sr_end s -> forall G, In G (states (sr_in s) (s :: h2) Gf) -> table G = table (sr_in s).
Proof.
  intros G0 h Gf HH h1 s h2 Eh Hend. pose proof (history_count S HL _ _ _ _ HH) as HC.
  assert (HF : sfollow (sr_from s) (sr_in s) (s :: h2) Gf).
  { destruct HC as [_ [_ [HF _]]]. rewrite Eh in HF. apply sfollow_app in HF. exact HF. }
  assert (Hin : forall x, In x (s :: h2) -> In x h) by (intros x Hx; rewrite Eh; apply in_or_app; auto).
  assert (K : forall l s, sfollow (sr_from s) (sr_in s) (s :: l) Gf -> (forall x, In x (s :: l) -> In x h) ->
     N_stoptune C <= sr_end s ->
     (forall G, In G (concat (map sstates (s :: l))) -> table G = table (sr_in s)) /\ table Gf = table (sr_in s)).
  { clear - HH HC RK VC VU. induction l as [|t l IH]; intros s HF Hin Hend;
      pose proof (stack_table _ _ _ HH s (Hin s (or_introl eq_refl)) ltac:(lia)) as K;
      assert (Kp : table (sr_post s) = table (sr_in s)) by (apply K; unfold sstates; right; right; apply in_or_app; right; cbn; auto).
    - cbn [sfollow] in HF. destruct HF as [_ [_ <-]]. split; auto. cbn [map concat]; intros G HG; rewrite app_nil_r in HG; auto.
    - destruct HF as [_ [_ [E1 [E2 HF]]]]. destruct (IH t) as [K1 K2].
      + cbn [sfollow]. split; auto. split; auto. rewrite E1. exact HF.
      + intros x Hx. apply Hin. right. exact Hx.
      + destruct HC as [_ [F _]]. rewrite Forall_forall in F.
        destruct (F t (Hin t (or_intror (or_introl eq_refl)))) as [Hl _]. unfold sr_end in *. lia.
      + rewrite E2 in K1, K2. split; [|congruence]. intros G HG. cbn [map concat] in HG. apply in_app_or in HG.
        destruct HG as [HG|HG]; auto. rewrite K1 by exact HG. exact Kp. }
  destruct (K h2 s HF Hin Hend) as [K1 K2]. intros G HG. unfold states in HG. cbn [In] in HG.
  destruct HG as [<-|HG]; auto. apply in_app_or in HG. destruct HG as [HG|[<-|[]]]; auto.
Qed.

(** up to the end of a stack that ends at or before N_begintune the table is the initial one *)
Lemma frozen_head : forall G0 h Gf, history S D G0 h Gf -> forall h1 s h2, h = h1 ++ s :: h2 ->
  sr_end s <= N_begintune C -> table (sr_post s) = table G0 /\ forall G, In G (concat (map sstates (h1 ++ [s]))) -> table G = table G0.
Proof.
  intros G0 h Gf HH h1. pose proof (history_count S HL _ _ _ _ HH) as HC.
  induction h1 as [|t h1 IH] using rev_ind; intros s h2 Eh Hend.
  - assert (Hs : In s h) by (rewrite Eh; left; auto). destruct HC as [_ [_ [HF _]]]. rewrite Eh in HF. cbn [app sfollow] in HF.
    destruct HF as [_ [E _]]. rewrite <- E. split.
    + apply (stack_table _ _ _ HH s Hs ltac:(lia)). unfold sstates; right; right; apply in_or_app; right; cbn; auto.
    + intros G HG. cbn [app map concat] in HG. rewrite app_nil_r in HG. apply (stack_table _ _ _ HH s Hs ltac:(lia) G HG).
  - assert (Hs : In s h) by (rewrite Eh; apply in_or_app; right; left; auto).
    destruct HC as [_ [F [HF _]]]. rewrite Eh in HF. rewrite <- app_assoc in HF. cbn [app] in HF. apply sfollow_app in HF.
    cbn [sfollow] in HF. destruct HF as [_ [_ [E1 [E2 _]]]].
    destruct (IH t (s :: h2)) as [I1 I2]; [rewrite Eh, <- app_assoc; reflexivity| |].
    + rewrite Forall_forall in F. destruct (F s Hs) as [Hl _]. unfold sr_end in *. lia.
    + pose proof (stack_table _ _ _ HH s Hs ltac:(lia)) as K. rewrite E2 in K. split.
      * rewrite K; auto. unfold sstates; right; right; apply in_or_app; right; cbn; auto.
      * intros G HG. rewrite map_app, concat_app in HG. apply in_app_or in HG. destruct HG as [HG|HG]; auto.
        cbn [map concat] in HG. rewrite app_nil_r in HG. rewrite K; auto.
Qed.
End Run.
