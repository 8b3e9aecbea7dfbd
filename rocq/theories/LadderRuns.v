(** The betas along a run: what the adaptation may change and when. *)
From Coq Require Import ZArith Arith List Bool Lia.
From Verif Require Import Base Arith B64 Rand Mh Ladder Tune Mpi MpiMeta Spmd Prog Seq ListAux MhSpec SeqWf Refine
  SeqTotal System RandRange Runs SeqFiles History Views RunHist HistCount HistRows SwapLemmas ChainInv Stale.
Import ListNotations.
Open Scope Z_scope.

(** ** all states of a history *)
Section States.
Context {A : Arith}.
Definition bstates (b : brec (A := A)) : list gst := [br_pre b; br_mid b; br_post b].
Definition sstates (s : srec (A := A)) : list gst :=
  sr_in s :: sr_pre s :: concat (map bstates (sr_batches s)) ++ [sr_mid s; sr_lad s; sr_post s].
Definition states (G0 : gst) (h : list (srec (A := A))) (Gf : gst) : list gst :=
  G0 :: concat (map sstates h) ++ [Gf].

Lemma sall_states : forall C n (P : gst (A := A) -> Prop) s, sall C n P s -> forall G, In G (sstates s) -> P G.
Proof.
  intros C n P s [[_ H1] [[_ H2] [H3 [[_ H4] [[_ H5] [_ H6]]]]]] G HG. unfold sstates in HG. cbn [In] in HG.
  destruct HG as [<-|[<-|HG]]; auto. apply in_app_or in HG. destruct HG as [HG|HG].
  - apply in_concat in HG. destruct HG as [l [Hl Hi]]. apply in_map_iff in Hl. destruct Hl as [b [<- Hb]].
    rewrite Forall_forall in H3. destruct (H3 b Hb) as [[_ B1] [[_ B2] [_ B3]]]. cbn [bstates In] in Hi.
    destruct Hi as [<-|[<-|[<-|[]]]]; auto.
  - cbn [In] in HG. destruct HG as [<-|[<-|[<-|[]]]]; auto.
Qed.

Lemma all_states : forall C n (P : gst (A := A) -> Prop) G0 h Gf, P G0 -> Forall (sall C n P) h -> P Gf ->
  forall G, In G (states G0 h Gf) -> P G.
Proof.
  intros C n P G0 h Gf H0 F Hf G HG. unfold states in HG. cbn [In] in HG. destruct HG as [<-|HG]; auto.
  apply in_app_or in HG. destruct HG as [HG|[<-|[]]]; auto.
  apply in_concat in HG. destruct HG as [l [Hl Hi]]. apply in_map_iff in Hl. destruct Hl as [s [<- Hs]].
  rewrite Forall_forall in F. apply (sall_states _ _ _ _ (F s Hs) _ Hi).
Qed.
End States.

(** ** the function: both ends stay *)
Section Fn.
Context {A : Arith}.
Lemma tune_ladder_ends : forall (scale zs : num A) m nsw npr beta b, m = Z.of_nat (length beta) ->
  tune_ladder scale zs m nsw npr beta = OK b ->
  length b = length beta /\ nth_error b 0 = nth_error beta 0 /\
  nth_error b (length beta - 1) = nth_error beta (length beta - 1).
Proof.
  intros scale zs m nsw npr beta b Em H. split; [eapply tune_ladder_length; eauto|].
  unfold tune_ladder in H.
  destruct (ladder_T m beta) as [T0|]; [|discriminate]. cbn [rbind] in H.
  destruct (ladder_ar m nsw npr) as [ar|]; [|discriminate]. cbn [rbind] in H.
  destruct (for_from (Z.to_nat (m - 2)) 1 (ladder_body scale zs m beta ar) T0) as [T|]; [|discriminate]. cbn [rbind] in H.
  apply (for_from_inv (fun _ b => length b = length beta /\ nth_error b 0 = nth_error beta 0 /\
     nth_error b (length beta - 1) = nth_error beta (length beta - 1))) in H; [apply H|auto|].
  intros j t t' Hj [L [E1 E2]] Hb. destruct (zget T j); [|discriminate]. cbn [rbind] in Hb.
  apply zset_ok_inv in Hb. destruct Hb as [Hr ->]. rewrite lset_length. split; auto.
  rewrite <- E1, <- E2. split; apply nth_error_lset_ne; lia.
Qed.
End Fn.

Section Run.
Context {A : Arith}.
Variable S : Setup A.
Hypothesis HL : Legal S.
Notation C := (s_cfg S).
Notation U := (s_user S).
Notation n := (s_n S).
Let RK := proj1 HL.
Let VC := proj1 (proj2 HL).
Let VU := proj1 (proj2 (proj2 HL)).
Variable D : Data A.

(** all ranks hold the ladder b *)
Definition ladder_is (G : gst (A := A)) (b : list (num A)) : Prop := forall r, (r < n)%nat -> l_beta (loc_at G r) = b.

(** what the initial ladder satisfies and every adaptation keeps, every ladder satisfies *)
Lemma betas_always : forall Q : list (num A) -> Prop, Q (firstn n (Beta_Values C)) ->
  (forall nsw npr b b', 0 < Tune_Ladder C -> length b = n -> Q b ->
     tune_ladder (scale_tune_ladder C) (zero_stretch C) (zn n) nsw npr b = OK b' -> Q b') ->
  forall G0 h Gf, history S D G0 h Gf -> forall G, In G (states G0 h Gf) ->
  exists b, length b = n /\ Q b /\ ladder_is G b.
Proof.
  intros Q Q0 Qs G0 h Gf HH. pose proof (vc_n _ _ VC) as Hn.
  set (P := fun G : gst (A := A) => exists b, length b = n /\ Q b /\ ladder_is G b).
  assert (P0 : P G0).
  { exists (firstn n (Beta_Values C)). split; [|split; [exact Q0|]].
    - destruct (init_beta S HL D _ _ _ HH 0%nat ltac:(lia)) as [_ E].
      destruct HH as [_ [[lg HI] _]]. destruct (init_view S HL _ _ _ HI) as [W _]. rewrite <- E.
      apply (wf_beta _ _ _ W). apply nth_In. rewrite (wf_locs _ _ _ W). lia.
    - intros r Hr. apply (init_beta S HL D _ _ _ HH r Hr). }
  destruct (history_all S HL P D G0 h Gf HH P0) as [F [_ Pf]]; [| | | | | |exact (all_states C n P G0 h Gf P0 F Pf)].
  - intros G g G' W [b [L [HQ HB]]] HG. exists b. split; [exact L|split; [exact HQ|]]. intros r Hr.
    destruct (with_g0_view C n VC _ _ _ W HG) as [_ V]. destruct (V r Hr) as [_ [_ [_ [-> _]]]]. auto.
  - intros G nb G' lg W [b [L [HQ HB]]] HG. exists b. split; [exact L|split; [exact HQ|]]. intros r Hr.
    destruct (seq_batch_view C U n D VC VU _ _ _ _ W HG) as [_ [_ V]]. destruct (V r Hr) as [_ [_ [-> _]]]. auto.
  - intros G i G' d W [b [L [HQ HB]]] Hi HG. exists b. split; [exact L|split; [exact HQ|]]. intros r Hr.
    destruct (seq_swap_view C U n D RK VC _ _ _ _ W Hi HG) as [j [g1 [_ [_ [_ [V _]]]]]]. destruct (V r Hr) as [_ [_ [_ ->]]]. auto.
  - intros G W [b [L [HQ HB]]]. exists b. split; [exact L|split; [exact HQ|]]. intros r Hr.
    destruct (dist_view C n VC G (sigt (g_ro G)) W) as [_ V]; [apply (wf_sigt _ _ _ W)|].
    destruct (V r Hr) as [_ [_ [_ [_ ->]]]]. auto.
  - intros G nsw npr G' W [b [L [HQ HB]]] Ha HG.
    destruct (ladder_view C n VC _ _ _ _ W HG) as [_ [b' [Hb [Lb V]]]]. exists b'. split; [exact Lb|]. split.
    + rewrite (HB 0%nat ltac:(lia)) in Hb. apply (Qs nsw npr b b'); auto. unfold adapts in Ha.
      apply andb_true_iff in Ha. destruct Ha as [_ Ha]. apply Z.ltb_lt in Ha. exact Ha.
    + intros r Hr. apply (V r Hr).
  - intros G rk G' W [b [L [HQ HB]]] Hk HG. exists b. split; [exact L|split; [exact HQ|]]. intros r Hr.
    destruct (tune_irank_view C U n D VC _ _ _ W Hk HG) as [[_ [_ V]] _]. destruct (V r Hr) as [_ [_ ->]]. auto.
Qed.

(** ** C26 *)
Lemma ends_always : forall G0 h Gf, history S D G0 h Gf -> forall G, In G (states G0 h Gf) ->
  exists b, length b = n /\ ladder_is G b /\
    nth_error b 0 = nth_error (Beta_Values C) 0 /\ nth_error b (n - 1) = nth_error (Beta_Values C) (n - 1).
Proof.
  intros G0 h Gf HH G HG. pose proof (vc_n _ _ VC) as Hn.
  destruct (betas_always (fun b => nth_error b 0 = nth_error (Beta_Values C) 0 /\
     nth_error b (n - 1) = nth_error (Beta_Values C) (n - 1))) with (G0 := G0) (h := h) (Gf := Gf) (G := G)
    as [b [L [[E1 E2] Hb]]]; auto.
  - clear - Hn. split; (generalize (Beta_Values C); intro l).
    + destruct n as [|m]; [lia|]. destruct l; reflexivity.
    + assert (K : (n - 1 < n)%nat) by lia. revert K. generalize (n - 1)%nat. generalize n. clear Hn. 
      intros m k. revert m l. induction k as [|k IH]; intros [|m] l K; try lia; destruct l as [|a l]; cbn; auto. apply IH. lia.
  - intros nsw npr b b' _ L [E1 E2] H. destruct (tune_ladder_ends _ _ _ _ _ _ _ ltac:(rewrite L; reflexivity) H) as [_ [K1 K2]].
    rewrite L in K2. split; congruence.
  - exists b. auto.
Qed.

(** ** C30 *)
Lemma fixed_always : Tune_Ladder C <= 0 -> forall G0 h Gf, history S D G0 h Gf -> forall G, In G (states G0 h Gf) ->
  ladder_is G (firstn n (Beta_Values C)).
Proof.
  intros HT G0 h Gf HH G HG.
  destruct (betas_always (fun b => b = firstn n (Beta_Values C)) eq_refl) with (G0 := G0) (h := h) (Gf := Gf) (G := G)
    as [b [_ [-> Hb]]]; auto. intros; lia.
Qed.


(** ** inside a stack *)
Lemma stack_inner : forall P : gst (A := A) -> Prop,
  (forall G g G', wf C n G -> P G -> with_g0 G g = OK G' -> P G') ->
  (forall G nb G' lg, wf C n G -> P G -> seq_batch C U n D G nb = OK (G', lg) -> P G') ->
  (forall G i G' d, wf C n G -> P G -> 0 <= i < zn n - 1 -> seq_swap C U n D G i = OK (G', d) -> P G') ->
  forall G0 h Gf, history S D G0 h Gf -> forall s, In s h -> P (sr_pre s) ->
  (forall G, In G (concat (map bstates (sr_batches s))) -> P G) /\ P (sr_mid s).
Proof.
  intros P H1 H2 H3 G0 h Gf HH s Hs HP. destruct (history_count S HL _ _ _ _ HH) as [_ [F _]]. rewrite Forall_forall in F.
  destruct (F s Hs) as [_ [_ [_ [_ [_ [Wp [_ [_ [_ [_ [_ [_ [_ [HB _]]]]]]]]]]]]]].
  destruct (bruns_all C U n D RK VC VU P H1 H2 H3 _ _ _ _ _ _ _ _ _ _ HB (conj Wp HP)) as [HF [_ Hm]].
  split; auto. intros G HG. apply in_concat in HG. destruct HG as [l [Hl Hi]]. apply in_map_iff in Hl.
  destruct Hl as [b [<- Hb]]. rewrite Forall_forall in HF. destruct (HF b Hb) as [[_ B1] [[_ B2] [_ B3]]].
  cbn [bstates In] in Hi. destruct Hi as [<-|[<-|[<-|[]]]]; auto.
Qed.

Lemma stack_betas : forall G0 h Gf, history S D G0 h Gf -> forall s, In s h -> forall b, ladder_is (sr_in s) b ->
  ladder_is (sr_pre s) b /\ (forall G, In G (concat (map bstates (sr_batches s))) -> ladder_is G b) /\ ladder_is (sr_mid s) b.
Proof.
  intros G0 h Gf HH s Hs b Hb. pose proof (vc_n _ _ VC) as Hn.
  assert (Hp : ladder_is (sr_pre s) b).
  { destruct (history_count S HL _ _ _ _ HH) as [_ [F _]]. rewrite Forall_forall in F.
    destruct (F s Hs) as [_ [_ [_ [_ [Wi [_ [_ [_ [_ [E _]]]]]]]]]]. rewrite E. intros r Hr.
    destruct (dist_view C n VC _ (sigt (g_ro (sr_in s))) Wi) as [_ V]; [apply (wf_sigt _ _ _ Wi)|].
    destruct (V r Hr) as [_ [_ [_ [_ ->]]]]. auto. }
  split; auto. apply (stack_inner (fun G => ladder_is G b)) with (G0 := G0) (h := h) (Gf := Gf); auto.
  - intros G g G' W HB HG r Hr.
    destruct (with_g0_view C n VC _ _ _ W HG) as [_ V]. destruct (V r Hr) as [_ [_ [_ [-> _]]]]. auto.
  - intros G nb G' lg W HB HG r Hr.
    destruct (seq_batch_view C U n D VC VU _ _ _ _ W HG) as [_ [_ V]]. destruct (V r Hr) as [_ [_ [-> _]]]. auto.
  - intros G i G' d W HB Hi HG r Hr.
    destruct (seq_swap_view C U n D RK VC _ _ _ _ W Hi HG) as [j [g1 [_ [_ [_ [V _]]]]]]. destruct (V r Hr) as [_ [_ [_ ->]]]. auto.
Qed.

(** what an adaptation with the statistics of a stack keeps, every ladder of the history satisfies *)
Lemma betas_hist : forall Q : list (num A) -> Prop, Q (firstn n (Beta_Values C)) ->
  forall G0 h Gf, history S D G0 h Gf ->
  (forall s b b', In s h -> 0 < Tune_Ladder C -> length b = n -> Q b ->
     tune_ladder (scale_tune_ladder C) (zero_stretch C) (zn n) (sr_nsw s) (sr_npr s) b = OK b' -> Q b') ->
  forall G, In G (states G0 h Gf) -> exists b, length b = n /\ Q b /\ ladder_is G b.
Proof.
  intros Q Q0 G0 h Gf HH Qs. pose proof (vc_n _ _ VC) as Hn.
  set (P := fun G : gst (A := A) => exists b, length b = n /\ Q b /\ ladder_is G b).
  destruct (history_count S HL _ _ _ _ HH) as [_ [F [HF _]]]. rewrite Forall_forall in F.
  assert (P0 : P G0).
  { exists (firstn n (Beta_Values C)). split; [|split; [exact Q0|]].
    - destruct (init_beta S HL D _ _ _ HH 0%nat ltac:(lia)) as [_ E].
      pose proof HH as [_ [[lg HI] _]]. destruct (init_view S HL _ _ _ HI) as [W _]. rewrite <- E.
      apply (wf_beta _ _ _ W). apply nth_In. rewrite (wf_locs _ _ _ W). lia.
    - intros r Hr. apply (init_beta S HL D _ _ _ HH r Hr). }
  assert (K : forall s, In s h -> P (sr_in s) -> (forall G, In G (sstates s) -> P G)).
  { intros s Hs [b [Lb [Hb HB]]]. destruct (stack_betas _ _ _ HH s Hs b HB) as [Kp [Kb Km]].
    destruct (F s Hs) as [_ [_ [_ [_ [_ [_ [Wm [Wl [_ [_ [_ [_ [_ [_ [HLad [HT _]]]]]]]]]]]]]]]].
    assert (Pl : P (sr_lad s)).
    { destruct (adapts C (sr_mid s)) eqn:Ea; [|injection HLad; intros <-; exists b; auto].
      destruct (ladder_view C n VC _ _ _ _ Wm HLad) as [_ [b' [Eb [Lb' V]]]]. exists b'. split; [exact Lb'|]. split.
      - rewrite (Km 0%nat ltac:(lia)) in Eb. apply (Qs s b b'); auto. unfold adapts in Ea.
        apply andb_true_iff in Ea. destruct Ea as [_ Ea]. apply Z.ltb_lt in Ea. exact Ea.
      - intros r Hr. apply (V r Hr). }
    assert (Pp : P (sr_post s)).
    { destruct Pl as [b' [L' [Q' B']]]. exists b'. split; [exact L'|split; [exact Q'|]]. destruct (tunes C (sr_end s)).
      - destruct (tune_all_view C U n D VC VU _ _ _ Wl HT) as [[_ [_ V]] _]. intros r Hr. destruct (V r Hr) as [_ [_ ->]]. auto.
      - injection HT; intros <-. exact B'. }
    intros G HG. unfold sstates in HG. cbn [In] in HG. destruct HG as [<-|[<-|HG]]; [exists b; auto|exists b; auto|].
    apply in_app_or in HG. destruct HG as [HG|[<-|[<-|[<-|[]]]]]; auto; exists b; auto. }
  assert (K2 : forall l i G, sfollow i G l Gf -> (forall s, In s l -> In s h) -> P G ->
     (forall G', In G' (concat (map sstates l)) -> P G') /\ P Gf).
  { clear - K. induction l as [|s l IH]; intros i G HF Hin HP; cbn [sfollow] in HF.
    - subst. split; [intros G' []|auto].
    - destruct HF as [_ [E HF]]. assert (Ks := K s (Hin s (or_introl eq_refl)) ltac:(rewrite E; auto)).
      destruct (IH _ _ HF) as [K1 K3].
      + intros x Hx. apply Hin. right. exact Hx.
      + apply Ks. unfold sstates. right. right. apply in_or_app. right. cbn. auto.
      + split; auto. intros G' HG. cbn [map concat] in HG. apply in_app_or in HG. destruct HG; auto. }
  destruct (K2 h 0 G0 HF (fun s H => H) P0) as [K3 K4]. intros G HG. change (P G). unfold states in HG. cbn [In] in HG.
  destruct HG as [<-|HG]; auto. apply in_app_or in HG. destruct HG as [HG|[<-|[]]]; auto.
Qed.

(** a stack at whose end the adaptation does not run *)
Lemma stack_frozen : forall G0 h Gf, history S D G0 h Gf -> forall s, In s h ->
  N_stopTuneLadder C <= sr_end s \/ Tune_Ladder C <= 0 -> forall b, ladder_is (sr_in s) b ->
  forall G, In G (sstates s) -> ladder_is G b.
Proof.
  intros G0 h Gf HH s Hs Hend b Hb. pose proof (vc_n _ _ VC) as Hn.
  destruct (stack_betas _ _ _ HH s Hs b Hb) as [Hp [HB Hm]].
  destruct (history_count S HL _ _ _ _ HH) as [_ [F _]]. rewrite Forall_forall in F.
  destruct (F s Hs) as [H1 [H2 [H3 [_ [Wi [Wp [Wm [Wl [_ [_ [_ [_ [_ [_ [HLad [HT [HI _]]]]]]]]]]]]]]]]].
  assert (Ea : adapts C (sr_mid s) = false).
  { unfold adapts. change (nth 0 (g_locs (sr_mid s)) dloc) with (loc_at (sr_mid s) 0).
    destruct (HI 0%nat ltac:(lia)) as [_ [_ [-> _]]]. pose proof (vc_sum _ _ VC). pose proof (vc_stack _ _ VC).
    rewrite u2i_small by (unfold sr_end in *; lia).
    destruct Hend; apply andb_false_iff; [left|right]; apply Z.ltb_ge; lia. }
  rewrite Ea in HLad. injection HLad; intros El. 
  assert (Hl : ladder_is (sr_lad s) b) by (rewrite <- El; exact Hm).
  assert (Hpo : ladder_is (sr_post s) b).
  { destruct (tunes C (sr_end s)).
    - destruct (tune_all_view C U n D VC VU _ _ _ Wl HT) as [[_ [_ V]] _]. intros r Hr. destruct (V r Hr) as [_ [_ ->]]. auto.
    - injection HT; intros <-. exact Hl. }
  intros G HG. unfold sstates in HG. cbn [In] in HG. destruct HG as [<-|[<-|HG]]; auto.
  apply in_app_or in HG. destruct HG as [HG|[<-|[<-|[<-|[]]]]]; auto.
Qed.

Lemma sfollow_app : forall h1 i (G : gst (A := A)) s h2 Gf, sfollow i G (h1 ++ s :: h2) Gf -> sfollow (sr_from s) (sr_in s) (s :: h2) Gf.
Proof.
  induction h1 as [|a h1 IH]; intros i G s h2 Gf H; cbn [app sfollow] in H.
  - destruct H as [E1 [E2 H]]. cbn [sfollow]. rewrite E1 in *. auto.
  - destruct H as [_ [_ H]]. eapply IH; eauto.
Qed.

(** from the first stack that ends at or after N_stopTuneLadder on, the betas stay *)
Lemma frozen_after : forall G0 h Gf, history S D G0 h Gf -> forall h1 s h2, h = h1 ++ s :: h2 ->
  N_stopTuneLadder C <= sr_end s -> forall b, ladder_is (sr_in s) b ->
  forall G, In G (states (sr_in s) (s :: h2) Gf) -> ladder_is G b.
Proof.
  intros G0 h Gf HH h1 s h2 Eh Hend b Hb. pose proof (history_count S HL _ _ _ _ HH) as HC.
  assert (HF : sfollow (sr_from s) (sr_in s) (s :: h2) Gf).
  { destruct HC as [_ [_ [HF _]]]. rewrite Eh in HF. apply sfollow_app in HF. exact HF. }
  assert (Hin : forall x, In x (s :: h2) -> In x h) by (intros x Hx; rewrite Eh; apply in_or_app; auto).
  assert (K : forall l s, sfollow (sr_from s) (sr_in s) (s :: l) Gf -> (forall x, In x (s :: l) -> In x h) ->
     N_stopTuneLadder C <= sr_end s -> ladder_is (sr_in s) b ->
     (forall G, In G (concat (map sstates (s :: l))) -> ladder_is G b) /\ ladder_is Gf b).
  { clear - HH HC RK VC VU. induction l as [|t l IH]; intros s HF Hin Hend Hb;
      pose proof (stack_frozen _ _ _ HH s (Hin s (or_introl eq_refl)) (or_introl Hend) b Hb) as K.
    - cbn [sfollow] in HF. destruct HF as [_ [_ <-]]. split; [cbn [map concat]; intros G HG; rewrite app_nil_r in HG; auto|].
      apply K. unfold sstates. right. right. apply in_or_app. right. cbn. auto.
    - destruct HF as [_ [_ [E1 [E2 HF]]]]. destruct (IH t) as [K1 K2].
      + cbn [sfollow]. split; auto. split; auto. rewrite E1. exact HF.
      + intros x Hx. apply Hin. right. exact Hx.
      + destruct HC as [_ [F _]]. rewrite Forall_forall in F.
        destruct (F t (Hin t (or_intror (or_introl eq_refl)))) as [Hl _]. unfold sr_end in *. lia.
      + rewrite E2. apply K. unfold sstates. right. right. apply in_or_app. right. cbn. auto.
      + split; auto. intros G HG. cbn [map concat] in HG. apply in_app_or in HG. destruct HG as [HG|HG]; auto. }
  destruct (K h2 s HF Hin Hend Hb) as [K1 K2]. intros G HG. unfold states in HG. cbn [In] in HG.
  destruct HG as [<-|HG]; auto. apply in_app_or in HG. destruct HG as [HG|[<-|[]]]; auto.
Qed.

(** ** the records in the beta file and in the sigma files *)
Lemma beta_file : forall G0 h Gf, history S D G0 h Gf -> forall k tr X, execution S k tr X ->
  exists rest, map (fun s => EvBeta (l_beta (loc_at (sr_in s) 0))) h = file FBeta tr ++ rest /\ (complete S X -> rest = []).
Proof.
  intros G0 h Gf HH k tr X HE. pose proof (vc_n _ _ VC) as Hn.
  assert (Em : map (fun s => EvBeta (l_beta (loc_at (sr_in s) 0))) h = map (fun s => EvBeta (l_beta (loc_at (sr_pre s) 0))) h).
  { apply map_ext_in. intros s Hs. f_equal. destruct (history_count S HL _ _ _ _ HH) as [_ [F _]]. rewrite Forall_forall in F.
    destruct (F s Hs) as [_ [_ [_ [_ [Wi [_ [_ [_ [_ [E _]]]]]]]]]]. rewrite E.
    destruct (dist_view C n VC _ (sigt (g_ro (sr_in s))) Wi) as [_ V]; [apply (wf_sigt _ _ _ Wi)|].
    destruct (V 0%nat ltac:(lia)) as [_ [_ [_ [_ ->]]]]. auto. }
  rewrite Em.
  destruct (history_reference S HL _ _ _ _ HH) as [lg0 [HI HR]].
  destruct (legal_prefix S HL k tr X HE _ _ HR FBeta) as [rest Hp]; [discriminate|].
  destruct (init_view S HL _ _ _ HI) as [W [V1 V2]].
  pose proof HH as [_ [_ Hs]]. destruct (sruns_files S HL _ _ _ _ _ _ Hs W) as [F1 F2].
  assert (E : map (fun s => EvBeta (l_beta (loc_at (sr_pre s) 0))) h = file FBeta tr ++ rest).
  { rewrite <- Hp. change ((root, @EvDir A) :: ?x) with ([(root, @EvDir A)] ++ x). rewrite !file_app, V2, F2. reflexivity. }
  exists rest. split; auto. intro HC. destruct (history_files S HL _ _ _ _ HH k tr X HE HC) as [_ HF].
  rewrite HF in E. apply (f_equal (@length _)) in E. rewrite app_length in E. destruct rest; auto. cbn in E. lia.
Qed.

Lemma sigma_file : forall G0 h Gf, history S D G0 h Gf -> forall k tr X, execution S k tr X -> forall r, (r < n)%nat ->
  exists rest, EvSigma r (u_gp U) :: map (fun s => EvSigma r (l_sig (loc_at (sr_pre s) r))) h = file (FSigma r) tr ++ rest /\
    (complete S X -> rest = []).
Proof.
  intros G0 h Gf HH k tr X HE r Hr.
  destruct (history_reference S HL _ _ _ _ HH) as [lg0 [HI HR]].
  destruct (legal_prefix S HL k tr X HE _ _ HR (FSigma r)) as [rest Hp]; [discriminate|].
  destruct (init_view S HL _ _ _ HI) as [W [V1 V2]].
  pose proof HH as [_ [_ Hs]]. destruct (sruns_files S HL _ _ _ _ _ _ Hs W) as [F1 F2].
  assert (E : EvSigma r (u_gp U) :: map (fun s => EvSigma r (l_sig (loc_at (sr_pre s) r))) h = file (FSigma r) tr ++ rest).
  { rewrite <- Hp. change ((root, @EvDir A) :: ?x) with ([(root, @EvDir A)] ++ x). rewrite !file_app.
    destruct (V1 r Hr) as [_ [_ [_ [_ [Va Vb]]]]]. destruct (F1 r Hr) as [Fa Fb]. rewrite Vb, Fb. reflexivity. }
  exists rest. split; auto. intro HC. destruct (history_files S HL _ _ _ _ HH k tr X HE HC) as [HF _]. destruct (HF r Hr) as [_ HF2].
  rewrite HF2 in E. apply (f_equal (@length _)) in E. rewrite app_length in E. destruct rest; auto. cbn [length] in E. lia.
Qed.
End Run.
