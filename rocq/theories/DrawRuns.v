(** How many random numbers a rank draws in a run, and the states its generator goes through (C64, C65). *)
From Coq Require Import ZArith Arith List Bool Lia.
From Verif Require Import Base Arith Rand Mh Ladder Tune Mpi MpiMeta Spmd Prog Seq ListAux MhSpec SeqWf Refine
  SeqTotal System Runs SeqFiles History Views RunHist LadderRuns TuneOpt TuneSteps B64Facts Seeds SeedRuns Streams UserModels.
Import ListNotations.
Open Scope Z_scope.

(** g' is g after at most b draws *)
Definition adv (b g g' : Z) : Prop := exists k, Z.of_nat k <= b /\ g' = Nat.iter k lcg g.
Lemma adv_refl : forall b g, 0 <= b -> adv b g g.
Proof. intros b g H. exists 0%nat. split; [exact H|reflexivity]. Qed.
Lemma adv_trans : forall b c g1 g2 g3, adv b g1 g2 -> adv c g2 g3 -> adv (b + c) g1 g3.
Proof. intros b c g1 g2 g3 [k [Hk ->]] [j [Hj ->]]. exists (j + k)%nat. split; [lia|]. rewrite iter_plus. reflexivity. Qed.
Lemma adv_mono : forall b c g g', adv b g g' -> b <= c -> adv c g g'.
Proof. intros b c g g' [k [Hk E]] H. exists k. split; [lia|exact E]. Qed.
Lemma adv_1 : forall g, adv 1 g (lcg g).
Proof. intros g. exists 1%nat. split; [lia|reflexivity]. Qed.

Section Steps.
Context {A : Arith}.
Notation row := (list (num A)).

Lemma drand_g : forall g, snd (drand48 (A := A) g) = lcg g.
Proof. reflexivity. Qed.
Lemma normal_g : forall g, snd (r8_normal_01 (A := A) g) = lcg (lcg g).
Proof. reflexivity. Qed.
Lemma prop_adv : forall (x sigma : row) g, adv (2 * Z.of_nat (length x)) g (snd (prop_list x sigma g)).
Proof.
  induction x as [|a x IH]; intros [|s sigma] g; try (apply adv_refl; cbn [length]; lia).
  cbn [prop_list]. pose proof (normal_g g) as N. destruct (r8_normal_01 (A := A) g) as [r g1]. cbn [snd] in N. subst g1.
  specialize (IH sigma (lcg (lcg g))). destruct (prop_list x sigma (lcg (lcg g))) as [t g2]. cbn [snd] in *.
  replace (2 * Z.of_nat (length (a :: x))) with (1 + (1 + 2 * Z.of_nat (length x))) by (cbn [length]; lia).
  eapply adv_trans; [apply adv_1|]. eapply adv_trans; [apply adv_1|exact IH].
Qed.

Variable U : User A.
Variable D : Data A.
Variable np : Z.
Lemma mhstep_adv : forall sigma b s, haslen np (ms_x s) -> adv (2 * np + 1) (ms_g s) (ms_g (mhstep U D sigma b s)).
Proof.
  intros sigma b s Hx. unfold haslen in Hx. pose proof (prop_adv (ms_x s) sigma (ms_g s)) as P. rewrite Hx in P.
  unfold mhstep. destruct (nltb _ _); cbn [ms_g]; [eapply adv_mono; [exact P|lia]|].
  assert (Q : adv (2 * np + 1) (ms_g s) (snd (drand48 (A := A) (snd (prop_list (ms_x s) sigma (ms_g s)))))).
  { eapply adv_trans; [exact P|]. rewrite drand_g. apply adv_1. }
  destruct (nltb _ _); exact Q.
Qed.
Hypothesis HB : BoundLen U np.
Lemma mhn_adv : forall sigma b k s, haslen np sigma -> haslen np (ms_x s) -> adv ((2 * np + 1) * Z.of_nat k) (ms_g s) (ms_g (mhn U D sigma b k s)).
Proof.
  intros sigma b k s Hs Hx. induction k as [|k IH]; [apply adv_refl; lia|].
  change (mhn U D sigma b (Datatypes.S k) s) with (mhstep U D sigma b (mhn U D sigma b k s)).
  replace ((2 * np + 1) * Z.of_nat (Datatypes.S k)) with ((2 * np + 1) * Z.of_nat k + (2 * np + 1)) by lia.
  eapply adv_trans; [exact IH|]. apply mhstep_adv. apply mhn_len; auto.
Qed.
End Steps.

Section Run.
Context {A : Arith}.
Variable S : Setup A.
Hypothesis HL : Legal S.
Notation C := (s_cfg S).
Notation U := (s_user S).
Notation n := (s_n S).
Notation E := (s_env S).
Notation np := (N_parm C).
Variable D : Data A.
Let RK := proj1 HL.
Let VC := proj1 (proj2 HL).
Let VU := proj1 (proj2 (proj2 HL)).
Let Hn := vc_n C n VC.
Let UO := vu_ok C U VU.

Notation gof G r := (l_g (loc_at G r)).
(** every rank moved on by at most b draws *)
Definition moved (b : Z) (G G' : gst (A := A)) : Prop := forall r, (r < n)%nat -> adv b (gof G r) (gof G' r).
Lemma moved_refl : forall b G, 0 <= b -> moved b G G.
Proof. intros b G H r Hr. apply adv_refl; auto. Qed.
Lemma moved_trans : forall b c G1 G2 G3, moved b G1 G2 -> moved c G2 G3 -> moved (b + c) G1 G3.
Proof. intros b c G1 G2 G3 H1 H2 r Hr. eapply adv_trans; [apply H1; auto|apply H2; auto]. Qed.
Lemma moved_mono : forall b c G G', moved b G G' -> b <= c -> moved c G G'.
Proof. intros b c G G' H L r Hr. eapply adv_mono; [apply H; auto|exact L]. Qed.
Lemma moved_same : forall b G G', 0 <= b -> (forall r, (r < n)%nat -> gof G' r = gof G r) -> moved b G G'.
Proof. intros b G G' Hb H r Hr. rewrite H by auto. apply adv_refl; auto. Qed.

Lemma g0_moved : forall b G g G', wf C n G -> with_g0 G g = OK G' -> 0 <= b -> adv b (gof G 0) g -> moved b G G'.
Proof.
  intros b G g G' W H Hb HA r Hr. destruct (with_g0_view C n VC _ _ _ W H) as [_ V]. destruct (V r Hr) as [_ [_ [_ [_ ->]]]].
  destruct (Nat.eqb_spec r 0) as [->|]; [exact HA|apply adv_refl; auto].
Qed.
Lemma root_loc : forall G l, wf C n G -> getloc G root = OK l -> l = loc_at G 0.
Proof. intros G l W H. rewrite (getloc_ok C n) in H by (auto; unfold root; lia). injection H as <-. reflexivity. Qed.

(** draws of an iteration, of a batch besides its iterations, of the tuning of one rank *)
Definition per_iter : Z := 2 * np + 1.
Definition per_batch : Z := 1 + 3 * Z.max 0 (N_swap C).
Definition per_tune : Z := np * (per_iter * n_iter_in_tune C) + 1.
Lemma per_pos : 3 <= per_iter /\ 1 <= per_batch /\ 1 <= per_tune.
Proof.
  pose proof (vc_np C n VC). pose proof (vc_tune C n VC). unfold per_iter, per_batch, per_tune, per_iter. repeat split; try nia.
Qed.

Lemma next_g : forall len i g nx nb g', next_batch C len i g = OK (nx, nb, g') -> g' = lcg g /\ nx = i + nb /\ nx <= len.
Proof.
  intros len i g nx nb g' H. unfold next_batch in H.
  destruct (i32 (- n_iter_a_batch_rand C)) as [lo|]; cbn [rbind] in H; [|discriminate].
  destruct (i4_unif_ab (A := A) lo (n_iter_a_batch_rand C) g) as [[a g1]|] eqn:EA; cbn [rbind] in H; [|discriminate].
  destruct (i32 (n_iter_a_batch_base C + a)) as [nb0|]; cbn [rbind] in H; [|discriminate].
  destruct (i32 (i + nb0)) as [nx0|] eqn:EX; cbn [rbind] in H; [|discriminate].
  assert (nx0 = i + nb0) by (unfold i32 in EX; destruct (_ && _); [injection EX; auto|discriminate]).
  assert (g1 = lcg g) by (unfold i4_unif_ab, drand48 in EA; rinv; auto).
  injection H as <- <- <-. destruct (Z.ltb_spec len nx0); repeat split; auto; lia.
Qed.
Lemma batch_moved : forall G nb G' lg, wf C n G -> seq_batch C U n D G nb = OK (G', lg) -> 1 <= nb /\ moved (per_iter * nb) G G'.
Proof.
  intros G nb G' lg W H. destruct (seq_batch_view C U n D VC VU _ _ _ _ W H) as [Hnb [_ V]]. split; [exact Hnb|].
  intros r Hr. specialize (V r Hr). cbn zeta in V. destruct V as [V _].
  assert (Eg : forall X : gst (A := A), gof X r = ms_g (ms_at X r)) by reflexivity. rewrite !Eg, V.
  replace (per_iter * nb) with (per_iter * Z.of_nat (Z.to_nat nb)) by lia. apply mhn_adv.
  - apply UO.
  - apply (wf_sig _ _ _ W). apply (loc_in C n); auto.
  - unfold ms_at. cbn [ms_x]. apply (wf_trrow _ _ _ W). apply nth_In. rewrite (wf_tr _ _ _ W). auto.
Qed.
Lemma choose_g : forall i g j g', choose_j (A := A) C n i g = OK (j, g') -> adv 1 g g'.
Proof.
  intros i g j g' H. unfold choose_j, i4_unif_0a, drand48 in H.
  destruct (Swapmode C =? 1); rinv; try (apply adv_1); apply adv_refl; lia.
Qed.
Lemma swap_moved : forall G i G' d, wf C n G -> seq_swap C U n D G i = OK (G', d) -> moved 2 G G'.
Proof.
  intros G i G' d W H. unfold seq_swap in H.
  rewrite !(getloc_ok C n) in H by (auto; unfold root, slave_rank; lia). cbn [rbind] in H. rinv.
  match goal with H : choose_j _ _ _ _ = _ |- _ => apply choose_g in H; rename H into CG end.
  change (nth root (g_locs G) dloc) with (loc_at G 0) in CG.
  match type of H with context [if nltb (nof 0) ?s then (true, ?g) else _] => destruct (if nltb (nof 0) s then (true, g) else _) as [dd g2] eqn:ED;
    assert (A2 : adv 2 (gof G 0) g2) end.
  { destruct (nltb _ _) in ED.
    - injection ED as _ <-. eapply adv_mono; [exact CG|lia].
    - unfold drand48 in ED. injection ED as _ <-. change 2 with (1 + 1). eapply adv_trans; [exact CG|apply adv_1]. }
  rinv. match goal with H : with_g0 _ _ = OK ?v |- _ => pose proof (g0_moved 2 _ _ _ W H ltac:(lia) A2) as M end.
  destruct dd; rinv; exact M.
Qed.
Lemma round_moved : forall k G isw nsw npr G' i' nsw' npr', wf C n G ->
  seq_round C U n D k (G, isw, nsw, npr) = OK (G', i', nsw', npr') -> moved 3 G G'.
Proof.
  intros k G isw nsw npr G' i' nsw' npr' W H. unfold seq_round in H. rinv.
  match goal with H : getloc _ root = _ |- _ => apply (root_loc _ _ W) in H; subst end.
  match goal with H : i4_unif_0a _ _ = _ |- _ => apply (draw_range RK _ _ _ _ (nminus_range C n VC)) in H; destruct H as [Hi ->] end.
  match goal with H : with_g0 _ _ = _ |- _ => pose proof (g0_moved 1 _ _ _ W H ltac:(lia) (adv_1 _)) as M1; pose proof (with_g0_wf C n Hn _ _ _ W H) as W1 end.
  match goal with H : seq_swap _ _ _ _ _ _ = _ |- _ => pose proof (swap_moved _ _ _ _ W1 H) as M2 end.
  change 3 with (1 + 2). eapply moved_trans; [exact M1|]. destruct (0 <? Tune_Ladder C); rinv; exact M2.
Qed.
Lemma rounds_moved : forall l G isw nsw npr G' i' nsw' npr', wf C n G ->
  foldM l (seq_round C U n D) (G, isw, nsw, npr) = OK (G', i', nsw', npr') -> wf C n G' /\ moved (3 * Z.of_nat (length l)) G G'.
Proof.
  induction l as [|k l IH]; intros G isw nsw npr G' i' nsw' npr' W H; cbn [foldM] in H; rinv.
  - split; [auto|apply moved_refl; cbn; lia].
  - match goal with H : seq_round _ _ _ _ _ _ = _ |- _ => pose proof (seq_round_wf C U n Hn D _ _ _ _ _ _ _ _ _ W H) as W1;
      pose proof (round_moved _ _ _ _ _ _ _ _ _ W H) as M1 end.
    match goal with H : foldM _ _ _ = _ |- _ => destruct (IH _ _ _ _ _ _ _ _ W1 H) as [W2 M2] end.
    split; [exact W2|]. replace (3 * Z.of_nat (length (k :: l))) with (3 + 3 * Z.of_nat (length l)) by (cbn [length]; lia).
    eapply moved_trans; eauto.
Qed.

(** within a stack *)
Lemma bruns_moved : forall len i G isw nsw npr bl G' nsw' npr', bruns C U n D len i G isw nsw npr bl G' nsw' npr' -> wf C n G -> i <= len ->
  wf C n G' /\ moved ((per_iter + per_batch) * (len - i)) G G' /\
  forall b, In b bl -> forall X, In X (bstates b) -> moved ((per_iter + per_batch) * (len - i)) G X.
Proof.
  destruct per_pos as [P1 [P2 _]].
  induction 1 as [i G isw nsw npr Hle|i G isw nsw npr l0 nx nb g G1 G2 lg G3 isw' nsw' npr' bl G4 nsw2 npr2 Hlt HG HN Hw HB HF HR IH]; intros W Hi.
  - split; [auto|]. split; [apply moved_refl; nia|]. intros b [].
  - apply (root_loc _ _ W) in HG. subst l0. destruct (next_g _ _ _ _ _ _ HN) as [-> [-> Hnx]].
    pose proof (g0_moved 1 _ _ _ W Hw ltac:(lia) (adv_1 _)) as M1. pose proof (with_g0_wf C n Hn _ _ _ W Hw) as W1.
    destruct (batch_moved _ _ _ _ W1 HB) as [Hnb M2]. pose proof (seq_batch_wf C U n UO Hn D _ _ _ _ W1 HB) as W2.
    destruct (rounds_moved _ _ _ _ _ _ _ _ _ W2 HF) as [W3 M3]. rewrite zseq_length in M3.
    assert (L3 : 3 * Z.of_nat (Z.to_nat (N_swap C)) = per_batch - 1) by (unfold per_batch; lia). rewrite L3 in M3.
    destruct (IH W3 ltac:(lia)) as [W4 [M4 MB]].
    pose proof (moved_trans _ _ _ _ _ M1 M2) as M12. pose proof (moved_trans _ _ _ _ _ M12 M3) as M13.
    assert (LT : 1 + per_iter * nb + (per_batch - 1) + (per_iter + per_batch) * (len - (i + nb)) <= (per_iter + per_batch) * (len - i)) by nia.
    assert (LP : 0 <= (per_iter + per_batch) * (len - (i + nb))) by nia.
    split; [exact W4|]. split; [eapply moved_mono; [eapply moved_trans; [exact M13|exact M4]|exact LT]|].
    intros b [<-|Hb] X HX.
    + cbn [bstates br_pre br_mid br_post In] in HX. destruct HX as [<-|[<-|[<-|[]]]].
      * eapply moved_mono; [exact M1|nia].
      * eapply moved_mono; [exact M12|nia].
      * eapply moved_mono; [exact M13|nia].
    + eapply moved_mono; [eapply moved_trans; [exact M13|exact (MB b Hb X HX)]|exact LT].
Qed.

(** tuning *)
Lemma tune_parm_moved : forall rk al x lp jp G ars G' ars', wf C n G -> haslen np x -> 0 <= rk < zn n ->
  seq_tune_parm C U n D rk al x lp jp (G, ars) = OK (G', ars') -> moved (per_iter * n_iter_in_tune C) G G'.
Proof.
  intros rk al x lp jp G ars G' ars' W Hx Hrk H r Hr. unfold seq_tune_parm in H. rinv.
  match goal with H : tune_matrix _ _ _ _ _ = _ |- _ => destruct (tune_matrix_shape C n Hn _ _ _ _ _ _ (wf_sigrow _ _ _ W) H) as [M1 M2] end.
  destruct (dist_view C n VC G v W M1) as [R1 R2]. pose proof (seq_distribute_wf C n Hn G v W M1 M2) as W1.
  match goal with H : tab _ _ = _ |- _ => apply (tab_ok n _ _ (nof 0, 0)) in H; destruct H as [L0 T0] end.
  specialize (T0 r Hr). unfold tune_of in T0. rewrite (getloc_ok C n) in T0 by auto. cbn [rbind] in T0.
  rewrite (zget_z _ rk (nof 0)) in T0 by (rewrite (wf_beta _ _ _ W1) by (apply (loc_in C n); auto); auto). cbn [rbind] in T0.
  pose proof (vc_tune C n VC) as HT.
  rewrite (iter_batch_mh_tune_spec U D np) in T0; auto; [|apply UO|apply (wf_sig _ _ _ W1); apply (loc_in C n); auto].
  assert (T1 : forall a b : num A * Z, OK a = OK b -> snd a = snd b) by (intros a b K; injection K; intros ->; reflexivity).
  apply T1 in T0. cbn [snd] in T0.
  assert (K : loc_at (mkG (map2 loc_g (g_locs (seq_distribute G v)) (map snd v0)) (g_ro (seq_distribute G v))) r
              = loc_g (loc_at (seq_distribute G v) r) (nth r (map snd v0) 0)).
  { unfold loc_at. cbn [g_locs]. rewrite (map2_nth _ _ _ r dloc 0) by (rewrite ?map_length, ?(wf_locs _ _ _ W1); lia). auto. }
  match goal with |- adv _ _ ?y => replace y with (l_g (loc_g (loc_at (seq_distribute G v) r) (nth r (map snd v0) 0))) by (rewrite <- K; reflexivity) end.
  cbn [loc_g l_g]. rewrite (map_nth2 snd v0 r (nof 0, 0)) by lia. rewrite <- T0.
  replace (per_iter * n_iter_in_tune C) with (per_iter * Z.of_nat (Z.to_nat (n_iter_in_tune C))) by lia.
  destruct (R2 r Hr) as [_ [S2 _]]. rewrite <- S2.
  eapply (mhn_adv U D np (uo_bound _ _ UO) _ _ _ (mkMs x lp _ 0)).
  - apply (wf_sig _ _ _ W1). apply (loc_in C n); auto.
  - exact Hx.
Qed.
Lemma tune_parms_moved : forall rk al x lp l G ars G' ars', wf C n G -> haslen np x -> 0 <= rk < zn n ->
  foldM l (seq_tune_parm C U n D rk al x lp) (G, ars) = OK (G', ars') -> wf C n G' /\ moved (Z.of_nat (length l) * (per_iter * n_iter_in_tune C)) G G'.
Proof.
  induction l as [|jp l IH]; intros G ars G' ars' W Hx Hrk H; cbn [foldM] in H; rinv.
  - split; [auto|apply moved_refl; cbn; lia].
  - match goal with H : seq_tune_parm _ _ _ _ _ _ _ _ _ _ = _ |- _ => destruct (seq_tune_parm_wf C U n Hn D _ _ _ _ _ _ _ _ _ W H) as [W1 _];
      pose proof (tune_parm_moved _ _ _ _ _ _ _ _ _ W Hx Hrk H) as M1 end.
    match goal with H : foldM _ _ _ = _ |- _ => destruct (IH _ _ _ _ W1 Hx Hrk H) as [W2 M2] end.
    split; [exact W2|]. replace (Z.of_nat (length (jp :: l)) * (per_iter * n_iter_in_tune C))
      with (per_iter * n_iter_in_tune C + Z.of_nat (length l) * (per_iter * n_iter_in_tune C)) by (cbn [length]; lia).
    eapply moved_trans; eauto.
Qed.
Lemma decide_g : forall ars g ip ir g', decide_sigma_to_change C (zn n) ars g = OK (ip, ir, g') -> adv 1 g g'.
Proof.
  intros ars g ip ir g' H. unfold decide_sigma_to_change, drand48 in H. rinv.
  all: repeat match goal with H : (if ?b then _ else _) = OK _ |- _ => destruct b; rinv end; try (apply adv_1); apply adv_refl; lia.
Qed.
Lemma tune_irank_moved : forall G rk G', wf C n G -> 0 <= rk < zn n -> seq_tune_irank C U n D G rk = OK G' -> moved per_tune G G'.
Proof.
  intros G rk G' W Hrk H. unfold seq_tune_irank in H. rinv.
  match goal with H : zget (transit _) rk = OK ?x |- _ => assert (Hx : haslen np x) by
    (apply (wf_trrow _ _ _ W); apply zget_ok_inv in H; destruct H as [_ H]; apply nth_error_In in H; exact H) end.
  match goal with H : foldM _ _ _ = _ |- _ => destruct (tune_parms_moved _ _ _ _ _ _ _ _ _ W Hx Hrk H) as [W1 M1] end.
  match goal with H : getloc _ root = _ |- _ => apply (root_loc _ _ W1) in H; subst end.
  match goal with H : decide_sigma_to_change _ _ _ _ = _ |- _ => apply decide_g in H; rename H into DG end.
  match goal with H : with_g0 _ _ = _ |- _ => pose proof (g0_moved 1 _ _ _ W1 H ltac:(lia) DG) as M2 end.
  rewrite zseq_length in M1. pose proof (vc_np C n VC) as HNP. unfold per_tune.
  replace (np * (per_iter * n_iter_in_tune C)) with (Z.of_nat (Z.to_nat np) * (per_iter * n_iter_in_tune C)) by (rewrite Z2Nat.id by lia; reflexivity).
  exact (moved_trans _ _ _ _ _ M1 M2).
Qed.
Lemma tune_all_moved : forall flags G G', wf C n G -> seq_tune_all C U n D flags G = OK G' -> wf C n G' /\ moved (zn n * per_tune) G G'.
Proof.
  intros flags G G'. unfold seq_tune_all. destruct per_pos as [_ [_ P3]].
  assert (Hin : forall r, In r (zseq (zn n)) -> 0 <= r < zn n) by (intro r; apply (in_zseq C n VC)).
  assert (Hl : Z.of_nat (length (zseq (zn n))) = zn n) by (rewrite zseq_length; unfold zn; lia). rewrite <- Hl at 2. clear Hl.
  revert G. induction (zseq (zn n)) as [|k l IH]; intros G W H; cbn [foldM] in H; rinv.
  - split; [auto|apply moved_refl; cbn; lia].
  - assert (Hk : 0 <= k < zn n) by (apply Hin; left; auto).
    match goal with H : (if _ then _ else _) = OK ?v |- _ => assert (K : wf C n v /\ moved per_tune G v) end.
    { match goal with H : (if ?b then _ else _) = OK ?v |- _ => destruct b; rinv end.
      - split; [eapply seq_tune_irank_wf; eauto|eapply tune_irank_moved; eauto].
      - split; [auto|apply moved_refl; lia]. }
    destruct K as [W1 M1]. match goal with H : foldM _ _ _ = _ |- _ => destruct (IH ltac:(intros; apply Hin; right; auto) _ W1 H) as [W2 M2] end.
    split; [exact W2|]. replace (Z.of_nat (length (k :: l)) * per_tune) with (per_tune + Z.of_nat (length l) * per_tune) by (cbn [length]; lia).
    eapply moved_trans; eauto.
Qed.

(** the run *)
Definition left_stacks (i len : Z) : Z := (N_iter C - i + len - 1) / len.
Definition run_bound (i len : Z) : Z := (per_iter + per_batch) * (N_iter C - i) + zn n * per_tune * left_stacks i len.
Lemma sruns_moved : forall i len G h G', sruns C U n D i len G h G' -> wf C n G -> i <= N_iter C -> 1 <= len ->
  moved (run_bound i len) G G' /\ forall s, In s h -> forall X, In X (sstates s) -> moved (run_bound i len) G X.
Proof.
  destruct per_pos as [P1 [P2 P3]]. assert (Hzn : 2 <= zn n) by (unfold zn; lia).
  assert (HQ : 0 <= zn n * per_tune) by nia.
  induction 1 as [i len G Hle|i len nx0 len' nx G bl G1 nsw npr G2 G3 hl G4 Hlt Hnx0 Hlen Hnx HB HA HT HS IH]; intros W Hi Hl.
  - split; [apply moved_refl|intros s []]. unfold run_bound, left_stacks.
    assert (0 <= (N_iter C - i + len - 1) / len) by (apply Z.div_pos; lia). nia.
  - assert (Enx0 : nx0 = i + len). { unfold i32 in Hnx0. destruct (_ && _); [injection Hnx0; auto|discriminate]. }
    assert (Enx : nx = i + len'). { subst. destruct (Z.ltb_spec (N_iter C) (i + len)); lia. }
    assert (Hl' : 1 <= len'). { subst. destruct (Z.ltb_spec (N_iter C) (i + len)); lia. }
    assert (Hnx' : nx <= N_iter C). { subst. destruct (Z.ltb_spec (N_iter C) (i + len)); lia. }
    assert (ST : left_stacks nx len' + 1 <= left_stacks i len).
    { unfold left_stacks. destruct (Z.ltb_spec (N_iter C) nx0) as [K|K].
      - replace (N_iter C - nx + len' - 1) with (len' - 1) by lia. rewrite Z.div_small by lia.
        apply Z.div_le_lower_bound; lia.
      - assert (len' = len) by (subst; auto). subst len'. rewrite Enx.
        replace (N_iter C - i + len - 1) with ((N_iter C - (i + len) + len - 1) + 1 * len) by lia. rewrite Z.div_add by lia. lia. }
    assert (LS : 0 <= left_stacks nx len') by (apply Z.div_pos; lia).
    assert (BD : run_bound nx len' + ((per_iter + per_batch) * len' + zn n * per_tune) <= run_bound i len) by (unfold run_bound; nia).
    assert (B0 : 0 <= run_bound nx len') by (unfold run_bound; nia).
    set (Gd := seq_distribute G (sigt (g_ro G))) in *.
    assert (Wd : wf C n Gd). { apply seq_distribute_wf; auto; [apply (wf_sigt _ _ _ W)|apply (wf_sigrow _ _ _ W)]. }
    assert (M0 : moved 0 G Gd).
    { apply moved_same; [lia|]. intros r Hr. destruct (dist_view C n VC G (sigt (g_ro G)) W (wf_sigt _ _ _ W)) as [_ V]. destruct (V r Hr) as [_ [V2 _]]. exact V2. }
    destruct (bruns_moved _ _ _ _ _ _ _ _ _ _ HB Wd ltac:(lia)) as [W1 [M1 MB]]. rewrite Z.sub_0_r in M1, MB.
    assert (K2 : wf C n G2 /\ moved 0 G1 G2).
    { destruct (adapts C G1).
      - split; [eapply seq_ladder_wf; eauto|]. apply moved_same; [lia|]. intros r Hr.
        destruct (ladder_view C n VC _ _ _ _ W1 HA) as [_ [b [_ [_ V]]]]. destruct (V r Hr) as [_ [-> _]]. reflexivity.
      - injection HA as <-. split; [auto|apply moved_refl; lia]. }
    destruct K2 as [W2 M2].
    assert (K3 : wf C n G3 /\ moved (zn n * per_tune) G2 G3).
    { destruct (tunes C nx); [eapply tune_all_moved; eauto|]. injection HT as <-. split; [auto|apply moved_refl; lia]. }
    destruct K3 as [W3 M3].
    pose proof (moved_trans _ _ _ _ _ M0 M1) as M01. pose proof (moved_trans _ _ _ _ _ M01 M2) as M02. pose proof (moved_trans _ _ _ _ _ M02 M3) as M03.
    destruct (IH W3 ltac:(lia) Hl') as [M4 MS].
    split; [eapply moved_mono; [eapply moved_trans; [exact M03|exact M4]|lia]|].
    intros s [<-|Hs] X HX; [|eapply moved_mono; [eapply moved_trans; [exact M03|exact (MS s Hs X HX)]|lia]].
    unfold sstates in HX. cbn [sr_in sr_pre sr_batches sr_mid sr_lad sr_post In] in HX.
    destruct HX as [<-|[<-|HX]]; [apply moved_refl; nia|eapply moved_mono; [exact M0|nia]|].
    apply in_app_or in HX. destruct HX as [HX|HX].
    + apply in_concat in HX. destruct HX as [l [Hl2 HX]]. apply in_map_iff in Hl2. destruct Hl2 as [b [<- Hb]].
      eapply moved_mono; [eapply moved_trans; [exact M0|exact (MB b Hb X HX)]|nia].
    + cbn [In] in HX. destruct HX as [<-|[<-|[<-|[]]]].
      * eapply moved_mono; [exact M01|nia].
      * eapply moved_mono; [exact M02|nia].
      * eapply moved_mono; [exact M03|nia].
Qed.

(** [b0]: the draws of init_parm_set *)
Variable b0 : Z.
Hypothesis Hinit : forall seed, adv b0 (srand48 seed) (snd (u_init U seed)).
Definition draw_bound : Z := b0 + run_bound 0 (n_iter_a_stack C).

Theorem run_draws : forall G0 h Gf, history S D G0 h Gf -> forall G, In G (LadderRuns.states G0 h Gf) -> forall r, (r < n)%nat ->
  exists k, Z.of_nat k <= draw_bound /\ l_g (loc_at G r) = stream (base_seed S) n r k.
Proof.
  intros G0 h Gf [_ [[lg HI] HS]] G HG r Hr. destruct (init_view S HL _ _ _ HI) as [W [V _]].
  pose proof (vc_iter C n VC) as K1. pose proof (vc_stack C n VC) as K2.
  destruct (sruns_moved _ _ _ _ _ HS W K1 K2) as [M1 M2].
  assert (M : moved (run_bound 0 (n_iter_a_stack C)) G0 G).
  { unfold LadderRuns.states in HG. destruct HG as [<-|HG].
    - apply moved_refl. destruct per_pos as [P1 [P2 P3]]. unfold run_bound.
      assert (0 <= left_stacks 0 (n_iter_a_stack C)) by (apply Z.div_pos; lia). unfold zn. nia.
    - apply in_app_or in HG. destruct HG as [HG|[<-|[]]]; [|exact M1].
      apply in_concat in HG. destruct HG as [l [Hl HX]]. apply in_map_iff in Hl. destruct Hl as [s [<- Hs]]. exact (M2 s Hs G HX). }
  destruct (V r Hr) as [_ [_ [EL _]]].
  assert (HA : adv draw_bound (srand48 (rank_seed (base_seed S) n r)) (gof G r)).
  { unfold draw_bound. eapply adv_trans; [|exact (M r Hr)]. rewrite EL. cbn [l_g].
    rewrite <- seed_of_rank_seed by (apply (vc_seed C n VC)). apply Hinit. }
  destruct HA as [k [Hk Ek]]. exists k. split; [exact Hk|exact Ek].
Qed.
End Run.

(** the draws of init_parm_set of the shipped models *)
Lemma init_adv : forall (A : Arith) ds box seed, adv (2 * Z.of_nat (length ds)) (srand48 seed) (snd (init_parm_set (A := A) ds box seed)).
Proof.
  intros A ds box seed. unfold init_parm_set. generalize (srand48 seed). revert box.
  induction ds as [|d ds IH]; intros [|[lo hi] box] g; try (apply adv_refl; cbn [length]; lia).
  cbn [init_draws].
  assert (K : adv 2 g (snd (match d with DUnif => r8_unif_ab lo hi g | DLogUnif => r8_logunif_ab lo hi g | DNormal m s => r8_normal_ab m s g end))).
  { destruct d; [eapply adv_mono; [apply adv_1|lia]|eapply adv_mono; [apply adv_1|lia]|].
    exists 2%nat. split; [lia|reflexivity]. }
  destruct (match d with DUnif => _ | DLogUnif => _ | DNormal m s => _ end) as [v g1]. cbn [snd] in K.
  specialize (IH box g1). destruct (init_draws ds box g1) as [t g2]. cbn [snd] in *.
  replace (2 * Z.of_nat (length (d :: ds))) with (2 + 2 * Z.of_nat (length ds)) by (cbn [length]; lia). eapply adv_trans; eauto.
Qed.
