(** The cached log-posterior: right as long as the ladder is fixed, stale after a ladder adaptation. *)
From Coq Require Import ZArith Arith List Bool Lia.
From Flocq Require Import IEEE754.BinarySingleNaN.
From Verif Require Import Base Arith B64 Rand Mh Ladder Tune Mpi MpiMeta Spmd Prog Seq ListAux MhSpec SeqWf Refine
  SeqTotal System RandRange Runs SeqFiles History Views RunHist HistCount HistRows SwapLemmas SwapReal ChainInv.
Import ListNotations.
Open Scope Z_scope.

Section Cached.
Context {A : Arith}.
Variable S : Setup A.
Hypothesis HL : Legal S.
Notation C := (s_cfg S).
Notation U := (s_user S).
Notation n := (s_n S).
Let VC := proj1 (proj2 HL).
Variable D : Data A.

Definition cachedP (_ : nat) (x : list (num A)) (lp b : num A) : Prop := lp = logpost_at U D x b.
Definition fixedP (r : nat) (x : list (num A)) (lp b : num A) : Prop :=
  lp = logpost_at U D x b /\ b = nth r (Beta_Values C) (nof 0).

Lemma mhstep_cached : forall sigma b s, ms_lp s = logpost_at U D (ms_x s) b ->
  ms_lp (mhstep U D sigma b s) = logpost_at U D (ms_x (mhstep U D sigma b s)) b.
Proof.
  intros sigma b s H. destruct (mhstep_cases U D sigma b s) as [[_ ->]|[_ ->]]; cbn [ms_x ms_lp]; auto.
Qed.

Lemma cached_step : StepInv S D cachedP.
Proof.
  constructor.
  - intros r sigma b s _ _ _ H. apply mhstep_cached. exact H.
  - intros. split; reflexivity.
Qed.

Lemma fixed_inv : Tune_Ladder C <= 0 -> ChainInv S D fixedP.
Proof.
  intros HT. constructor; [constructor| |].
  - intros r sigma b s _ _ _ [H1 H2]. split; auto. apply mhstep_cached. exact H1.
  - intros i j xi li bi xj lj bj g Hi Hj [_ Bi] [_ Bj] _ _. split; split; auto.
  - intros r Hr. split; reflexivity.
  - intros H. lia.
Qed.

(** the adaptation leaves vectors and cached values as they are and replaces the betas *)
Lemma ladder_stale : forall G0 h Gf, history S D G0 h Gf -> forall s, In s h -> forall r, (r < n)%nat ->
  x_at (sr_lad s) r = x_at (sr_mid s) r /\ lp_at (sr_lad s) r = lp_at (sr_mid s) r /\
  beta_at (sr_mid s) r = beta_at (sr_in s) r.
Proof.
  intros G0 h Gf HH s Hs r Hr. destruct (history_count S HL _ _ _ _ HH) as [_ [F _]]. rewrite Forall_forall in F.
  destruct (F s Hs) as [_ [_ [_ [_ [_ [_ [Wm [_ [_ [_ [_ [_ [_ [_ [HLad [_ [_ [HB _]]]]]]]]]]]]]]]]]].
  split; [|split].
  - unfold x_at. destruct (adapts C (sr_mid s)); [|injection HLad; intros <-; reflexivity].
    destruct (ladder_view C n VC _ _ _ _ Wm HLad) as [-> _]. reflexivity.
  - unfold lp_at. destruct (adapts C (sr_mid s)); [|injection HLad; intros <-; reflexivity].
    destruct (ladder_view C n VC _ _ _ _ Wm HLad) as [-> _]. reflexivity.
  - unfold beta_at. rewrite HB by auto. reflexivity.
Qed.

(** the betas an adaptation produces *)
Lemma ladder_new : forall G0 h Gf, history S D G0 h Gf -> forall s, In s h -> adapts C (sr_mid s) = true ->
  exists b, tune_ladder (scale_tune_ladder C) (zero_stretch C) (zn n) (sr_nsw s) (sr_npr s) (l_beta (loc_at (sr_in s) 0)) = OK b /\
    forall r, (r < n)%nat -> l_beta (loc_at (sr_lad s) r) = b.
Proof.
  intros G0 h Gf HH s Hs HA. destruct (history_count S HL _ _ _ _ HH) as [_ [F _]]. rewrite Forall_forall in F.
  destruct (F s Hs) as [_ [_ [_ [_ [_ [_ [Wm [_ [_ [_ [_ [_ [_ [_ [HLad [_ [_ [HB _]]]]]]]]]]]]]]]]]].
  rewrite HA in HLad. destruct (ladder_view C n VC _ _ _ _ Wm HLad) as [_ [b [Hb [_ HV]]]].
  exists b. rewrite HB in Hb by (pose proof (vc_n _ _ VC); lia). split; auto. intros r Hr. apply (HV r Hr).
Qed.
End Cached.

(** ** A run in which a cached value is stale *)
Section Flat.
Variable L : Libm.
Notation A := (B64 L).

Definition quarter : num A := nlit 25 2.
Definition three_quarters : num A := nlit 75 2.

(** three ranks with betas 1/4, 3/4, 1; stacks of one iteration; one swap attempt between
    neighbours per batch; the ladder is adapted after the first stack *)
Definition flat_cfg : Cfg A :=
  mkCfgP A 1 2 1 1 0 1 0 0 0 1 1 2 0 7
    (nlit 10 2) (nlit 45 2) (nlit 23 2) (nlit 1 1) (nof 20) (nof 300) (nlit 2 1) (nlit 1 1)
    [quarter; three_quarters; nof 1].
(** a log-likelihood of 1 everywhere (tempered: beta), a prior of 1 *)
Definition flat_user : User A :=
  mkUser A (fun _ _ _ beta => beta) (fun _ => nof 0) (fun x => x) (fun s => ([nof 0], Rand.srand48 s)) [nof 1] [nof 0] [nof 2].
Definition flat : Setup A := mkSetup flat_cfg flat_user 3 (Demo.demo_env A) 2.

Lemma flat_legal : Legal flat.
Proof.
  split; [apply RandOK_b64|]. split; [|split].
  - constructor; cbn; try (vm_compute; intuition discriminate); try lia.
  - constructor; [constructor| |]; try (cbn; lia).
    + intros x Hx. exact Hx.
    + intros s. reflexivity.
    + reflexivity.
  - apply Demo.demo_env_valid.
Qed.

Lemma flat_first : forall D G0 h Gf, history flat D G0 h Gf -> exists s h', h = s :: h' /\ sr_in s = G0 /\ sr_from s = 0 /\ sr_len s = 1.
Proof.
  intros D G0 h Gf HH. destruct (history_count flat flat_legal _ _ _ _ HH) as [Z1 [F [SF _]]].
  destruct h as [|s h']; [cbn in Z1; discriminate|]. exists s, h'. cbn [sfollow] in SF. destruct SF as [S1 [S2 _]].
  pose proof (Forall_inv F) as [K _]. cbn [s_cfg flat flat_cfg n_iter_a_stack] in K. split; auto. split; auto. split; auto. lia.
Qed.

Ltac b64eq := match goal with |- ?x = ?y =>
  apply (B2SF_inj _ _ (x : b64) (y : b64)); vm_compute; reflexivity end.

Ltac b64ne := let E := fresh "E" in intro E; apply (f_equal (fun x : b64 => B2SF x)) in E; vm_compute in E; discriminate E.
Ltac far := match goal with |- ladder_ar 3 ?a ?b = OK [?x; ?y] =>
  transitivity (OK [ndiv (nth 0 a (@nof A 0)) (nth 0 b (nof 0)); ndiv (nth 1 a (nof 0)) (nth 1 b (nof 0))]);
  [reflexivity|];
  replace (ndiv (nth 0 a (@nof A 0)) (nth 0 b (nof 0))) with x by b64eq;
  replace (ndiv (nth 1 a (@nof A 0)) (nth 1 b (nof 0))) with y by b64eq; reflexivity end.

Lemma flat_geom : l_pow L (bof 4) (nlit (A := A) 5 1) = bof 2 -> forall T1,
  ladder_geom (A := A) 1 [quarter; three_quarters; nof 1] [nof 4; T1; nof 1] = OK [nof 4; nof 2; nof 1].
Proof.
  intros HP T1. unfold ladder_geom. change (1 - 1) with 0. change (1 + 1) with 2.
  change (zget [quarter; three_quarters; nof 1] 0) with (OK quarter).
  change (zget [quarter; three_quarters; @nof A 1] 2) with (OK (@nof A 1)). cbn [rbind].
  replace (ndiv (ndiv one quarter) (ndiv one (@nof A 1))) with (bof 4) by b64eq.
  change (@npow A) with (l_pow L). rewrite HP.
  change (zget [nof 4; T1; nof 1] 0) with (OK (@nof A 4)). cbn [rbind].
  replace (ndiv (@nof A 4) (bof 2)) with (@nof A 2) by b64eq. reflexivity.
Qed.

Lemma flat_back : forall (a t c x y z : num A) b,
  for_from 1 1 (fun i b => let* t := zget [a; t; c] i in zset b i (ndiv one t)) [x; y; z] = OK b -> nth 1 b (nof 0) = ndiv one t.
Proof. intros a t c x y z b H. injection H; intros <-. reflexivity. Qed.

Definition t13 : num A := nsub (nof 4) (nmul (nsub (nof 4) (nof 1)) (nsub one (nlit 1 1))).

(** the four outcomes of the one attempt of a stack: position 0 or 1, done or not *)
Lemma flat_tuned : l_pow L (bof 4) (nlit (A := A) 5 1) = bof 2 -> forall i d b, (i < 2)%nat ->
  tune_ladder (A := A) (nlit 2 1) (nlit 1 1) 3 (tally (repeat (nof 0) 3) i (if d : bool then 1 else 0)) (tally (repeat (nof 0) 3) i 1)
    [quarter; three_quarters; nof 1] = OK b -> nadd (nth 1 b (nof 0)) (nof 0) <> nadd three_quarters (nof 0).
Proof.
  intros HP i d b Hi Hb. unfold tune_ladder in Hb.
  assert (ET : exists T1, ladder_T (A := A) 3 [quarter; three_quarters; nof 1] = OK [nof 4; T1; nof 1] /\ 
     T1 = ndiv (nof 1) three_quarters).
  { exists (ndiv (nof 1) three_quarters). split; [|reflexivity].
    replace (nof 4) with (ndiv (@one A) quarter) by b64eq.
    transitivity (OK [ndiv (@one A) quarter; ndiv one three_quarters; ndiv one (nof 1)]); [reflexivity|].
    repeat f_equal. b64eq. }
  destruct ET as [T1 [ET ET1]]. rewrite ET in Hb. cbn [rbind] in Hb.
  change (Z.to_nat (3 - 2)) with 1%nat in Hb.
  assert (HG := flat_geom HP T1).
  assert (Hgen : forall ar0 ar1, ladder_ar (A := A) 3 (tally (repeat (nof 0) 3) i (if d then 1 else 0)) (tally (repeat (nof 0) 3) i 1) = OK [ar0; ar1] ->
     nltb (@nof A 0) (nadd ar0 ar1) = false -> 
     let r := (if nltb ar1 (nlit 1 2) then t13 else if nltb ar0 (nlit 1 2) then nlit 37 1 else @nof A 2) in
     nth 1 b (nof 0) = ndiv one r).
  { intros ar0 ar1 Ear Hc. rewrite Ear in Hb. cbn [rbind] in Hb.
    assert (EF : forall (X : Type) (f : Z -> X -> res X) a, for_from 1 1 f a = let* t := f 1 a in OK t) by reflexivity.
    rewrite (EF _ (ladder_body _ _ _ _ _)) in Hb. unfold ladder_body in Hb. change (1 - 1) with 0 in Hb.
    change (zget [ar0; ar1] 0) with (OK ar0) in Hb. change (zget [ar0; ar1] 1) with (OK ar1) in Hb. cbn [rbind] in Hb.
    rewrite Hc, HG in Hb. cbn [rbind] in Hb. change (3 - 2) with 1 in Hb. change (3 - 3) with 0 in Hb. change (3 - 1) with 2 in Hb.
    change (zget [ar0; ar1] 1) with (OK ar1) in Hb. 
    assert (E1 : nsub (@nof A 4) (nmul (nsub (nof 4) (nof 1)) (nlit 1 1)) = nlit 37 1) by b64eq.
    assert (E2 : nsub (@nof A 4) (nmul (nsub (nof 4) (nof 1)) (nsub one (nlit 1 1))) = t13) by reflexivity.
    cbn zeta. destruct (nltb ar0 (nlit 1 2)).
    - change (zget [nof 4; nof 2; @nof A 1] 0) with (OK (@nof A 4)) in Hb.
      change (zget [nof 4; nof 2; @nof A 1] 2) with (OK (@nof A 1)) in Hb. cbn [rbind] in Hb. rewrite E1 in Hb.
      change (zset [nof 4; nof 2; nof 1] 1 (nlit (A := A) 37 1)) with (OK [nof 4; nlit (A := A) 37 1; nof 1]) in Hb. cbn [rbind] in Hb.
      destruct (nltb ar1 (nlit 1 2)).
      + change (zget [nof 4; nlit 37 1; @nof A 1] 0) with (OK (@nof A 4)) in Hb.
        change (zget [nof 4; nlit 37 1; @nof A 1] 2) with (OK (@nof A 1)) in Hb. cbn [rbind] in Hb. rewrite E2 in Hb.
        change (zset [nof 4; nlit 37 1; nof 1] 1 (t13)) with (OK [nof 4; t13; nof 1]) in Hb. cbn [rbind] in Hb.
        apply flat_back in Hb; exact Hb.
      + cbn [rbind] in Hb. apply flat_back in Hb; exact Hb.
    - cbn [rbind] in Hb. destruct (nltb ar1 (nlit 1 2)).
      + change (zget [nof 4; nof 2; @nof A 1] 0) with (OK (@nof A 4)) in Hb.
        change (zget [nof 4; nof 2; @nof A 1] 2) with (OK (@nof A 1)) in Hb. cbn [rbind] in Hb. rewrite E2 in Hb.
        change (zset [nof 4; nof 2; nof 1] 1 (t13)) with (OK [nof 4; t13; nof 1]) in Hb. cbn [rbind] in Hb.
        apply flat_back in Hb; exact Hb.
      + cbn [rbind] in Hb. apply flat_back in Hb; exact Hb. }
  clear Hb HG HP ET. destruct i as [|[|i]]; [| |lia]; destruct d.
  - rewrite (Hgen (nof 1) B754_nan); [b64ne|far|reflexivity].
  - rewrite (Hgen (nof 0) B754_nan); [b64ne|far|reflexivity].
  - rewrite (Hgen B754_nan (nof 1)); [b64ne|far|reflexivity].
  - rewrite (Hgen B754_nan (nof 0)); [b64ne|far|reflexivity].
Qed.

Lemma flat_stale : l_pow L (bof 4) (nlit (A := A) 5 1) = bof 2 -> forall D G0 h Gf, history flat D G0 h Gf ->
  exists s, In s h /\ cached_at flat D (sr_mid s) 1 /\ adapts flat_cfg (sr_mid s) = true /\
    ~ cached_at flat D (sr_lad s) 1.
Proof.
  intros HPow D G0 h Gf HH. destruct (flat_first _ _ _ _ HH) as [s [h' [-> [Ein [Efr Elen]]]]].
  assert (Hs : In s (s :: h')) by (left; auto). exists s. split; auto.
  assert (HC : holds flat (cachedP flat D) (sr_mid s)).
  { apply (holds_stack flat flat_legal D _ (cached_step flat D) _ _ _ HH s Hs). rewrite Ein.
    intros r Hr. apply (init_pair flat flat_legal D _ _ _ HH r Hr). }
  assert (H1 : (1 < s_n flat)%nat) by (cbn; lia).
  split; [apply HC; auto|].
  destruct (history_count flat flat_legal _ _ _ _ HH) as [_ [F _]]. rewrite Forall_forall in F.
  pose proof (F s Hs) as [_ [_ [_ [_ [_ [_ [_ [_ [_ [_ [ZB [FB [_ [_ [_ [_ [HIT _]]]]]]]]]]]]]]]]].
  assert (HA : adapts flat_cfg (sr_mid s) = true).
  { unfold adapts. change (nth 0 (g_locs (sr_mid s)) dloc) with (loc_at (sr_mid s) 0).
    destruct (HIT 0%nat ltac:(cbn; lia)) as [_ [_ [-> _]]]. unfold sr_end. rewrite Efr, Elen. reflexivity. }
  split; auto.
  (* what the adaptation is given *)
  pose proof (history_swaps flat flat_legal D _ _ _ HH) as HSW. rewrite Forall_forall in HSW.
  destruct (HSW s Hs) as [wss [HB Hst]]. destruct (Hst eq_refl) as [Hnp Hns].
  assert (HL1 : length (sr_batches s) = 1%nat).
  { assert (G : forall l, Forall (bcount flat_cfg flat_user 3 D (sr_from s)) l -> Z.of_nat (length l) <= zsum (map br_len l)).
    { induction 1 as [|b l Hb _ IH]; [cbn; lia|]. destruct Hb as [Hb _]. cbn [length map zsum]. lia. }
    pose proof (G _ FB). rewrite ZB, Elen in H. destruct (sr_batches s) as [|b [|b' l]]; cbn [length] in *; auto; [cbn in ZB; lia|lia]. }
  destruct (sr_batches s) as [|b [|b' l]]; try discriminate.
  inversion HB as [|? ws ? wss' Hb1 Hb2]; subst. inversion Hb2; subst. clear HB Hb2.
  destruct Hb1 as [Lw [_ Fw]]. cbn [s_cfg flat flat_cfg N_swap] in Lw. change (Z.to_nat 1) with 1%nat in Lw.
  destruct ws as [|w [|w' ws]]; try discriminate. cbn [concat app] in Hnp, Hns.
  pose proof (Forall_inv Fw) as Hw. destruct Hw as [_ [Hi _]]. cbn [s_n flat] in Hi.
  destruct (ladder_new flat flat_legal D _ _ _ HH s Hs HA) as [bn [Hbn HV]].
  assert (EB : l_beta (loc_at (sr_in s) 0) = [quarter; three_quarters; nof 1]).
  { rewrite (proj2 (init_beta flat flat_legal D _ _ _ HH 0%nat ltac:(cbn; lia))). reflexivity. }
  rewrite EB in Hbn. unfold cached_at. destruct (ladder_stale flat flat_legal D _ _ _ HH s Hs 1%nat H1) as [_ [E2 E3]].
  rewrite E2. pose proof (HC 1%nat H1) as HC1. unfold cachedP in HC1. rewrite HC1.
  unfold logpost_at. cbn [s_user flat flat_user u_logll u_logprior].
  rewrite E3. change (beta_at (sr_lad s) 1) with (nth 1 (l_beta (loc_at (sr_lad s) 1)) (nof 0)). rewrite (HV 1%nat H1).
  assert (EB1 : beta_at (sr_in s) 1 = three_quarters).
  { rewrite (proj1 (init_beta flat flat_legal D _ _ _ HH 1%nat ltac:(cbn; lia))). reflexivity. }
  rewrite EB1. rewrite Hnp, Hns in Hbn. clear - Hbn Hi HPow.
  intro E. symmetry in E. revert E. apply (flat_tuned HPow (sw_i w) (sw_done w)); auto.
Qed.
End Flat.
