(** Consequences of the history for the counters, the number of iterations and the saved rows. *)
From Coq Require Import ZArith Arith List Bool Lia.
From Verif Require Import Base Arith B64 Rand Mh Mpi MpiMeta Prog Seq ListAux MhSpec SeqWf Refine SeqTotal System
  RandRange Demo Runs SeedRuns SeqFiles History Views RunHist HistCount HistRows Failing FailRuns.
Import ListNotations.
Open Scope Z_scope.

(** every legal setup has a complete execution *)
Lemma legal_completes : forall A (S : Setup A), Legal S -> exists k tr X, execution S k tr X /\ complete S X.
Proof.
  intros A S HL. destruct (legal_bound S HL) as [N HN].
  destruct (HN 0%nat [] (initial S)) as [_ [_ [_ [[k [tr [Y [HY HC]]]] _]]]]; [constructor|]. exists k, tr, Y. auto.
Qed.

(** ** one batch *)
Lemma batch_rows : forall A (U : User A) D np x sigma nb beta g it acc sb lp,
  BoundLen U np -> haslen np sigma -> haslen np x -> 1 <= nb ->
  0 <= it -> it + nb <= INT_MAX -> 0 <= acc -> acc + nb <= INT_MAX ->
  exists out rows bs, iter_batch_mh U D np x sigma nb beta g it acc sb lp = OK out /\
    mhwalk U D np sigma beta g (mkRow x lp it acc) rows bs (b_g out) /\
    Z.of_nat (length rows) = nb /\
    mkRow (b_last out) (b_lp out) (b_it out) (b_acc out) = last rows (mkRow x lp it acc) /\
    b_saved out = (if sb <=? it + nb then rows else []).
Proof.
  intros A U D np x sigma nb beta g it acc sb lp BL Hs Hx Hnb Hi Hi2 Ha Ha2.
  pose proof (iter_batch_mh_spec U D np x sigma nb beta g it acc sb lp BL Hs Hx Hnb) as E.
  destruct (mhn_walk U D np sigma beta BL Hs (Z.to_nat nb) (mkMs x lp g acc) it (mkRow x lp it acc)) as [bs [W [Ac Lb]]];
    try (cbn [ms_x ms_acc]; auto; lia); try reflexivity.
  do 3 eexists. split; [exact E|]. unfold batch_spec. cbn [b_g b_last b_lp b_it b_acc b_saved].
  assert (Hit : itn it (Z.to_nat nb) = it + nb) by (rewrite itn_small by lia; lia).
  split; [exact W|]. split; [rewrite map_length, seq_length; lia|]. split.
  - rewrite last_map_seq by lia. unfold ms_row. rewrite Hit.
    pose proof (ctrue_range bs) as R. cbn [ms_acc] in Ac. rewrite Lb in R.
    f_equal; rewrite u2i_small; lia.
  - rewrite Hit. reflexivity.
Qed.

(** ** columns of a chain file *)
(** the counters of consecutive rows: iteration +1, acceptance +0 or +1 *)
Definition follows {A} (p q : crow A) : Prop :=
  r_it q = r_it p + 1 /\ (r_acc q = r_acc p \/ r_acc q = r_acc p + 1).

Lemma numbered_follows : forall A it acc (R : list (crow A)) B, numbered it acc R B ->
  forall k p q, nth_error R k = Some p -> nth_error R (S k) = Some q -> follows p q.
Proof.
  induction 1 as [|it acc q0 b R B H1 H2 HN IH]; intros k p q Hp Hq; [destruct k; discriminate|].
  destruct k as [|k]; [|exact (IH k p q Hp Hq)].
  cbn [nth_error] in Hp. injection Hp as <-. inversion HN; subst; [discriminate|].
  cbn [nth_error] in Hq. injection Hq as <-. split; [lia|]. destruct b0; [right|left]; lia.
Qed.

Lemma numbered_bounds : forall A it acc (R : list (crow A)) B, numbered it acc R B -> 0 <= acc <= it ->
  Forall (fun q => it < r_it q <= it + Z.of_nat (length R) /\ 0 <= r_acc q <= r_it q) R.
Proof.
  induction 1 as [|it acc q b R B H1 H2 HN IH]; intros Ha; constructor.
  - cbn [length]. destruct b; lia.
  - eapply Forall_impl; [|apply IH; destruct b; lia]. cbn beta. cbn [length]. lia.
Qed.

Lemma numbered_last : forall A it acc (R : list (crow A)) B, numbered it acc R B ->
  forall d, r_it d = it -> r_acc d = acc -> r_it (last R d) = it + Z.of_nat (length R) /\ r_acc (last R d) = acc + ctrue B.
Proof.
  induction 1 as [|it acc q b R B H1 H2 HN IH]; intros d Hd1 Hd2; [cbn; lia|].
  destruct (IH q H1 H2) as [I1 I2].
  assert (L : last (q :: R) d = last R q).
  { clear. revert q d. induction R as [|a R IH]; intros; [reflexivity|]. change (last (a :: R) d = last (a :: R) q). rewrite (IH a d), (IH a q). reflexivity. }
  rewrite L. cbn [length ctrue]. lia.
Qed.

Section Run.
Context {A : Arith}.
Variable S : Setup A.
Hypothesis HL : Legal S.
Notation C := (s_cfg S).
Notation U := (s_user S).
Notation n := (s_n S).
Let RK := proj1 HL.
Let VC := proj1 (proj2 HL).

(** the rows of a complete chain file *)
Lemma columns_complete : forall k tr X, execution S k tr X -> complete S X -> forall r, (r < n)%nat ->
  exists r0 rows s, file (FChain r) tr = map (EvRow r) (r0 :: rows) /\
    r_it r0 = 0 /\ r_acc r0 = 0 /\
    (forall k p q, nth_error rows k = Some p -> nth_error rows (Datatypes.S k) = Some q -> follows p q) /\
    Forall (fun q => 0 < r_it q <= N_iter C /\ 0 <= r_acc q <= r_it q) rows /\
    pr X r = Ret s /\ l_it (lo s) = N_iter C /\
    (rows <> [] -> r_it (last rows r0) = N_iter C /\ r_acc (last rows r0) = l_acc (lo s)).
Proof.
  intros k tr X HE HC r Hr. destruct (history_exists S HL) as [D [G0 [h [Gf HH]]]].
  destruct (history_saved S HL _ _ _ _ HH _ _ _ HE HC r Hr) as
    [b1 [b2 [x1 [x2 [_ [_ [_ [_ [_ [HZ [N1 [N2 [L1 [L2 [HA HF]]]]]]]]]]]]]]].
  pose proof (history_final S HL _ _ _ _ HH _ _ _ HE HC r Hr) as HP.
  destruct (history_count S HL _ _ _ _ HH) as [_ [_ [_ [_ HI]]]]. specialize (HI r Hr).
  exists (mkRow (x_at G0 r) (lp_at G0 r) 0 0), (rows_in x2), (st_of Gf r).
  split; [exact HF|]. split; [reflexivity|]. split; [reflexivity|]. split; [exact (numbered_follows _ _ _ _ _ N2)|].
  destruct (numbered_nth _ _ _ _ N1) as [E1 _]. pose proof (ctrue_range (decisions x1)) as R1.
  split; [|split; [exact HP|]].
  - eapply Forall_impl; [|apply (numbered_bounds _ _ _ _ _ N2); lia]. cbn beta. lia.
  - split; [exact HI|]. intros Hne.
    assert (Lq : exists q, last (rows_in x2) (mkRow (x_at G0 r) (lp_at G0 r) 0 0) = q /\
       r_it q = zsum (map br_len b1) + Z.of_nat (length (rows_in x2)) /\ r_acc q = ctrue (decisions x1) + ctrue (decisions x2)).
    { eexists. split; [reflexivity|].
      assert (LL : forall d d' : crow A, last (rows_in x2) d = last (rows_in x2) d').
      { clear - Hne. induction (rows_in x2) as [|a l IH]; [congruence|]. intros d d'. destruct l; auto.
        change (last (c :: l) d = last (c :: l) d'). apply IH. discriminate. }
      rewrite (LL _ (mkRow (x_at G0 r) (lp_at G0 r) (zsum (map br_len b1)) (ctrue (decisions x1)))).
      apply (numbered_last _ _ _ _ _ N2); reflexivity. }
    destruct Lq as [q [-> [Q1 Q2]]]. change (l_acc (lo (st_of Gf r))) with (l_acc (loc_at Gf r)). lia.
Qed.

(** and of the file of an execution that is cut off *)
Lemma columns_any : forall k tr X, execution S k tr X -> forall r, (r < n)%nat ->
  exists rows, file (FChain r) tr = map (EvRow r) rows /\
    (forall j p q, nth_error rows (Datatypes.S j) = Some p -> nth_error rows (Datatypes.S (Datatypes.S j)) = Some q -> follows p q) /\
    Forall (fun q => 0 <= r_it q <= N_iter C /\ 0 <= r_acc q <= r_it q) rows.
Proof.
  intros k tr X HE r Hr. destruct (legal_bound S HL) as [N HN]. destruct (HN _ _ _ HE) as [_ [_ [_ [[k' [tr' [Y [HY HC]]]] _]]]].
  pose proof (mrun_app _ _ _ _ _ HE _ _ _ HY) as HE'.
  destruct (columns_complete _ _ _ HE' HC r Hr) as [r0 [rows [s [F [I0 [A0 [HF [HB _]]]]]]]].
  destruct (reference_ok S HL) as [G [t HR]].
  destruct (legal_files S HL _ _ _ HE' HC _ _ HR) as [_ HFf].
  destruct (legal_prefix S HL _ _ _ HE _ _ HR (FChain r) ltac:(discriminate)) as [rest Hp].
  rewrite <- HFf in Hp by discriminate. rewrite F in Hp.
  apply map_eq_app in Hp. destruct Hp as [R1 [R2 [ER [E1 _]]]].
  exists R1. split; [auto|]. 
  assert (N1 : forall j p, nth_error R1 j = Some p -> nth_error (r0 :: rows) j = Some p).
  { intros j p Hj. rewrite ER. rewrite nth_error_app1; auto. apply nth_error_Some. congruence. }
  split.
  - intros j p q Hp Hq. apply (HF j p q); apply N1 in Hp; apply N1 in Hq; auto.
  - apply Forall_forall. intros q Hq. assert (Hin : In q (r0 :: rows)) by (rewrite ER; apply in_or_app; auto).
    destruct Hin as [<-|Hin].
    + pose proof (vc_iter _ _ VC). lia.
    + rewrite Forall_forall in HB. specialize (HB q Hin). lia.
Qed.

(** the accept counter is the number of accepted proposals *)
Lemma final_counters : forall D G0 h Gf, history S D G0 h Gf ->
  forall k tr X, execution S k tr X -> complete S X -> forall r, (r < n)%nat ->
  exists xs s, walks S D r (hbatches h) xs /\ Z.of_nat (length (decisions xs)) = N_iter C /\
    pr X r = Ret s /\ l_it (lo s) = N_iter C /\ l_acc (lo s) = ctrue (decisions xs).
Proof.
  intros D G0 h Gf HH k tr X HE HC r Hr.
  destruct (history_walks S HL _ _ _ _ HH r Hr) as [xs [W [Nm [Ac [Ln _]]]]].
  destruct (history_count S HL _ _ _ _ HH) as [_ [_ [_ [_ HI]]]].
  pose proof (history_final S HL _ _ _ _ HH _ _ _ HE HC r Hr) as HP.
  exists xs, (st_of Gf r). split; [exact W|]. destruct (numbered_nth _ _ _ _ Nm) as [E _].
  split; [lia|]. split; [exact HP|]. split; [apply (HI r Hr)|exact Ac].
Qed.

Lemma rows_by_batch : forall D G0 h Gf, history S D G0 h Gf ->
  forall k tr X, execution S k tr X -> complete S X -> forall r, (r < n)%nat ->
  exists xs, Forall2 (fun b x => batch_walk S D r b (fst x) (snd x)) (hbatches h) xs /\
    file (FChain r) tr = EvRow r (mkRow (x_at G0 r) (lp_at G0 r) 0 0) ::
      concat (map (fun bx => if i_save_begin C <=? l_it (loc_at (br_mid (fst bx)) r) then map (EvRow r) (fst (snd bx)) else [])
        (combine (hbatches h) xs)).
Proof.
  intros D G0 h Gf HH k tr X HE HC r Hr.
  destruct (history_walks S HL _ _ _ _ HH r Hr) as [xs [W _]]. exists xs. split; [exact W|].
  destruct (history_files S HL _ _ _ _ HH _ _ _ HE HC) as [F _]. destruct (F r Hr) as [-> _]. f_equal.
  rewrite chain_rows_hb. clear - W. induction W as [|b x bl xs H W IH]; auto. cbn [map concat combine fst snd].
  rewrite IH. f_equal. apply H.
Qed.

(** stacks and batches add up *)
Lemma schedule_sums : forall D G0 h Gf, history S D G0 h Gf ->
  zsum (map sr_len h) = N_iter C /\
  Forall (fun s => 1 <= sr_len s <= n_iter_a_stack C /\ (sr_end s < N_iter C -> sr_len s = n_iter_a_stack C) /\
    zsum (map br_len (sr_batches s)) = sr_len s /\
    Forall (fun b => 1 <= br_len b <= n_iter_a_batch_base C + n_iter_a_batch_rand C) (sr_batches s)) h.
Proof.
  intros D G0 h Gf HH. destruct (history_count S HL _ _ _ _ HH) as [HZ [HF _]]. split; [exact HZ|].
  eapply Forall_impl; [|exact HF]. intros s Hs.
  destruct Hs as [H1 [_ [_ [H4 [_ [_ [_ [_ [_ [_ [H5 [H6 _]]]]]]]]]]]]. split; [auto|]. split; [auto|]. split; [auto|].
  eapply Forall_impl; [|exact H6]. intros b Hb. apply Hb.
Qed.

(** ** burn-in *)
Lemma save_begin_slack : forall k tr X, execution S k tr X -> complete S X -> forall r, (r < n)%nat ->
  exists r0 rows, file (FChain r) tr = map (EvRow r) (r0 :: rows) /\ r_it r0 = 0 /\
    Forall (fun q => i_save_begin C - (n_iter_a_batch_base C + n_iter_a_batch_rand C) < r_it q) rows /\
    (forall i, i_save_begin C <= i -> 1 <= i <= N_iter C -> exists q, In q rows /\ r_it q = i).
Proof.
  intros k tr X HE HC r Hr. destruct (history_exists S HL) as [D [G0 [h [Gf HH]]]].
  destruct (history_saved S HL _ _ _ _ HH _ _ _ HE HC r Hr) as
    [b1 [b2 [x1 [x2 [EB [_ [_ [E1 [E2 [HZ [N1 [N2 [L1 [L2 [HA HF]]]]]]]]]]]]]]].
  destruct (history_count S HL _ _ _ _ HH) as [_ [HSC _]].
  pose proof (hb_len S D h HSC) as HB. rewrite EB in HB. apply Forall_app in HB. destruct HB as [HB1 HB2].
  destruct (numbered_nth _ _ _ _ N1) as [E3 _]. pose proof (ctrue_range (decisions x1)) as R1.
  exists (mkRow (x_at G0 r) (lp_at G0 r) 0 0), (rows_in x2). split; [exact HF|]. split; [reflexivity|].
  assert (S0 : forall b, Forall (fun b : brec (A := A) => 1 <= br_len b) b -> 0 <= zsum (map br_len b)).
  { clear. induction 1; cbn [map zsum]; lia. }
  split.
  - eapply Forall_impl; [|apply (numbered_bounds _ _ _ _ _ N2); lia]. cbn beta. intros q Hq.
    destruct b2 as [|b b2].
    + cbn [map zsum] in L2. lia.
    + cbn [ends] in E2. apply Forall_inv in E2. apply Forall_inv in HB2. cbn beta in E2, HB2. lia.
  - intros i Hi Hi2.
    assert (Hz : zsum (map br_len b1) < i).
    { destruct (Z_lt_le_dec (zsum (map br_len b1)) i) as [|Hge]; auto. exfalso.
      (* the last batch of b1 ends at zsum, below i_save_begin *)
      assert (K : forall a bl, bl <> [] -> In (a + zsum (map br_len bl)) (ends (A := A) a bl)).
      { clear. intros a bl. revert a. induction bl as [|b bl IH]; intros a H; [congruence|]. cbn [map zsum ends].
        destruct bl as [|b' bl]; [left; cbn [map zsum]; lia|]. right. rewrite Z.add_assoc. apply IH. discriminate. }
      destruct b1 as [|b b1]; [cbn [map zsum] in Hge; lia|].
      rewrite Forall_forall in E1. specialize (E1 _ (K 0 (b :: b1) ltac:(discriminate))). lia. }
    set (j := Z.to_nat (i - zsum (map br_len b1) - 1)).
    destruct (numbered_nth _ _ _ _ N2) as [_ K]. specialize (K j (mkRow (x_at G0 r) (lp_at G0 r) 0 0)).
    assert (Hj : (j < length (rows_in x2))%nat) by (unfold j; lia).
    exists (nth j (rows_in x2) (mkRow (x_at G0 r) (lp_at G0 r) 0 0)). split; [apply nth_In; auto|].
    destruct (K Hj) as [-> _]. unfold j. lia.
Qed.

(** the first batch *)
Lemma first_batch_len : forall D G0 h Gf, history S D G0 h Gf -> 0 < N_iter C ->
  exists b bl, hbatches h = b :: bl /\ br_from b = 0 /\
    Z.min (Z.min (N_iter C) (n_iter_a_stack C)) (n_iter_a_batch_base C - n_iter_a_batch_rand C) <= br_len b.
Proof.
  intros D G0 h Gf HH HN. destruct (history_count S HL _ _ _ _ HH) as [HZ [HSC [HS _]]].
  destruct h as [|s h]; [cbn [map zsum] in HZ; lia|].
  destruct HS as [Hf [_ _]]. apply Forall_inv in HSC.
  destruct HSC as [H1 [_ [H3 [H4 [_ [_ [_ [_ [_ [_ [H5 [H6 [H7 [H8 _]]]]]]]]]]]]]].
  unfold sr_end in *. inversion H8; subst; [lia|].
  eexists _, (bl ++ hbatches h). split.
  { unfold hbatches. cbn [map concat]. match goal with H : _ :: _ = sr_batches s |- _ => rewrite <- H end. reflexivity. }
  cbn [br_from br_len]. split; [reflexivity|].
  destruct (rk_ab _ RK (n_iter_a_batch_rand C) (l_g l0)) as [v [Ev Hv]].
  { apply (vc_rand _ _ VC). } { pose proof (vc_base _ _ VC); pose proof (vc_batch _ _ VC); pose proof (vc_stack _ _ VC); lia. }
  pose proof (vc_base _ _ VC); pose proof (vc_batch _ _ VC); pose proof (vc_stack _ _ VC); pose proof (vc_rand _ _ VC).
  match goal with H : next_batch _ _ _ _ = OK _ |- _ => rename H into HNB; unfold next_batch in HNB end.
  rewrite i32_ok in HNB by (unfold INT_MIN, INT_MAX in *; lia). cbn [rbind] in HNB.
  rewrite Ev in HNB. cbn [rbind] in HNB.
  rewrite i32_ok in HNB by (unfold INT_MIN, INT_MAX in *; lia). cbn [rbind] in HNB.
  rewrite i32_ok in HNB by (unfold INT_MIN, INT_MAX in *; lia). cbn [rbind] in HNB.
  injection HNB; intros; subst.
  destruct (Z_lt_le_dec (sr_from s + sr_len s) (N_iter C)) as [Hlt|Hge]; [specialize (H4 Hlt)|];
    destruct (Z.ltb_spec (sr_len s) (n_iter_a_batch_base C + v)); lia.
Qed.

Lemma saved_too_early : 2 <= i_save_begin C ->
  i_save_begin C <= N_iter C -> i_save_begin C <= n_iter_a_stack C ->
  i_save_begin C <= n_iter_a_batch_base C - n_iter_a_batch_rand C ->
  forall k tr X, execution S k tr X -> complete S X -> forall r, (r < n)%nat ->
  exists q, In (EvRow r q) (file (FChain r) tr) /\ r_it q = 1.
Proof.
  intros H2 HN Hst Hb k tr X HE HC r Hr. destruct (history_exists S HL) as [D [G0 [h [Gf HH]]]].
  destruct (first_batch_len _ _ _ _ HH ltac:(lia)) as [b [bl [Eb [_ Hbl]]]].
  destruct (history_saved S HL _ _ _ _ HH _ _ _ HE HC r Hr) as
    [b1 [b2 [x1 [x2 [EB [_ [W2 [E1 [E2 [HZ [N1 [N2 [L1 [L2 [HA HF]]]]]]]]]]]]]]].
  rewrite Eb in EB.
  destruct b1 as [|b' b1].
  - cbn [map zsum] in N2. destruct (rows_in x2) as [|q rows] eqn:Er.
    + cbn [length] in L2. cbn [map zsum app] in *. lia.
    + exists q. rewrite HF. split; [right; left; reflexivity|].
      inversion N2; subst. lia.
  - cbn [app] in EB. injection EB as <- _. cbn [ends] in E1. apply Forall_inv in E1. cbn beta in E1. lia.
Qed.
End Run.

(** the same configuration with another i_save_begin *)
Definition set_save {A} (C : Cfg A) (k : Z) : Cfg A :=
  mkCfgP A (N_parm C) (N_iter C) (n_iter_a_stack C) (n_iter_a_batch_base C) (n_iter_a_batch_rand C) (N_swap C) (Swapmode C)
    (N_begintune C) (N_stoptune C) (n_iter_in_tune C) (Tune_Ladder C) (N_stopTuneLadder C) k (init_rand_seed C)
    (ar_ok_lower C) (ar_ok_upper C) (ar_best C) (ar_accept_diff C) (sigma_scale_half_ratio C) (sigma_jumpin_ratio C)
    (scale_tune_ladder C) (zero_stretch C) (Beta_Values C).

Lemma set_save_legal : forall A (S : Setup A) k, Legal S -> Legal (with_cfg S (set_save (s_cfg S) k)).
Proof.
  intros A S k [RK [[V1 V2 V3 V4 V5 V6 V7 V8 V9 V10 V11 V12] [[[U1 U2 U3] V14 V15] VE]]].
  split; [auto|]. split; [constructor; auto|]. split; [|auto]. constructor; auto. constructor; auto.
Qed.
