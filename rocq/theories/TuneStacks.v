(** Tuning after each stack of a run. *)
From Coq Require Import ZArith Arith List Bool Lia.
From Verif Require Import Base Arith Rand Mh Ladder Tune Mpi MpiMeta Spmd Prog Seq ListAux MhSpec SeqWf Refine
  SeqTotal System Runs SeqFiles History Views RunHist HistCount HistRows LadderRuns TuneOpt TuneRuns TuneSteps.
Import ListNotations.
Open Scope Z_scope.

Section Run.
Context {A : Arith}.
Variable S : Setup A.
Hypothesis HL : Legal S.
Variable D : Data A.
Notation C := (s_cfg S). Notation U := (s_user S). Notation n := (s_n S).
Let RK : RandOK A := proj1 HL.
Let VC : ValidCfg C n := proj1 (proj2 HL).
Let VU : ValidUser C U := proj1 (proj2 (proj2 HL)).

(** acceptance rate of rank r over a stack: difference of its (unsigned) counters by the length *)
Definition rate_of (s : srec (A := A)) (r : nat) : num A :=
  ndiv (nof (u32 (l_acc (loc_at (sr_lad s) r) - l_acc (loc_at (sr_pre s) r)))) (nof (sr_len s)).

Lemma trials_same : forall G G' rk al ars, same_chain n G G' -> (rk < n)%nat -> sigt_at G' rk = sigt_at G rk ->
  trials C U n D G' rk al ars -> trials C U n D G rk al ars.
Proof.
  intros G G' rk al ars [E1 [E2 E3]] Hrk E4 [T1 T2]. split; auto. intros p Hp. destruct (T2 p Hp) as [T3 T4]. split; auto.
  intros j Hj. destruct (T4 j Hj) as [g E]. exists g. rewrite E. destruct (E3 rk Hrk) as [_ [_ E5]].
  unfold x_at, lp_at, beta_at. rewrite E1, E2, E4, E5. reflexivity.
Qed.

Lemma stack_flags : forall s, wf C n (sr_pre s) -> wf C n (sr_lad s) ->
  length (map (tune_flag C) (rates (sr_pre s) (sr_lad s) (sr_len s))) = n /\
  forall r, (r < n)%nat -> nth r (map (tune_flag C) (rates (sr_pre s) (sr_lad s) (sr_len s))) 0 = tune_flag C (rate_of s r).
Proof.
  intros s W1 W2. assert (L : length (rates (sr_pre s) (sr_lad s) (sr_len s)) = n).
  { unfold rates. apply map2_length; [apply (wf_locs _ _ _ W1)|apply (wf_locs _ _ _ W2)]. }
  split; [rewrite map_length; auto|]. intros r Hr.
  rewrite (map_nth2 _ _ r (nof 0) 0) by lia. f_equal. unfold rates, rate_of.
  rewrite (map2_nth _ _ _ r dloc dloc (nof 0)) by (rewrite ?(wf_locs _ _ _ W1), ?(wf_locs _ _ _ W2); auto). reflexivity.
Qed.

(** a rank is tuned iff the stack ends inside the window and its rate is not strictly inside the band *)
Definition tuned_in (s : srec (A := A)) (r : nat) : Prop :=
  N_begintune C < sr_end s /\ sr_end s < N_stoptune C /\ sr_end s < N_iter C /\
  ~ (nltb (ar_ok_lower C) (rate_of s r) = true /\ nltb (rate_of s r) (ar_ok_upper C) = true).

Lemma stack_tuned : forall G0 h Gf, history S D G0 h Gf -> forall s, In s h -> forall r, (r < n)%nat ->
  (~ tuned_in s r -> sigt_at (sr_post s) r = sigt_at (sr_in s) r) /\
  (tuned_in s r -> forall P, comparable P -> rates_ok C P ->
   exists al ars, candidates C U n (sigt_at (sr_in s) r) al /\ trials C U n D (sr_lad s) r al ars /\
     one_of_three C U n (sigt_at (sr_in s) r) (sigt_at (sr_post s) r) al ars).
Proof.
  intros G0 h Gf HH s Hs r Hr. destruct (history_count S HL _ _ _ _ HH) as [_ [F _]]. rewrite Forall_forall in F.
  destruct (F s Hs) as [_ [_ [_ [_ [_ [Wp [_ [Wl [_ [_ [_ [_ [_ [_ [_ [HT [_ [_ [_ HS]]]]]]]]]]]]]]]]]]].
  assert (Er : sigt_at (sr_lad s) r = sigt_at (sr_in s) r) by (unfold sigt_at; rewrite HS; reflexivity).
  destruct (stack_flags s Wp Wl) as [Lf Nf]. specialize (Nf r Hr).
  destruct (tunes C (sr_end s)) eqn:ET.
  - destruct (tune_chain C U n D VC VU _ _ _ Wl Lf HT) as [Gs [K1 [K2 [K3 K4]]]].
    destruct (K4 r Hr) as [Q1 [Q2 Q3]]. rewrite Nf in Q1. unfold tune_flag in Q1.
    assert (Hw : N_begintune C < sr_end s /\ sr_end s < N_stoptune C /\ sr_end s < N_iter C).
    { unfold tunes in ET. apply andb_prop in ET. destruct ET as [ET ET3]. apply andb_prop in ET. destruct ET as [ET1 ET2].
      apply Z.ltb_lt in ET1, ET2, ET3. lia. }
    destruct (nltb (rate_of s r) (ar_ok_upper C)) eqn:N1, (nltb (ar_ok_lower C) (rate_of s r)) eqn:N2; cbn [andb Z.eqb] in Q1; change (1 =? 1) with true in Q1; cbn iota in Q1.
    { split.
      - intros _. rewrite Q3, Q1, Q2. exact Er.
      - intros [_ [_ [_ T]]]. exfalso. auto. }
    all: assert (T : tuned_in s r) by (unfold tuned_in; rewrite N1, N2; repeat split; try lia; intros [? ?]; discriminate).
    all: split; [intros T'; contradiction|].
    all: intros _ P HP HR; destruct (K3 r ltac:(lia)) as [Wr Sr].
    all: destruct (irank_spec C U n D VC VU P HP HR _ _ _ Wr Hr Q1) as [al [ars [I1 [I2 I3]]]].
    all: exists al, ars; rewrite <- Er; rewrite Q2 in I1, I3; rewrite Q3; split; [exact I1|].
    all: split; [|exact I3].
    all: exact (trials_same _ _ _ _ _ Sr Hr Q2 I2).
  - split.
    + intros _. injection HT as HT. rewrite <- HT. exact Er.
    + intros [T1 [T2 [T3 _]]]. exfalso. unfold tunes in ET.
      destruct (Z.ltb_spec (N_begintune C) (sr_end s)), (Z.ltb_spec (sr_end s) (N_stoptune C)), (Z.ltb_spec (sr_end s) (N_iter C)); try lia.
Qed.

(** the steps of the tuning after a stack *)
Lemma stack_chain : forall G0 h Gf, history S D G0 h Gf -> forall s, In s h ->
  exists Gs : nat -> gst, Gs 0%nat = sr_lad s /\ Gs n = sr_post s /\
  forall r, (r < n)%nat ->
    (tuned_in s r -> seq_tune_irank C U n D (Gs r) (Z.of_nat r) = OK (Gs (Datatypes.S r))) /\
    (~ tuned_in s r -> Gs (Datatypes.S r) = Gs r) /\
    sigt_at (Gs r) r = sigt_at (sr_in s) r /\ sigt_at (sr_post s) r = sigt_at (Gs (Datatypes.S r)) r.
Proof.
  intros G0 h Gf HH s Hs. destruct (history_count S HL _ _ _ _ HH) as [_ [F _]]. rewrite Forall_forall in F.
  destruct (F s Hs) as [_ [_ [_ [_ [_ [Wp [_ [Wl [_ [_ [_ [_ [_ [_ [_ [HT [_ [_ [_ HS]]]]]]]]]]]]]]]]]]].
  assert (Er : forall r, sigt_at (sr_lad s) r = sigt_at (sr_in s) r) by (intros r; unfold sigt_at; rewrite HS; reflexivity).
  destruct (stack_flags s Wp Wl) as [Lf Nf].
  destruct (tunes C (sr_end s)) eqn:ET.
  - destruct (tune_chain C U n D VC VU _ _ _ Wl Lf HT) as [Gs [K1 [K2 [_ K4]]]]. exists Gs. split; auto. split; auto.
    intros r Hr. destruct (K4 r Hr) as [Q1 [Q2 Q3]]. rewrite (Nf r Hr) in Q1. unfold tune_flag in Q1. rewrite Q2, Q3.
    assert (Hw : N_begintune C < sr_end s /\ sr_end s < N_stoptune C /\ sr_end s < N_iter C).
    { unfold tunes in ET. apply andb_prop in ET. destruct ET as [ET ET3]. apply andb_prop in ET. destruct ET as [ET1 ET2].
      apply Z.ltb_lt in ET1, ET2, ET3. lia. }
    split; [|split; [|split; auto]].
    + intros [_ [_ [_ T]]].
      destruct (nltb (rate_of s r) (ar_ok_upper C)), (nltb (ar_ok_lower C) (rate_of s r)); try exact Q1. exfalso; auto.
    + intros T. destruct (nltb (rate_of s r) (ar_ok_upper C)) eqn:N1, (nltb (ar_ok_lower C) (rate_of s r)) eqn:N2; try exact Q1;
        exfalso; apply T; unfold tuned_in; rewrite N1, N2; repeat split; try lia; intros [? ?]; discriminate.
  - injection HT as HT. exists (fun _ => sr_lad s). split; auto. split; auto. intros r Hr. rewrite <- HT.
    split; [|split; auto]. intros [T1 [T2 [T3 _]]]. exfalso. unfold tunes in ET.
    destruct (Z.ltb_spec (N_begintune C) (sr_end s)), (Z.ltb_spec (sr_end s) (N_stoptune C)), (Z.ltb_spec (sr_end s) (N_iter C)); try lia.
Qed.
End Run.
