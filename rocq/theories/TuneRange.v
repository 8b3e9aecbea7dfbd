(** Candidate widths and widths over the reals: they stay between sigma_min and sigma_max. *)
From Coq Require Import ZArith Reals Lra Lia List Bool Psatz.
From Verif Require Import Base Arith Rand Mh Ladder Tune LadderReal Mpi MpiMeta Spmd Prog Seq ListAux MhSpec SeqWf Refine
  SeqTotal System Runs SeqFiles History Views RunHist HistCount HistRows LadderRuns TuneOpt TuneRuns TuneSteps TuneStacks.
Import ListNotations.
Open Scope R_scope.

Definition ls (b h : R) (m : Z) : list R := create_logspace_array (A := RArith) b h m.

(** point i of the array *)
Lemma ls_nth : forall b h m i, (0 <= i < m)%Z ->
  nth (Z.to_nat i) (ls b h m) 0 = exp (ln (b / h) + (ln (b * h) - ln (b / h)) / IZR (m - 1) * IZR i).
Proof.
  intros b h m i Hi. unfold ls, create_logspace_array. change (num RArith) with R.
  rewrite (map_nth2 _ (seq 0 (Z.to_nat m)) (Z.to_nat i) 0%nat 0) by (rewrite seq_length; lia).
  rewrite nth_seq0 by lia. rewrite Z2Nat.id by lia. reflexivity.
Qed.
Lemma ls_len : forall b h m, length (ls b h m) = Z.to_nat m.
Proof. intros. unfold ls, create_logspace_array. rewrite map_length, seq_length. reflexivity. Qed.

Section LS.
Variables (b h : R) (m : Z).
Hypotheses (Hb : 0 < b) (Hh : 1 <= h) (Hm : (2 <= m)%Z).
Let Hm1 : 0 < IZR (m - 1).
Proof. apply IZR_lt. lia. Qed.
Let Hd : 0 < b / h.
Proof. apply Rdiv_lt_0_compat; lra. Qed.
Let Hle : b / h <= b * h.
Proof. apply Rmult_le_reg_r with h; [lra|]. unfold Rdiv. rewrite Rmult_assoc, Rinv_l by lra. assert (1 <= h * h) by nra. nra. Qed.
Let Hln : ln (b / h) <= ln (b * h).
Proof. destruct (Rle_lt_or_eq_dec _ _ Hle) as [H|H]; [left; apply ln_increasing; auto|rewrite H; lra]. Qed.

Lemma ls_first : nth 0 (ls b h m) 0 = b / h.
Proof. change 0%nat with (Z.to_nat 0). rewrite ls_nth by lia. rewrite Rmult_0_r, Rplus_0_r. apply exp_ln. exact Hd. Qed.
Lemma ls_last : nth (Z.to_nat (m - 1)) (ls b h m) 0 = b * h.
Proof.
  rewrite ls_nth by lia. replace (ln (b / h) + (ln (b * h) - ln (b / h)) / IZR (m - 1) * IZR (m - 1)) with (ln (b * h)) by (field; lra).
  apply exp_ln. nra.
Qed.
Lemma ls_mono : forall i j, (0 <= i <= j)%Z -> (j < m)%Z -> nth (Z.to_nat i) (ls b h m) 0 <= nth (Z.to_nat j) (ls b h m) 0.
Proof.
  intros i j Hij Hj. rewrite !ls_nth by lia.
  assert (K : forall x y, x <= y -> exp x <= exp y) by (intros x y [K|K]; [left; apply exp_increasing; auto|rewrite K; lra]).
  apply K. apply Rplus_le_compat_l. apply Rmult_le_compat_l.
  - apply Rmult_le_pos; [lra|]. left. apply Rinv_0_lt_compat. exact Hm1.
  - apply IZR_le. lia.
Qed.
Lemma ls_range : forall x, In x (ls b h m) -> b / h <= x <= b * h.
Proof.
  intros x Hx. destruct (In_nth _ _ 0 Hx) as [i [Hi <-]]. rewrite ls_len in Hi. rewrite <- (Nat2Z.id i).
  split.
  - rewrite <- ls_first. change 0%nat with (Z.to_nat 0). apply ls_mono; lia.
  - rewrite <- ls_last. apply ls_mono; lia.
Qed.
End LS.

Section Bounce.
Variables (C : Cfg RArith) (U : User RArith) (m : Z) (ip : Z).
Hypothesis Hm : (2 <= m)%Z.
Definition smin : R := nth (Z.to_nat ip) (u_sigmin U) 0.
Definition smax : R := nth (Z.to_nat ip) (u_sigmax U) 0.

(** the array kept, or that starting at sigma_min, or that ending at sigma_max *)
Lemma bounce_cases : forall arr out, check_bounce C U m arr ip = OK out ->
  let q := sqrt (sigma_jumpin_ratio C) in
  let arr1 := if Rltb (nth 0 arr 0) smin then ls (smin * q) q m else arr in
  out = if Rltb smax (nth (Z.to_nat (m - 1)) arr1 0) then ls (smax / q) q m else arr1.
Proof.
  intros arr out H q arr1. unfold check_bounce in H.
  assert (Z : forall (l : list R) i v, zget l i = OK v -> v = nth (Z.to_nat i) l 0).
  { intros l i v Hz. apply zget_ok_inv in Hz. destruct Hz as [_ Hz]. symmetry. apply nth_error_nth. exact Hz. }
  change (num RArith) with R in *. rinv.
  apply Z in E, E0, E1, E2. subst. reflexivity.
Qed.

Lemma bounce_range : 0 < smin -> 1 <= sigma_jumpin_ratio C -> smin * sigma_jumpin_ratio C <= smax ->
  forall b h out, 0 < b -> 1 <= h -> check_bounce C U m (ls b h m) ip = OK out -> forall x, In x out -> smin <= x <= smax.
Proof.
  intros H1 HJ H2 b h out Hb Hh H x Hx. apply bounce_cases in H. cbv zeta in H.
  set (J := (sigma_jumpin_ratio C : R)) in *. set (q := sqrt J) in *.
  assert (Hq : q * q = J) by (apply sqrt_sqrt; lra).
  assert (Hq1 : 1 <= q). { unfold q. rewrite <- sqrt_1. apply sqrt_le_1; lra. }
  assert (Hmx : smin <= smax) by nra.
  assert (Hq0 : q <> 0) by lra. assert (HJ0 : J <> 0) by lra.
  assert (Hsq : 0 < smin * q) by (apply Rmult_lt_0_compat; lra).
  set (arr1 := if Rltb (nth 0 (ls b h m) 0) smin then ls (smin * q) q m else ls b h m) in *.
  change (out = if Rltb smax (nth (Z.to_nat (m - 1)) arr1 0) then ls (smax / q) q m else arr1) in H.
  assert (K : forall y, In y arr1 -> smin <= y <= nth (Z.to_nat (m - 1)) arr1 0).
  { intros y Hy. unfold arr1 in *. destruct (Rltb_cases (nth 0 (ls b h m) 0) smin) as [[E L]|[E L]]; rewrite E in *.
    - rewrite ls_last by assumption. apply ls_range in Hy; auto.
      replace (smin * q / q) with smin in Hy by (field; exact Hq0). exact Hy.
    - rewrite ls_first in L by auto. rewrite ls_last by auto. apply ls_range in Hy; auto. lra. }
  destruct (Rltb_cases smax (nth (Z.to_nat (m - 1)) arr1 0)) as [[E L]|[E L]]; rewrite E in H; subst out.
  - apply ls_range in Hx; auto; [|apply Rdiv_lt_0_compat; lra].
    replace (smax / q * q) with smax in Hx by (field; exact Hq0).
    replace (smax / q / q) with (smax / J) in Hx by (rewrite <- Hq; field; exact Hq0).
    assert (smin <= smax / J). { apply Rmult_le_reg_r with J; [lra|]. unfold Rdiv. rewrite Rmult_assoc, Rinv_l by lra. lra. }
    lra.
  - specialize (K x Hx). lra.
Qed.
End Bounce.

(** without sigma_min * jumpin <= sigma_max: a width inside the range has a candidate below sigma_min *)
Lemma bounce_outside : forall (C : Cfg RArith) (U : User RArith) m b h, (2 <= m)%Z -> 0 < smin U 0 -> smin U 0 <= smax U 0 ->
  1 <= sigma_jumpin_ratio C -> smax U 0 < smin U 0 * sigma_jumpin_ratio C ->
  smin U 0 <= b <= smax U 0 -> 1 <= h -> b / h < smin U 0 ->
  forall out, check_bounce C U m (ls b h m) 0 = OK out -> nth 0 out 0 < smin U 0.
Proof.
  intros C U m b h Hm H1 H2 HJ H3 Hb Hh H4 out H. apply bounce_cases in H. cbv zeta in H.
  set (J := (sigma_jumpin_ratio C : R)) in *. set (q := sqrt J) in *.
  assert (Hq : q * q = J) by (apply sqrt_sqrt; lra).
  assert (Hq1 : 1 <= q). { unfold q. rewrite <- sqrt_1. apply sqrt_le_1; lra. }
  assert (Hq0 : q <> 0) by lra. assert (HJ0 : J <> 0) by lra.
  assert (Hsq : 0 < smin U 0 * q) by (apply Rmult_lt_0_compat; lra).
  rewrite ls_first in H by (auto; lra).
  destruct (Rltb_cases (b / h) (smin U 0)) as [[E L]|[E L]]; [|lra]. rewrite E in H.
  rewrite ls_last in H by assumption.
  destruct (Rltb_cases (smax U 0) (smin U 0 * q * q)) as [[E2 L2]|[E2 L2]]; [|rewrite Rmult_assoc, Hq in L2; lra].
  rewrite E2 in H. subst out. rewrite ls_first by (auto; apply Rdiv_lt_0_compat; lra).
  replace (smax U 0 / q / q) with (smax U 0 / J) by (rewrite <- Hq; field; exact Hq0).
  apply Rmult_lt_reg_r with J; [lra|]. unfold Rdiv. rewrite Rmult_assoc, Rinv_l by lra. lra.
Qed.

(** ** Along a run *)
Section Run.
Variable S : Setup RArith.
Hypothesis HL : Legal S.
Notation C := (s_cfg S). Notation U := (s_user S). Notation n := (s_n S).

(** every width of the row is between sigma_min and sigma_max of its parameter *)
Definition in_range (row : list R) : Prop :=
  forall p, (0 <= p < N_parm C)%Z -> smin U p <= nth (Z.to_nat p) row 0 <= smax U p.

Hypothesis Hpos : forall p, (0 <= p < N_parm C)%Z -> 0 < smin U p.
Hypothesis HJ : 1 <= sigma_jumpin_ratio C.
Hypothesis Hh : 1 <= sigma_scale_half_ratio C.
Hypothesis Hrel : forall p, (0 <= p < N_parm C)%Z -> smin U p * sigma_jumpin_ratio C <= smax U p.
Hypothesis Hgp : in_range (u_gp U).

Lemma candidates_range : forall row al, in_range row -> candidates C U n row al ->
  forall p j, (0 <= p < N_parm C)%Z -> (0 <= j < Z.of_nat n)%Z -> smin U p <= cell (A := RArith) al p j <= smax U p.
Proof.
  intros row al HR [_ HC] p j Hp Hj. destruct (HC p Hp) as [L1 HB]. pose proof HL as [_ [VC _]]. pose proof (vc_n _ _ VC) as Hn.
  apply (bounce_range C U (zn n) p ltac:(unfold zn; lia) (Hpos p Hp) HJ (Hrel p Hp) _ _ _ (Rlt_le_trans _ _ _ (Hpos p Hp) (proj1 (HR p Hp))) Hh HB).
  unfold cell. apply nth_In. lia.
Qed.

Lemma rates_ok_R : rates_ok C (fun _ : num RArith => True).
Proof. split; auto. Qed.

Lemma post_range : forall D G0 h Gf, history S D G0 h Gf -> forall s, In s h ->
  (forall r, (r < n)%nat -> in_range (sigt_at (sr_in s) r)) -> forall r, (r < n)%nat -> in_range (sigt_at (sr_post s) r).
Proof.
  intros D G0 h Gf HH s Hs HI r Hr. destruct (stack_tuned S HL D _ _ _ HH s Hs r Hr) as [K1 K2].
  pose proof HL as [_ [VC _]].
  assert (Dec : tuned_in S s r \/ ~ tuned_in S s r).
  { unfold tuned_in. destruct (nltb (ar_ok_lower C) (rate_of s r)), (nltb (rate_of s r) (ar_ok_upper C)).
    1: right; intros [_ [_ [_ T]]]; auto.
    all: destruct (Z_lt_dec (N_begintune C) (sr_end s)), (Z_lt_dec (sr_end s) (N_stoptune C)), (Z_lt_dec (sr_end s) (N_iter C));
      try (right; intros [? [? [? ?]]]; contradiction); left; repeat split; auto; intros [? ?]; discriminate. }
  destruct Dec as [T|T].
  - destruct (K2 T _ comparable_R rates_ok_R) as [al [ars [HC [_ HO]]]].
    pose proof (candidates_range _ _ (HI r Hr) HC) as CR.
    destruct HO as [[p [j [Hp [Hj [-> _]]]]]|[_ [->|[_ HO]]]].
    + intros q Hq. destruct (Z.eq_dec q p) as [->|Hne].
      * assert (Lrow : length (sigt_at (sr_in s) r) = Z.to_nat (N_parm C)).
        { destruct (history_count S HL _ _ _ _ HH) as [_ [F _]]. rewrite Forall_forall in F.
          destruct (F s Hs) as [_ [_ [_ [_ [Wi _]]]]]. pose proof (wf_sigrow _ _ _ Wi (sigt_at (sr_in s) r)) as Q.
          unfold haslen in Q. unfold sigt_at in *. rewrite <- Q, Nat2Z.id; auto. apply nth_In. rewrite (wf_sigt _ _ _ Wi). auto. }
        change (num RArith) with R in *.
        rewrite nth_lset_eq by (rewrite Lrow; lia). apply CR; auto.
      * change (num RArith) with R in *. rewrite nth_lset_ne by lia. apply HI; auto.
    + exact Hgp.
    + intros q Hq. destruct (HO q Hq) as [j [Hj [E _]]]. change (num RArith) with R in *. cbn [nof RArith] in E. rewrite E. apply CR; auto.
  - rewrite (K1 T). apply HI; auto.
Qed.

(** in every state of the run every row of the table is in range, and so are the widths used in every stack *)
Lemma run_range : forall D G0 h Gf, history S D G0 h Gf ->
  (forall G, In G (states G0 h Gf) -> forall r, (r < n)%nat -> in_range (sigt_at G r)) /\
  (forall s, In s h -> forall b, In b (sr_batches s) -> forall r, (r < n)%nat -> in_range (l_sig (loc_at (br_pre b) r))).
Proof.
  intros D G0 h Gf HH.
  pose proof (history_count S HL _ _ _ _ HH) as HC. destruct HC as [_ [_ [HF _]]].
  assert (H0 : forall r, (r < n)%nat -> in_range (sigt_at G0 r)).
  { destruct HH as [_ [[lg HI] _]]. destruct (init_view S HL _ _ _ HI) as [_ [V _]]. intros r Hr.
    destruct (V r Hr) as [_ [_ [_ [-> _]]]]. exact Hgp. }
  assert (K : forall l i G, (forall s, In s l -> In s h) -> sfollow i G l Gf -> (forall r, (r < n)%nat -> in_range (sigt_at G r)) ->
     (forall s, In s l -> forall r, (r < n)%nat -> in_range (sigt_at (sr_in s) r)) /\ (forall r, (r < n)%nat -> in_range (sigt_at Gf r))).
  { induction l as [|s l IH]; intros i G Hin HS HG; cbn [sfollow] in HS.
    - subst Gf. split; auto. intros s [].
    - destruct HS as [_ [E HS]]. subst G. destruct (IH _ _ (fun x Hx => Hin x (or_intror Hx)) HS) as [K1 K2].
      + eapply post_range; eauto. apply Hin. left. reflexivity.
      + split; auto. intros t [<-|Ht]; auto. }
  destruct (K h _ _ (fun s Hs => Hs) HF H0) as [K1 K2].
  assert (KS : forall s, In s h -> forall G, In G (sstates s) -> forall r, (r < n)%nat -> in_range (sigt_at G r)).
  { intros s Hs G HG r Hr. unfold sstates in HG. cbn [In] in HG.
    assert (Z1 : (G = sr_pre s \/ In G (concat (map bstates (sr_batches s))) \/ G = sr_mid s \/ G = sr_lad s) -> in_range (sigt_at G r)).
    { intros HZ. destruct (stack_widths S HL D _ _ _ HH s Hs G HZ) as [E _]. unfold sigt_at. rewrite E. apply K1; auto. }
    destruct HG as [<-|[<-|HG]]; [apply K1; auto|apply Z1; auto|].
    apply in_app_or in HG. destruct HG as [HG|[<-|[<-|[<-|[]]]]]; try (apply Z1; auto; fail).
    eapply post_range; eauto. }
  split.
  - intros G HG r Hr. unfold states in HG. cbn [In] in HG. destruct HG as [<-|HG]; auto.
    apply in_app_or in HG. destruct HG as [HG|[<-|[]]]; auto.
    apply in_concat in HG. destruct HG as [l [Hl HG]]. apply in_map_iff in Hl. destruct Hl as [s [<- Hs]]. eapply KS; eauto.
  - intros s Hs b Hb r Hr.
    assert (Hin : In (br_pre b) (concat (map bstates (sr_batches s)))).
    { apply in_concat. exists (bstates b). split; [apply in_map; auto|left; auto]. }
    destruct (stack_widths S HL D _ _ _ HH s Hs (br_pre b) (or_intror (or_introl Hin))) as [_ W]. rewrite (W r Hr). apply K1; auto.
Qed.
End Run.
