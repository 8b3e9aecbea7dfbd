(** A run in which the widths leave the range, sigma_max being below sigma_min * jumpin. *)
From Coq Require Import ZArith Reals Lra Lia List Bool Psatz.
From Verif Require Import Base Arith Rand Mh Ladder Tune LadderReal Mpi MpiMeta Spmd Prog Seq ListAux MhSpec SeqWf Refine
  SeqTotal System RandRange Demo Runs SeqFiles History Views RunHist HistCount HistRows ChainInv Stale LadderRuns
  TuneOpt TuneRuns TuneSteps TuneStacks TuneRange.
Import ListNotations.
Open Scope Z_scope.

(** two ranks, stacks of one iteration, tuning after the first, trial chains of one iteration; half ratio 2, jumpin 9 *)
Definition out_cfg : Cfg RArith :=
  mkCfgP RArith 1 2 1 1 0 1 0 0 2 1 0 0 0 7 2%R 1%R 1%R (1 / 10)%R 2%R 9%R (1 / 5)%R (1 / 10)%R [1; 1]%R.
(** a flat posterior; widths start at 1, the range is [1, 2] *)
Definition out_user : User RArith :=
  mkUser RArith (fun _ _ _ _ => 0%R) (fun _ => 0%R) (fun x => x) (fun s => ([0%R], Rand.srand48 s)) [1%R] [1%R] [2%R].
Definition outS : Setup RArith := mkSetup out_cfg out_user 2 (Demo.demo_env RArith) 2.

Lemma out_legal : Legal outS.
Proof.
  split; [apply RandOK_R|]. split; [|split].
  - constructor; cbn; try (vm_compute; intuition discriminate); try lia.
  - constructor; [constructor| |]; try (cbn; lia).
    + intros x Hx. exact Hx.
    + intros s. reflexivity.
    + reflexivity.
  - apply Demo.demo_env_valid.
Qed.

Lemma out_first : forall D G0 h Gf, history outS D G0 h Gf -> exists s t h', h = s :: t :: h' /\ sr_in s = G0 /\ sr_from s = 0 /\ sr_len s = 1 /\
  sr_in t = sr_post s /\ sr_lad s = sr_mid s.
Proof.
  intros D G0 h Gf HH. destruct HH as [_ [_ HR]].
  inversion HR as [? ? ? HN|? ? nx0 len' nx ? bl G1 nsw npr G2 G3 hl G4 Hlt E1 E2 E3 HB HLd HT HR' X1 X2 X3 X4 X5]; [cbn in HN; lia|].
  subst. cbn in E1. injection E1 as <-. cbn [s_cfg outS] in *.
  change (N_iter out_cfg <? 1) with false in *. cbn iota in *.
  inversion HR' as [? ? ? HN|? ? nx0 len2 nx ? bl2 ? ? ? ? ? hl2 G42 Hlt2 F1 F2 F3 HB2 HLd2 HT2 HR2 X1 X2 X3 X4 X5]; [cbn in HN; lia|].
  subst. eexists _, _, _. split; [reflexivity|]. cbn [sr_in sr_from sr_len sr_post sr_lad sr_mid].
  split; [reflexivity|]. split; [reflexivity|]. split; [reflexivity|]. split; [reflexivity|].
  unfold adapts in HLd. change (0 <? Tune_Ladder out_cfg) with false in HLd. rewrite andb_false_r in HLd. injection HLd; auto.
Qed.

Lemma out_trial : forall D x sig beta g, trial_rate out_user D x 0%R sig beta 1 g = 1%R.
Proof.
  intros D x sig beta g. unfold trial_rate. change (Z.to_nat 1) with 1%nat. unfold mhn. cbn [Nat.iter].
  assert (E : ms_acc (mhstep out_user D sig beta (mkMs x 0%R g 0)) = 1).
  { unfold mhstep. unfold logpost_at. cbn [u_logll u_logprior out_user ms_lp ms_g ms_x ms_acc].
    cbn [nlog ndiv nof nltb nadd nsub nmul nexp RArith].
    destruct (Rltb _ _); [reflexivity|]. rewrite drand48_R.
    assert (K : Rltb (IZR (lcg (snd (prop_list (A := RArith) x sig g))) / IZR RMOD) (exp (0 + 0 - 0) * 1) = true).
    { apply Rltb_true. replace (0 + 0 - 0)%R with 0%R by ring. rewrite exp_0.
      assert (0 < IZR RMOD)%R by (apply IZR_lt; reflexivity).
      apply Rmult_lt_reg_r with (IZR RMOD); [assumption|]. unfold Rdiv. rewrite Rmult_assoc, Rinv_l by lra.
      rewrite Rmult_1_r, Rmult_1_l, Rmult_1_l. apply IZR_lt. apply Z.mod_pos_bound. reflexivity. }
    rewrite K. reflexivity. }
  change (ndiv (a := RArith) (nof (ms_acc (mhstep out_user D sig beta (mkMs x 0%R g 0)))) (nof 1) = 1%R). rewrite E. change (1 / 1 = 1)%R. field.
Qed.

Lemma out_run : forall D G0 h Gf, history outS D G0 h Gf -> exists s t, In s h /\ In t h /\ sr_in t = sr_post s /\
  forall r, (r < 2)%nat -> sigt_at (sr_in s) r = [1%R] /\ sigt_at (sr_post s) r = [(2 / 9)%R].
Proof.
  intros D G0 h Gf HH. destruct (out_first _ _ _ _ HH) as [s [t [h' [-> [Ein [Efr [Elen [Et Elad]]]]]]]].
  assert (Hs : In s (s :: t :: h')) by (left; auto). exists s, t. split; auto. split; [right; left; auto|]. split; auto.
  intros r Hr.
  assert (HC : holds outS (cachedP outS D) (sr_mid s)).
  { apply (holds_stack outS out_legal D _ (cached_step outS D) _ _ _ HH s Hs). rewrite Ein.
    intros q Hq. apply (init_pair outS out_legal D _ _ _ HH q Hq). }
  assert (E0 : sigt_at (sr_in s) r = [1%R]).
  { rewrite Ein. destruct HH as [_ [[lg HI] _]]. destruct (init_view outS out_legal _ _ _ HI) as [_ [V _]].
    destruct (V r Hr) as [_ [_ [_ [E _]]]]. exact E. }
  split; auto.
  assert (T : tuned_in outS s r).
  { unfold tuned_in, sr_end. rewrite Efr, Elen. split; [reflexivity|]. split; [reflexivity|]. split; [reflexivity|].
    intros [K1 K2]. change (ar_ok_lower (s_cfg outS)) with 2%R in K1. change (ar_ok_upper (s_cfg outS)) with 1%R in K2.
    cbn [nltb RArith] in *. apply Rltb_true in K1. apply Rltb_true in K2. lra. }
  destruct (stack_tuned outS out_legal D _ _ _ HH s Hs r Hr) as [_ K].
  destruct (K T _ comparable_R (rates_ok_R outS)) as [al [ars [[HCl HCa] [[HTl HTr] HO]]]].
  rewrite E0 in *. 
  assert (Elp : lp_at (sr_lad s) r = 0%R).
  { rewrite Elad. specialize (HC r Hr). unfold cachedP in HC. etransitivity; [exact HC|]. unfold logpost_at.
    cbn [s_user outS out_user u_logll u_logprior nadd RArith]. change (0 + 0 = 0)%R. ring. }
  assert (ED : forall j, 0 <= j < 2 -> dist out_cfg ars 0 j = 0%R).
  { intros j Hj. destruct (HTr 0 ltac:(cbn; lia)) as [_ Q]. destruct (Q j ltac:(exact Hj)) as [g Eg].
    unfold dist. rewrite Eg, Elp. change (n_iter_in_tune (s_cfg outS)) with 1. change (s_user outS) with out_user. rewrite out_trial.
    change (ar_best out_cfg) with 1%R. cbn [nabs nsub RArith]. rewrite Rminus_diag_eq by reflexivity. apply Rabs_R0. }
  assert (N0 : nltb (a := RArith) (dist out_cfg ars 0 0) (ar_accept_diff out_cfg) = true).
  { rewrite ED by lia. cbn [nltb RArith]. apply Rltb_true. change (0 < 1 / 10)%R. lra. }
  destruct HO as [[p [j [Hp [Hj [-> [_ [_ HF]]]]]]]|[HO _]].
  - assert (p = 0) as -> by (cbn in Hp; lia).
    assert (j = 0) as ->.
    { cbn in Hj. destruct (Z.eq_dec j 0); auto. exfalso. specialize (HF 0 ltac:(lia)). change (s_cfg outS) with out_cfg in HF.
      rewrite !ED in HF by lia. cbn [nltb RArith] in HF. apply Rltb_true in HF. lra. }
    cbn [lset Z.to_nat]. change (@cons R ?a nil) with [a]. f_equal.
    destruct (HCa 0 ltac:(cbn; lia)) as [_ HB]. unfold cell. change (Z.to_nat 0) with 0%nat in *.
    apply (bounce_cases out_cfg out_user 2 0) in HB. cbv zeta in HB. change (s_cfg outS) with out_cfg in HB.
    change (sigma_jumpin_ratio out_cfg) with 9%R in HB. change (nth 0 [1%R] (@nof RArith 0)) with 1%R in HB.
    change (sigma_scale_half_ratio out_cfg) with 2%R in HB.
    change (smin out_user 0) with 1%R in HB. change (smax out_user 0) with 2%R in HB.
    replace (sqrt 9) with 3%R in HB by (symmetry; replace 9%R with (3 * 3)%R by ring; apply sqrt_square; lra).
    change (create_logspace_array ?b ?h ?m) with (ls b h 2) in HB.
    rewrite ls_first in HB by (lra || lia). rewrite (proj2 (Rltb_true (1 / 2) 1) ltac:(lra)) in HB.
    rewrite ls_last in HB by (lra || lia). rewrite (proj2 (Rltb_true 2 (1 * 3 * 3)) ltac:(lra)) in HB.
    rewrite HB. etransitivity; [apply ls_first; (lra || lia)|]. change (2 / 3 / 3 = 2 / 9)%R. field.
  - exfalso. specialize (HO 0 0 ltac:(cbn; lia) ltac:(cbn; lia)). change (s_cfg outS) with out_cfg in HO. congruence.
Qed.
