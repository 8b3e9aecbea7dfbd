(** In binary64 the distances of the acceptance rates from ar_best are never NaN. *)
From Coq Require Import ZArith Reals Lra Lia List Bool.
From Flocq Require Import Core IEEE754.BinarySingleNaN.
From Verif Require Import Base Arith B64 B64Facts Mh Tune TuneOpt TuneSteps.
Open Scope R_scope.

Lemma bminus_nan : forall x y : b64, is_finite x = true -> is_nan y = false -> is_nan (Bminus mode_NE x y) = false.
Proof.
  intros x y Fx Ny. destruct (is_finite y) eqn:Fy.
  - pose proof (Bminus_correct prec emax _ _ mode_NE x y Fx Fy) as P. cbv zeta in P.
    destruct (Rlt_bool _ _) in P.
    + destruct P as [_ [F _]]. destruct (Bminus mode_NE x y); auto; discriminate.
    + destruct P as [E _]. destruct (Bminus mode_NE x y); auto. cbn in E. destruct (Bsign x); discriminate E.
  - destruct y as [sy|sy| |sy m e He]; try discriminate. destruct x as [sx|sx| |sx mx ex Hx]; try discriminate; reflexivity.
Qed.

Lemma rates_ok_B64 : forall L (C : Cfg (B64 L)), (1 <= n_iter_in_tune C <= INT_MAX)%Z ->
  is_nan (ar_best C : b64) = false -> is_nan (ar_accept_diff C : b64) = false ->
  rates_ok C (fun x : num (B64 L) => is_nan (x : b64) = false).
Proof.
  intros L C Hm Hb Hd. split; [exact Hd|]. intros a Ha. cbn [nabs nsub ndiv nof B64].
  rewrite is_nan_Babs. apply bminus_nan; [|exact Hb].
  unfold INT_MAX in Hm. set (m := n_iter_in_tune C) in *.
  assert (B53 : (2147483647 <= 2 ^ 53)%Z) by (cbv; discriminate).
  destruct (bof_ok a) as [Va Fa]; [lia|]. destruct (bof_ok m) as [Vm Fm]; [lia|].
  assert (Pm : 0 < IZR m) by (apply IZR_lt; lia).
  apply bdiv_ok; auto; [rewrite Vm; lra|]. rewrite Va, Vm.
  assert (Q : 0 <= IZR a / IZR m <= 1).
  { split.
    - apply Rmult_le_pos; [apply IZR_le; lia|]. left. apply Rinv_0_lt_compat; auto.
    - apply Rmult_le_reg_r with (IZR m); auto. unfold Rdiv. rewrite Rmult_assoc, Rinv_l, Rmult_1_r, Rmult_1_l by lra. apply IZR_le; lia. }
  assert (0 <= rnd (IZR a / IZR m)) by (rewrite <- rnd_0; apply rnd_le; lra).
  assert (rnd (IZR a / IZR m) <= 1) by (apply rnd_le_fmt; [apply (fmt_IZR 1); cbv; discriminate|lra]).
  rewrite Rabs_pos_eq by auto. apply Rle_lt_trans with 1; auto. change 1 with (bpow radix2 0). apply bpow_lt. reflexivity.
Qed.
