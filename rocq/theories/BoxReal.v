(** Rows inside the prior box along whole runs, over the exact reals. *)
From Coq Require Import ZArith Arith List Bool Reals Lia Lra.
From Verif Require Import Base Arith Rand Mh Ladder Tune Mpi MpiMeta Spmd Prog Seq ListAux MhSpec SeqWf Refine
  SeqTotal System RandRange Seeds UserModels Boundary Demo Runs SeqFiles History Views RunHist HistCount HistRows
  SwapLemmas ChainInv.
Import ListNotations.
Open Scope Z_scope.

Definition inbox_R (box : list (R * R)) (x : list R) : Prop := Forall2 (fun v p => (fst p <= v <= snd p)%R) x box.

Lemma bound_R : forall (box : list (R * R)) x, List.Forall (fun p => (fst p <= snd p)%R) box -> length x = length box ->
  inbox_R box (para_boundary (A := RArith) box x).
Proof.
  induction box as [|[lo hi] box IH]; intros [|v x] HB HX; cbn in HX; try discriminate; [constructor|].
  cbn [para_boundary]. pose proof (Forall_inv HB) as H1. cbn [fst snd] in H1. constructor.
  - cbn [fst snd]. rewrite Rbounce_eq by exact H1. unfold Rmax, Rmin.
    destruct (Rlt_dec hi v); [destruct (Rle_dec (2 * hi - v) lo); lra|].
    destruct (Rlt_dec v lo); [destruct (Rle_dec (2 * lo - v) hi); lra|]. lra.
  - apply IH; [exact (Forall_inv_tail HB)|exact (eq_add_S _ _ HX)].
Qed.

(** a uniform or log-uniform draw *)
Definition drawok (d : draw (A := RArith)) (p : R * R) : Prop :=
  match d with DUnif => (fst p < snd p)%R | DLogUnif => (0 < fst p < snd p)%R | DNormal _ _ => False end.

Lemma unif_R : forall lo hi g, (lo < hi)%R -> (lo <= fst (r8_unif_ab (A := RArith) lo hi g) <= hi)%R.
Proof.
  intros lo hi g H. unfold r8_unif_ab. rewrite (surjective_pairing (drand48 (A := RArith) g)), drand48_R.
  cbn [fst nadd nmul nsub RArith]. pose proof (unit_range_lt g) as U. set (u := (IZR (lcg g) / IZR RMOD)%R) in *.
  split; nra.
Qed.

Lemma init_R : forall ds box g, Forall2 drawok ds box -> inbox_R box (fst (init_draws (A := RArith) ds box g)).
Proof.
  induction ds as [|d ds IH]; intros box g H; inversion H as [|d' p ds' box' Hd Hr]; subst; cbn [init_draws]; [constructor|].
  destruct p as [lo hi].
  match goal with |- context [let (_, _) := ?e in _] => rewrite (surjective_pairing e) end.
  match goal with |- context [init_draws ds box' ?e] => rewrite (surjective_pairing (init_draws (A := RArith) ds box' e)) end.
  cbn [fst]. constructor; [|apply IH; exact Hr]. cbn [fst snd]. destruct d as [| |m sd]; cbn [drawok fst snd] in Hd.
  - apply unif_R. exact Hd.
  - pose proof (r8_logunif_R lo hi g Hd) as K. cbv zeta in K. lra.
  - contradiction.
Qed.

Section BoxR.
Variable S : Setup RArith.
Hypothesis HL : Legal S.
Variable D : Data RArith.
Variable box : list (R * R).
Hypothesis HBd : u_bound (s_user S) = para_boundary (A := RArith) box.
Hypothesis HBl : Z.of_nat (length box) = N_parm (s_cfg S).
Hypothesis HBx : List.Forall (fun p => (fst p <= snd p)%R) box.
Hypothesis HInit : forall r, (r < s_n S)%nat -> inbox_R box (fst (u_init (s_user S) (seed_of (s_cfg S) (s_n S) (s_env S) r))).

Lemma boxR_inv : ChainInv S D (fun _ x _ _ => inbox_R box x).
Proof.
  constructor; [constructor| |].
  - intros r sigma b s _ Hs Hx H.
    destruct (mhstep_cases (s_user S) D sigma b s) as [[Hok ->]|[_ ->]]; cbn [ms_x]; auto.
    set (new0 := fst (prop_list (ms_x s) sigma (ms_g s))) in *.
    assert (Ln : length new0 = length box).
    { unfold new0. unfold haslen in *. rewrite prop_list_length by lia. lia. }
    rewrite HBd. apply bound_R; [exact HBx|exact Ln].
  - intros i j xi li bi xj lj bj g _ _ Hi Hj _ _. split; auto.
  - intros r Hr. apply HInit. exact Hr.
  - intros _ r x lp b b' _ H. exact H.
Qed.

Lemma boxR_rows : forall k tr X, execution S k tr X -> dataset S D -> forall r, (r < s_n S)%nat ->
  forall ev, In ev (file (FChain r) tr) -> exists q, ev = EvRow r q /\ inbox_R box (r_parm q).
Proof.
  intros k tr X HE HD r Hr ev He.
  destruct (rows_hold S HL D (fun _ x _ _ => inbox_R box x) boxR_inv k tr X HE HD r Hr ev He) as [q [b [E P]]]. exists q. auto.
Qed.
End BoxR.
