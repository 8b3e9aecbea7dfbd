(** A concrete configuration, used to show that the hypotheses of the theorems are met: the shipped
    models/regression/input.ini with 4 ranks, the regression model, and a data file of two lines. *)
From Coq Require Import ZArith List Bool Lia.
From Verif Require Import Base Arith B64 Rand Mh Ladder Tune Mpi Prog Seq MhSpec SeqWf SeqTotal RandRange UserModels Boundary.
Import ListNotations.
Open Scope Z_scope.

Section Demo.
Context (A : Arith).

(** models/regression/input.ini *)
Definition demo_cfg : Cfg A :=
  mkCfgP A 3 400000 5000 20 5 1 0 300000 400000 1000 1 300000 100000 20
    (nlit 10 2) (nlit 45 2) (nlit 23 2) (nlit 1 1) (nof 20) (nof 300) (nlit 2 1) (nlit 1 1)
    [nlit 1 3; nlit 1 2; nlit 1 1; nof 1].

Definition demo_ra : num A * num A := (nof (-20), nof 20).
Definition demo_rb : num A * num A := (nof (-50), nof 50).
Definition demo_rd : num A * num A := (nlit 1 2, nof 30).
Definition demo_user : User A := reg_user 2 demo_ra demo_rb demo_rd (nlit 1 1) (nlit 5 10) (nlit 2 1).

Definition demo_env : Env (A := A) :=
  mkEnv (OK 2) (fun nl => if nl =? 2 then OK [nof 1; nof 3; nof 2; nof 5] else Stop OutOfBounds) 1700000000.

Lemma demo_valid : ValidCfg demo_cfg 4.
Proof. constructor; cbn; try (vm_compute; intuition discriminate); try lia. Qed.

Lemma init_draws_length : forall ds box g, length ds = length box ->
  length (fst (init_draws (A := A) ds box g)) = length box.
Proof.
  induction ds as [|d ds IH]; intros [|[lo hi] b] g H; simpl in H; try discriminate; auto.
  cbn [init_draws].
  destruct (match d with DUnif => _ | DLogUnif => _ | DNormal m s => _ end) as [v g1].
  specialize (IH b g1 ltac:(lia)). destruct (init_draws ds b g1) as [t g2]. simpl in *. lia.
Qed.

Lemma demo_user_valid : ValidUser demo_cfg demo_user.
Proof.
  constructor; [constructor| |]; try (cbn; lia).
  - intros x Hx. unfold haslen in *. change (u_bound demo_user) with (para_boundary (A := A) [demo_ra; demo_rb; demo_rd]).
    rewrite para_boundary_length. auto.
  - intros s. unfold haslen. unfold demo_user, reg_user. cbn [u_init]. unfold init_parm_set.
    rewrite init_draws_length by reflexivity. reflexivity.
  - reflexivity.
Qed.

Lemma demo_env_valid : ValidEnv demo_env 2.
Proof.
  constructor.
  - exists 2, [nof 1; nof 3; nof 2; nof 5]. split; [reflexivity|]. split; [vm_compute; intuition discriminate|reflexivity].
  - intros nl arr H. cbn in H. destruct (Z.eqb_spec nl 2); inversion H; subst. reflexivity.
Qed.
End Demo.
