(** Vocabulary of the theorems about whole runs. *)
From Coq Require Import ZArith Arith List Bool Lia Permutation.
From Verif Require Import Base Arith B64 Rand Mh Mpi MpiMeta Spmd Prog Seq MhSpec SeqWf Refine SeqTotal System
  RandRange Demo.
Import ListNotations.
Open Scope Z_scope.

(** What a run depends on: configuration, user model, number of ranks, data file and clock,
    ndim_data. *)
Record Setup (A : Arith) : Type := mkSetup {
  s_cfg : Cfg A; s_user : User A; s_n : nat; s_env : Env (A := A); s_ndim : Z }.
Arguments s_cfg {A}. Arguments s_user {A}. Arguments s_n {A}. Arguments s_env {A}. Arguments s_ndim {A}.
Arguments mkSetup {A}.

(** The stated limits: see RandOK, ValidCfg, ValidUser and ValidEnv in SeqTotal.v. *)
Definition Legal {A} (S : Setup A) : Prop :=
  RandOK A /\ ValidCfg (s_cfg S) (s_n S) /\ ValidUser (s_cfg S) (s_user S) /\ ValidEnv (s_env S) (s_ndim S).

Definition state (A : Arith) : Type := cfg (msg A) (event A) (st (A := A)).

(** every rank at the beginning of main, no message in flight, nothing written *)
Definition initial {A} (S : Setup A) : state A := start (s_cfg S) (s_user S) (s_n S) (s_env S) (s_ndim S).

(** [execution S k tr X]: some schedule takes the initial state in k steps to X, and the appends
    it made, in global order, are tr.  The schedule chooses the rank that moves, and for every send
    and broadcast whether the implementation buffers it. *)
Definition execution {A} (S : Setup A) (k : nat) (tr : list (nat * event A)) (X : state A) : Prop :=
  mrun (s_n S) (initial S) k tr X.

(** every rank has returned from main *)
Definition complete {A} (S : Setup A) (X : state A) : Prop := finished _ _ _ (s_n S) X.

(** some rank can do something without needing buffer space *)
Definition can_step {A} (S : Setup A) (X : state A) : Prop := exists X', ustep _ _ _ (s_n S) X X'.

(** the reference: the same program as a sequential function *)
Definition reference {A} (S : Setup A) : res (gst (A := A) * list (nat * event A)) :=
  seq_main (s_cfg S) (s_user S) (s_n S) (s_env S) (s_ndim S).

Section R.
Context {A : Arith}.
Variable S : Setup A.
Hypothesis HL : Legal S.

Lemma reference_ok : exists G t, reference S = OK (G, t).
Proof.
  destruct HL as [RK [VC [VU VE]]].
  destruct (seq_main_total _ _ _ _ RK VC VU _ VE) as [G [t [H _]]]. exists G, t. exact H.
Qed.

Lemma legal_files : forall k tr X, execution S k tr X -> complete S X ->
  forall G t, reference S = OK (G, t) ->
  Permutation tr t /\ forall f, f <> FSeed -> file f tr = file f t.
Proof.
  destruct HL as [RK [VC [VU VE]]]. intros k tr X HE HF G t HR.
  eapply (run_files_finished _ _ _ _ _ RK VC VU VE); eauto.
Qed.

Lemma legal_prefix : forall k tr X, execution S k tr X ->
  forall G t, reference S = OK (G, t) -> forall f, f <> FSeed -> exists rest, file f t = file f tr ++ rest.
Proof.
  destruct HL as [RK [VC [VU VE]]]. intros k tr X HE G t HR.
  eapply (run_files _ _ _ _ _ RK VC VU VE); eauto.
Qed.

Lemma legal_bound : exists N, forall k tr X, execution S k tr X ->
  (k <= N)%nat /\ (complete S X \/ can_step S X) /\
  (forall r e, (r < s_n S)%nat -> pr X r <> Fail e) /\
  (exists k' tr' Y, mrun (s_n S) X k' tr' Y /\ complete S Y) /\
  (complete S X -> ch X = no_chans _).
Proof.
  destruct HL as [RK [VC [VU VE]]].
  destruct (sys_all _ _ _ _ _ RK VC VU VE) as [G [t [HG [W [N HN]]]]].
  exists N. intros k tr X HE.
  destruct (HN k X (mrun_mstar _ _ _ _ _ HE)) as [H1 [H2 [H3 [H4 [k' H5]]]]].
  split; [auto|]. split; [exact H2|]. split; [exact H3|]. split.
  - destruct (mstar_mrun _ _ _ _ H5) as [tr' Hr]. exists k', tr'. eexists. split; [exact Hr|].
    intros r Hr'. exists (st_of G r). simpl. rewrite (proj2 (Nat.ltb_lt r _) Hr'). auto.
  - intros HF. rewrite (H4 HF). reflexivity.
Qed.
End R.

(** every reachable state has the same completed successor *)
Definition demo : forall L, Setup (B64 L) :=
  fun L => mkSetup (demo_cfg _) (demo_user _) 4 (demo_env _) 2.

Lemma demo_legal : forall L, Legal (demo L).
Proof.
  intros L. split; [apply RandOK_b64|]. split; [apply demo_valid|]. split; [apply demo_user_valid|apply demo_env_valid].
Qed.
Definition demoR : Setup RArith := mkSetup (demo_cfg _) (demo_user _) 4 (demo_env _) 2.
Lemma demoR_legal : Legal demoR.
Proof.
  split; [apply RandOK_R|]. split; [apply demo_valid|]. split; [apply demo_user_valid|apply demo_env_valid].
Qed.
