(** The history of a run: which stacks and batches it consists of, and the states in between.
    A relational reading of [seq_main]; every execution of the MPI program writes the files of
    the history of the reference ([Runs.legal_files]). *)
From Coq Require Import ZArith Arith List Bool Lia.
From Verif Require Import Base Arith Rand Mh Ladder Tune Mpi Prog Seq ListAux MhSpec SeqWf SeqTotal.
Import ListNotations.
Open Scope Z_scope.

Section History.
Context {A : Arith}.
Notation row := (list (num A)).
Notation gst := (gst (A := A)).
Notation glog := (glog (A := A)).

(** one batch: Metropolis iterations in every rank, then the swap attempts *)
Record brec : Type := mkBrec {
  br_from : Z;          (* iterations of the stack done before *)
  br_len : Z;           (* n_iter_a_batch *)
  br_pre : gst;         (* when the iterations start *)
  br_mid : gst;         (* when the iterations are done *)
  br_post : gst;        (* when the swaps are done *)
  br_rows : glog        (* rows written *)
}.

(** one stack *)
Record srec : Type := mkSrec {
  sr_from : Z;          (* iterations of the run done before *)
  sr_len : Z;           (* n_iter_a_stack *)
  sr_in : gst;          (* when the stack begins *)
  sr_pre : gst;         (* when the widths have been distributed *)
  sr_batches : list brec;
  sr_mid : gst;         (* after the last batch *)
  sr_nsw : row;         (* number of swaps per position, in this stack *)
  sr_npr : row;         (* number of swap attempts per position, in this stack *)
  sr_lad : gst;         (* after the ladder adaptation *)
  sr_post : gst         (* after the width tuning: the next stack begins *)
}.

Definition sr_end (s : srec) : Z := sr_from s + sr_len s.

Variable C : Cfg A.
Variable U : User A.
Variable n : nat.
Variable E : Env (A := A).
Variable D : Data A.

Inductive bruns (len : Z) : Z -> gst -> Z -> row -> row -> list brec -> gst -> row -> row -> Prop :=
| bruns_nil : forall i G isw nsw npr, len <= i -> bruns len i G isw nsw npr [] G nsw npr
| bruns_cons : forall i G isw nsw npr l0 nx nb g G1 G2 lg G3 isw' nsw' npr' bl G4 nsw2 npr2,
    i < len -> getloc G root = OK l0 -> next_batch C len i (l_g l0) = OK (nx, nb, g) ->
    with_g0 G g = OK G1 -> seq_batch C U n D G1 nb = OK (G2, lg) ->
    foldM (zseq (N_swap C)) (seq_round C U n D) (G2, isw, nsw, npr) = OK (G3, isw', nsw', npr') ->
    bruns len nx G3 isw' nsw' npr' bl G4 nsw2 npr2 ->
    bruns len i G isw nsw npr (mkBrec i nb G1 G2 G3 lg :: bl) G4 nsw2 npr2.

Definition cnt0 : row := if 0 <? Tune_Ladder C then repeat (nof 0) n else [].

(** the ladder is adapted after a stack *)
Definition adapts (G : gst) : bool :=
  (u2i (l_it (nth 0 (g_locs G) dloc)) <? N_stopTuneLadder C) && (0 <? Tune_Ladder C).
(** the widths are tuned after a stack that ends at nx *)
Definition tunes (nx : Z) : bool := (N_begintune C <? nx) && (nx <? N_stoptune C) && (nx <? N_iter C).

Definition rates (G1 G2 : gst) (len : Z) : row :=
  map2 (fun l l' => stack_rate l l' len) (g_locs G1) (g_locs G2).

Inductive sruns : Z -> Z -> gst -> list srec -> gst -> Prop :=
| sruns_nil : forall i len G, N_iter C <= i -> sruns i len G [] G
| sruns_cons : forall i len nx0 len' nx G bl G1 nsw npr G2 G3 hl G4,
    i < N_iter C -> i32 (i + len) = OK nx0 ->
    len' = (if N_iter C <? nx0 then N_iter C - i else len) ->
    nx = (if N_iter C <? nx0 then N_iter C else nx0) ->
    bruns len' 0 (seq_distribute G (sigt (g_ro G))) 0 cnt0 cnt0 bl G1 nsw npr ->
    (if adapts G1 then seq_ladder C n G1 nsw npr else OK G1) = OK G2 ->
    (if tunes nx then
       seq_tune_all C U n D
         (map (tune_flag C) (rates (seq_distribute G (sigt (g_ro G))) G2 len')) G2
     else OK G2) = OK G3 ->
    sruns nx len' G3 hl G4 ->
    sruns i len G
      (mkSrec i len' G (seq_distribute G (sigt (g_ro G))) bl G1 nsw npr G2 G3 :: hl) G4.

(** records written during a stack *)
Definition stack_log (s : srec) : glog :=
  map2 (fun r l => (r, EvSigma r (l_sig l))) (ranks n) (g_locs (sr_pre s)) ++
  (root, EvBeta (l_beta (nth 0 (g_locs (sr_pre s)) dloc))) :: concat (map br_rows (sr_batches s)).

Lemma stack_loop_bruns : forall len fuel i G isw nsw npr G' nsw' npr' lg,
  seq_stack_loop C U n D len fuel G i i isw nsw npr = OK (G', nsw', npr', lg) ->
  exists bl, bruns len i G isw nsw npr bl G' nsw' npr' /\ lg = concat (map br_rows bl).
Proof.
  induction fuel as [|fuel IH]; intros i G isw nsw npr G' nsw' npr' lg H; cbn [seq_stack_loop] in H;
    destruct (Z.ltb_spec i len); rinv.
  - exists []. split; [constructor; auto|auto].
  - destruct (IH _ _ _ _ _ _ _ _ _ E5) as [bl [Hb ->]].
    eexists. split; [econstructor; eauto|reflexivity].
  - exists []. split; [constructor; auto|auto].
Qed.

Lemma map2_map : forall {X Y Z W} (f : Z -> W) (g : X -> Y -> Z) a b,
  map f (map2 g a b) = map2 (fun x y => f (g x y)) a b.
Proof. induction a; intros [|y b]; simpl; auto. f_equal; auto. Qed.

Lemma getloc_nth : forall (G : gst) r l, getloc G r = OK l -> l = nth r (g_locs G) dloc.
Proof.
  intros G r l H. unfold getloc, zr in H. apply zget_ok_inv in H. destruct H as [_ H].
  rewrite Nat2Z.id in H. symmetry. apply nth_error_nth with (d := dloc) in H. auto.
Qed.

Lemma flow_loop_sruns : forall fuel i len G G' lg,
  seq_flow_loop C U n D fuel G len i i = OK (G', lg) ->
  exists h, sruns i len G h G' /\ lg = concat (map stack_log h).
Proof.
  induction fuel as [|fuel IH]; intros i len G G' lg H; cbn [seq_flow_loop] in H;
    destruct (Z.ltb_spec i (N_iter C)); rinv; try (exists []; split; [constructor; auto|reflexivity]).
  match goal with H : seq_stack _ _ _ _ _ _ = _ |- _ => rename H into HS; unfold seq_stack in HS end. rinv.
  match goal with H : seq_stack_loop _ _ _ _ _ _ _ _ _ _ _ _ = _ |- _ =>
    apply stack_loop_bruns in H; destruct H as [bl [Hb ->]] end.
  match goal with H : seq_flow_loop _ _ _ _ _ _ _ _ _ = _ |- _ => apply IH in H; destruct H as [h [Hh ->]] end.
  match goal with H : getloc (seq_distribute _ _) root = _ |- _ => apply getloc_nth in H; subst end.
  match goal with H : getloc _ root = _ |- _ => apply getloc_nth in H; subst end.
  eexists. split.
  - eapply sruns_cons; [exact H0|exact E0|reflexivity|reflexivity|exact Hb| | |exact Hh].
    + unfold adapts. match goal with H : (if _ then seq_ladder _ _ _ _ _ else _) = _ |- _ => exact H end.
    + unfold tunes, rates. rewrite map2_map. match goal with H : (if _ then seq_tune_all _ _ _ _ _ _ else _) = _ |- _ => exact H end.
  - cbn [map concat]. rewrite app_assoc. reflexivity.
Qed.

(** ** Invariants along a history *)
Hypothesis RK : RandOK A.
Hypothesis VC : ValidCfg C n.
Hypothesis VU : ValidUser C U.
Notation wf := (wf C n).

Section Inv.
Variable P : gst -> Prop.
Hypothesis P_g0 : forall G g G', wf G -> P G -> with_g0 G g = OK G' -> P G'.
Hypothesis P_batch : forall G nb G' lg, wf G -> P G -> seq_batch C U n D G nb = OK (G', lg) -> P G'.
Hypothesis P_swap : forall G i G' d, wf G -> P G -> 0 <= i < zn n - 1 -> seq_swap C U n D G i = OK (G', d) -> P G'.
Hypothesis P_dist : forall G, wf G -> P G -> P (seq_distribute G (sigt (g_ro G))).
Hypothesis P_ladder : forall G nsw npr G', wf G -> P G -> adapts G = true ->
  seq_ladder C n G nsw npr = OK G' -> P G'.
Hypothesis P_tune : forall G rk G', wf G -> P G -> 0 <= rk < zn n -> seq_tune_irank C U n D G rk = OK G' -> P G'.

Let UO := vu_ok C U VU.
Let Hn := vc_n C n VC.
Definition Q (G : gst) : Prop := wf G /\ P G.

Lemma Q_g0 : forall G g G', Q G -> with_g0 G g = OK G' -> Q G'.
Proof. intros G g G' [W H] HG. split; [eapply with_g0_wf; eauto|eauto]. Qed.
Lemma Q_batch : forall G nb G' lg, Q G -> seq_batch C U n D G nb = OK (G', lg) -> Q G'.
Proof. intros G g G' lg [W H] HG. split; [eapply seq_batch_wf; eauto|eauto]. Qed.

Lemma draw_range : forall a g i g', 0 < a <= INT_MAX -> i4_unif_0a (A := A) a g = OK (i, g') -> 0 <= i < a /\ g' = lcg g.
Proof. intros a g i g' Ha H. destruct (rk_0a A RK a g Ha) as [v [Hv Hr]]. rewrite Hv in H. injection H; intros; subst; auto. Qed.

Lemma nminus_range : 0 < zn n - 1 <= INT_MAX.
Proof. pose proof (vc_nmax C n VC). unfold zn. lia. Qed.

Lemma Q_round : forall k G isw nsw npr G' i' nsw' npr', Q G ->
  seq_round C U n D k (G, isw, nsw, npr) = OK (G', i', nsw', npr') -> Q G'.
Proof.
  intros k G isw nsw npr G' i' nsw' npr' HQ H. pose proof HQ as [W _].
  pose proof (seq_round_wf C U n Hn D _ _ _ _ _ _ _ _ _ W H) as W'. split; auto.
  unfold seq_round in H. rinv.
  match goal with H : i4_unif_0a _ _ = _ |- _ => apply (draw_range _ _ _ _ nminus_range) in H; destruct H as [Hi _] end.
  match goal with H : with_g0 _ _ = _ |- _ => apply (Q_g0 _ _ _ HQ) in H; destruct H as [W1 P1] end.
  match goal with H : seq_swap _ _ _ _ _ _ = _ |- _ => apply (P_swap _ _ _ _ W1 P1 Hi) in H end.
  destruct (0 <? Tune_Ladder C); rinv; auto.
Qed.

Lemma Q_rounds : forall l G isw nsw npr G' i' nsw' npr', Q G ->
  foldM l (seq_round C U n D) (G, isw, nsw, npr) = OK (G', i', nsw', npr') -> Q G'.
Proof.
  induction l as [|k l IH]; intros G isw nsw npr G' i' nsw' npr' HQ H; cbn [foldM] in H; rinv; auto.
  eapply IH; [|eassumption]. eapply Q_round; eauto.
Qed.

Definition ball (b : brec) : Prop := Q (br_pre b) /\ Q (br_mid b) /\ Q (br_post b).
Definition sall (s : srec) : Prop :=
  Q (sr_in s) /\ Q (sr_pre s) /\ Forall ball (sr_batches s) /\ Q (sr_mid s) /\ Q (sr_lad s) /\ Q (sr_post s).

Lemma bruns_all : forall len i G isw nsw npr bl G' nsw' npr',
  bruns len i G isw nsw npr bl G' nsw' npr' -> Q G -> Forall ball bl /\ Q G'.
Proof.
  induction 1; intros HQ; auto.
  pose proof (Q_g0 _ _ _ HQ H2) as Q1. pose proof (Q_batch _ _ _ _ Q1 H3) as Q2.
  pose proof (Q_rounds _ _ _ _ _ _ _ _ _ Q2 H4) as Q3. destruct (IHbruns Q3). split; auto.
  constructor; auto. repeat split; cbn; try apply Q1; try apply Q2; apply Q3.
Qed.

Lemma Q_dist : forall G, Q G -> Q (seq_distribute G (sigt (g_ro G))).
Proof.
  intros G [W H]. split; auto. apply seq_distribute_wf; auto;
    [apply (wf_sigt _ _ _ W)|apply (wf_sigrow _ _ _ W)].
Qed.

Lemma Q_tune_all : forall flags G G', Q G -> seq_tune_all C U n D flags G = OK G' -> Q G'.
Proof.
  intros flags G G'. unfold seq_tune_all.
  assert (Hin : forall r, In r (zseq (zn n)) -> 0 <= r < zn n) by (intro r; apply (in_zseq C n VC)).
  revert G. induction (zseq (zn n)) as [|r l IH]; intros G HQ H; cbn [foldM] in H; rinv; auto.
  eapply IH; [intros; apply Hin; right; auto| |eassumption].
  match goal with H : (if ?b then _ else _) = OK ?v |- Q ?v => destruct b; rinv; auto end.
  match goal with H : seq_tune_irank _ _ _ _ _ _ = _ |- _ => rename H into HT end.
  destruct HQ as [W H2]. split; [eapply seq_tune_irank_wf; eauto|eapply P_tune; eauto].
  apply Hin; left; auto.
Qed.

Lemma sruns_all : forall i len G h G', sruns i len G h G' -> Q G -> Forall sall h /\ Q G'.
Proof.
  induction 1; intros HQ; auto.
  pose proof (Q_dist _ HQ) as Qd. destruct (bruns_all _ _ _ _ _ _ _ _ _ _ H3 Qd) as [HB Q1].
  assert (Q2 : Q G2).
  { destruct (adapts G1) eqn:Ea; rinv; auto. destruct Q1 as [W1 P1]. split; [eapply seq_ladder_wf; eauto|eauto]. }
  assert (Q3 : Q G3).
  { destruct (tunes nx); rinv; auto. eapply Q_tune_all; eauto. }
  destruct (IHsruns Q3). split; auto. constructor; auto.
  unfold sall. cbn. auto 10.
Qed.
End Inv.
End History.
