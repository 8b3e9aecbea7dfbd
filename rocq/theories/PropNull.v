(** Properties of allocations that fail. *)
From Coq Require Import ZArith List Bool Lia.
From Verif Require Import Heap HeapFacts HeapSpec HeapRank HeapCaps HeapBad PropHeap HeapFail.
Import ListNotations.
Open Scope Z_scope.
Open Scope hcmd.

(** ** C82: what happens when malloc returns NULL.
    [fails p]: the allocation at place p of the path fails.  The allocations of getline are left out: getline reports them by -1,
    which is the subject of C81. *)
Definition a_failure (fails : nat -> bool) (t : list ev) (p : nat) (v : pv) : Prop := exists n1 n2, nth_error t p = Some (Malloc v n1 n2) /\ fails p = true /\ v <> line_buf /\ v <> line.

(** the first failure is one in alloc.c: the rank says so and ends, having done what a path without failures does up to there *)
Theorem C82_checked : forall LL n N nl nd kd Nb Tn LM Nswap tl blank r, 2 <= n -> 1 <= N -> 1 <= nl -> 0 <= kd <= nd -> n <= Nb -> 1 <= Tn -> 0 <= r < n ->
  forall t, tr (main_heap LL n N N nl nd kd Nb Tn LM Nswap tl blank r) t ->
  forall fails p v, a_failure fails t p v -> (forall q, (q < p)%nat -> fails q = false) ->
    ~ In v [para_line; FoutPre; FoutSuf; results_dir; Data_file; Delimiter; Beta_Values; sigma_parm_min; sigma_parm_max] ->
    exists s, hrun h0 (firstn p t) = Some s /\ frun fails 0 h0 t = Quit s.
Proof.
  intros LL n N nl nd kd Nb Tn LM Nswap tl blank r Hn HN Hnl Hkd HNb HT Hr t Ht fails p v [a [b [Hp [Fp [NB NL]]]]] First Hv.
  destruct (C78_safe LL n N nl nd kd Nb Tn LM Nswap tl blank r Hn HN Hnl Hkd HNb HT Hr t Ht) as [s [G _]].
  destruct (nth_error_split _ _ Hp) as [t1 [t2 [E L]]]. subst t p.
  rewrite firstn_app, Nat.sub_diag, firstn_all, app_nil_r.
  rewrite hrun_app in G. destruct (hrun h0 t1) as [s1|] eqn:G1; [|discriminate]. exists s1. split; [reflexivity|].
  rewrite frun_before by (intros q Hq; apply First; cbn; lia). rewrite G1. cbn [frun]. cbn [Nat.add]. rewrite Fp.
  assert (NG : by_getline v = false) by (destruct v; auto; contradiction). rewrite NG. cbn [andb negb].
  assert (U : unchecked v = false) by (destruct v; auto; exfalso; apply Hv; cbn; tauto). rewrite U. reflexivity.
Qed.
Print Assumptions C82_checked.

(** whatever fails, however often: a rank with a failed allocation does not come to its end *)
Theorem C82_never_unnoticed : forall LL n N K nl nd kd Nb Tn LM Nswap tl blank r, 1 <= K -> 1 <= Nb ->
  forall t, tr (main_heap LL n N K nl nd kd Nb Tn LM Nswap tl blank r) t ->
  forall fails p v, a_failure fails t p v -> forall s, frun fails 0 h0 t <> Done s.
Proof.
  intros LL n N K nl nd kd Nb Tn LM Nswap tl blank r HK HNb t Ht fails p v [a [b [Hp [Fp [NB NL]]]]] s.
  assert (NG : by_getline v = false) by (destruct v; auto; contradiction).
  eapply fail_ends; [exact NG| |exact Hp|exact Fp]. exact (g_main LL n N K nl nd kd Nb Tn LM Nswap tl blank r HK HNb t Ht).
Qed.
Print Assumptions C82_never_unnoticed.

(** without a failure nothing changes *)
Theorem C82_no_failure : forall t fails, (forall p v n1 n2, nth_error t p = Some (Malloc v n1 n2) -> fails p = false) -> forall s,
  frun fails 0 s t = match hrun s t with Some s' => Done s' | None => Undefined end.
Proof.
  intros t fails. enough (X : forall k s, (forall p v n1 n2, nth_error t p = Some (Malloc v n1 n2) -> fails (k + p)%nat = false) ->
    frun fails k s t = match hrun s t with Some s' => Done s' | None => Undefined end) by (intros F s; exact (X O s F)).
  induction t as [|e t IH]; intros k s F; [reflexivity|].
  assert (J : forall s1, frun fails (S k) s1 t = match hrun s1 t with Some s' => Done s' | None => Undefined end).
  { intros s1. apply IH. intros p v a b Hp. replace (S k + p)%nat with (k + S p)%nat by lia. eapply F. exact Hp. }
  cbn [frun hrun]. destruct e; try (destruct (hstep s _); auto; fail).
  pose proof (F O v n1 n2 eq_refl) as F0. rewrite Nat.add_0_r in F0. rewrite F0. cbn [andb]. destruct (hstep s _); auto.
Qed.
Print Assumptions C82_no_failure.

(** the nine kinds of blocks that are not checked: NULL is used, and nothing is said *)
Theorem C82_unchecked_refuted : forall LL n N K nl nd kd Nb Tn LM Nswap tl blank r, 1 <= K -> 1 <= Nb ->
  forall t, tr (main_heap LL n N K nl nd kd Nb Tn LM Nswap tl blank r) t ->
  (exists v n1 n2, nth_error t 1 = Some (Malloc v n1 n2) /\ frun (fun q => Nat.eqb q 1) 0 h0 t = Undefined) /\
  forall p v n1 n2, nth_error t p = Some (Malloc v n1 n2) ->
    In v [para_line; FoutPre; FoutSuf; results_dir; Data_file; Delimiter; Beta_Values; sigma_parm_min; sigma_parm_max] ->
    frun (fun q => Nat.eqb q p) 0 h0 t = Undefined.
Proof.
  intros LL n N K nl nd kd Nb Tn LM Nswap tl blank r HK HNb t Ht.
  assert (A : forall p v n1 n2, nth_error t p = Some (Malloc v n1 n2) ->
    In v [para_line; FoutPre; FoutSuf; results_dir; Data_file; Delimiter; Beta_Values; sigma_parm_min; sigma_parm_max] -> frun (fun q => Nat.eqb q p) 0 h0 t = Undefined).
  { intros p v a b Hp Hv. destruct (frun _ 0 h0 t) as [s|s|] eqn:E; [| |reflexivity]; exfalso.
    - revert E. apply (C82_never_unnoticed LL n N K nl nd kd Nb Tn LM Nswap tl blank r HK HNb t Ht (fun q => Nat.eqb q p) p v). exists a, b. split; [exact Hp|]. split; [apply Nat.eqb_refl|]. cbn in Hv. split; intros ->; intuition discriminate.
    - destruct (quit_only _ _ _ _ _ E) as [q [w [c [d [Hq [Eq U]]]]]]. cbn [Nat.add] in Eq. apply Nat.eqb_eq in Eq. subst q. rewrite Hp in Hq. injection Hq as <- _ _.
      cbn in Hv. destruct v; cbn in U; try discriminate; intuition discriminate. }
  split; [|exact A].
  assert (H1 : nth_error t 1 = Some (Malloc para_line 100 1)).
  { unfold main_heap, read_input_ini, read_chains_grid in Ht. cbn [calls] in Ht. unfold read_onepara at 1 in Ht.
    repeat match goal with H : tr (Then _ _) _ |- _ => inversion H; clear H; subst | H : tr (Do _) _ |- _ => inversion H; clear H; subst end. reflexivity. }
  exists para_line, 100, 1. split; [exact H1|]. eapply A; [exact H1|cbn; tauto].
Qed.
Print Assumptions C82_unchecked_refuted.

(** the root of the shipped regression run: on each path the second event allocates the block of the first line of
    input.ini, and NULL is used if that fails; a path on which the rows of a batch of 10 cannot be allocated *)
Example C82_case_first : exists t, tr ex t /\ frun (fun q => Nat.eqb q 1) 0 h0 t = Undefined.
Proof.
  destruct C78_case_batch as [t [Ht _]]. exists t. split; [exact Ht|].
  destruct (C82_unchecked_refuted 60 4 3 3 100 3 3 16 100 20 1 true true 0 ltac:(lia) ltac:(lia) t Ht) as [[v [a [b [_ H]]]] _]. exact H.
Qed.
Example C82_case_rows : exists t p s, tr ex t /\ nth_error t p = Some (Malloc chain_IterParm_root 10 3) /\
  hrun h0 (firstn p t) = Some s /\ frun (fun q => Nat.eqb q p) 0 h0 t = Quit s.
Proof.
  destruct C78_case_batch as [t [Ht Hin]]. apply In_nth_error in Hin. destruct Hin as [p Hp].
  destruct (C82_checked 60 4 3 100 3 3 16 100 20 1 true true 0 ltac:(lia) ltac:(lia) ltac:(lia) ltac:(lia) ltac:(lia) ltac:(lia) ltac:(lia) t Ht (fun q => Nat.eqb q p) p chain_IterParm_root)
    as [s [G Q]].
  - exists 10, 3. split; [exact Hp|]. split; [apply Nat.eqb_refl|]. split; discriminate.
  - intros q Hq. apply Nat.eqb_neq. lia.
  - cbn. intuition discriminate.
  - exists t, p, s. auto.
Qed.
