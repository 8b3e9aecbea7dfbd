(** Property C72: a results directory that is used again. *)
From Coq Require Import ZArith Arith Ascii String List Bool Lia.
From Flocq Require Import Core IEEE754.BinarySingleNaN.
From Verif Require Import Base Arith B64 Bytes BytesFacts Rand Mh Mpi Prog Seq SeqTotal System Runs CountLemmas LoadFacts Printf PrintFacts
  TextRuns PropSched PropCount PropText.
Import ListNotations.
Open Scope Z_scope.
Open Scope list_scope.

(** make_dir (readin.c:390-404) only warns when the directory exists, and every result file is opened
    in mode "a" (mpi_init.c:225, 253, 290; mpi_batch.c:438; mpi_flow.c:348; mpi_stack.c:475): a run
    appends its records to what the file held.  [ran r x]: x is a run, complete or cut off between
    records, of some legal setup with a rank r which has written at least its first row. *)
Definition ran {A} (r : nat) (x : Setup A * list (nat * event A)) : Prop :=
  Legal (fst x) /\ (r < s_n (fst x))%nat /\ (exists k X, execution (fst x) k (snd x) X) /\ file (FChain r) (snd x) <> [].

(** the chain file of rank r after the runs xs in one directory *)
Definition appended {A} (r : nat) (xs : list (Setup A * list (nat * event A))) : list (event A) :=
  concat (map (fun x => file (FChain r) (snd x)) xs).

(** cut a list of rows before every row whose iteration column is 0 *)
Fixpoint cut {A} (rows : list (crow A)) : list (list (crow A)) :=
  match rows with
  | [] => []
  | q :: t =>
      match cut t with
      | (p :: g) :: gs => if r_it p =? 0 then [q] :: (p :: g) :: gs else (q :: p :: g) :: gs
      | gs => [q] :: gs
      end
  end.

Definition one_run {A} (rows : list (crow A)) : Prop :=
  exists r0 rest, rows = r0 :: rest /\ r_it r0 = 0 /\ Forall (fun q => 0 < r_it q) rest.

Lemma evrow_inj : forall A r (a b : list (crow A)), map (EvRow r) a = map (EvRow r) b -> a = b.
Proof. induction a as [|x a IH]; intros [|y b] H; simpl in H; try discriminate; auto. inversion H. f_equal; auto. Qed.

Lemma ran_rows : forall A r (x : Setup A * list (nat * event A)), ran r x ->
  exists rows, file (FChain r) (snd x) = map (EvRow r) rows /\ one_run rows.
Proof.
  intros A r [S tr] [HL [Hr [[k [X HE]] Hne]]]. cbn [fst snd] in *.
  destruct (legal_completes _ S HL) as [k' [tr' [X' [HE' HC]]]].
  destruct (C16_columns _ S HL _ _ _ HE' HC r Hr) as [r0 [rows [s [E [Z0 [_ [_ [P _]]]]]]]].
  destruct (C42_crash_prefix _ S HL _ _ _ HE _ _ _ HE' HC (FChain r) ltac:(discriminate)) as [rest Er].
  destruct (C16_columns_any_time _ S HL _ _ _ HE r Hr) as [rs [E2 _]].
  exists rs. split; [exact E2|]. rewrite E2, E in Er. rewrite E2 in Hne.
  destruct rs as [|q0 qs]; [exfalso; auto|]. cbn [map app] in Er. inversion Er; subst.
  exists q0, qs. split; [auto|]. split; [auto|].
  assert (K : forall (a b : list (crow A)) rst, map (EvRow r) b = map (EvRow r) a ++ rst -> forall q, In q a -> In q b).
  { induction a as [|y a IH]; intros b rst Hb q Hq; [destruct Hq|]. destruct b as [|z b]; [discriminate|].
    cbn [map app] in Hb. inversion Hb; subst. destruct Hq as [->|Hq]; [left; auto|right; eauto]. }
  apply Forall_forall. intros q Hq. rewrite Forall_forall in P. apply (P q). eapply K; eauto.
Qed.

Lemma cut_rest : forall A (rest : list (crow A)), Forall (fun q => 0 < r_it q) rest -> forall q gs,
  (gs = [] \/ exists p g gs', gs = (p :: g) :: gs' /\ r_it p = 0) -> forall tl, cut tl = gs ->
  cut (q :: rest ++ tl) = (q :: rest) :: gs.
Proof.
  intros A rest F. induction F as [|p rest Hp F IH]; intros q gs Hg tl E.
  - cbn [app cut]. rewrite E. destruct Hg as [->|[p [g [gs' [-> Hz]]]]]; [auto|]. rewrite Hz. auto.
  - specialize (IH p gs Hg tl E). cbn [app]. change (cut (q :: p :: rest ++ tl)) with
      (match cut (p :: rest ++ tl) with
       | (p :: g) :: gs => if r_it p =? 0 then [q] :: (p :: g) :: gs else (q :: p :: g) :: gs
       | gs => [q] :: gs end).
    rewrite IH. destruct (Z.eqb_spec (r_it p) 0); [lia|auto].
Qed.

Lemma cut_concat : forall A (rs : list (list (crow A))), Forall one_run rs -> cut (concat rs) = rs.
Proof.
  intros A rs F. induction F as [|r rs [r0 [rest [-> [Z0 P]]]] F IH]; [auto|].
  cbn [concat app]. apply cut_rest; auto. destruct F as [|x l [p [g [-> [Zp _]]]] F]; [left; auto|right].
  exists p, g, l. auto.
Qed.

(** The runs can be told apart afterwards: cutting the rows before every row with iteration 0 gives
    back the rows of each run, in the order of the runs, whatever their setups and numbers of ranks,
    and also when some of them were cut off. *)
Theorem C72_cut : forall A r (xs : list (Setup A * list (nat * event A))), Forall (ran r) xs ->
  exists rs, appended r xs = map (EvRow r) (concat rs) /\
    Forall2 (fun x rows => file (FChain r) (snd x) = map (EvRow r) rows) xs rs /\
    cut (concat rs) = rs.
Proof.
  intros A r xs F.
  assert (K : exists rs, Forall one_run rs /\ Forall2 (fun x rows => file (FChain r) (snd x) = map (EvRow r) rows) xs rs).
  { induction F as [|x xs Hx F [rs [F1 F2]]]; [exists []; split; constructor|].
    destruct (ran_rows _ _ _ Hx) as [rows [E O]]. exists (rows :: rs). split; constructor; auto. }
  destruct K as [rs [F1 F2]]. exists rs. split; [|split; [exact F2|apply cut_concat; exact F1]].
  unfold appended. clear F F1. induction F2; [auto|]. cbn [map concat]. rewrite H, IHF2, map_app. auto.
Qed.
Print Assumptions C72_cut.

(** But a chain file is not one chain any more.  Run the same setup twice in one directory (with a
    positive seed; or with the clock seed, twice in the same second): the file holds every row of
    the chain twice, and its iteration column falls back to 0 in the middle. *)
Theorem C72_one_chain_refuted : forall A (S : Setup A), Legal S ->
  forall k1 tr1 X1 k2 tr2 X2, execution S k1 tr1 X1 -> complete S X1 -> execution S k2 tr2 X2 -> complete S X2 ->
  forall r, (r < s_n S)%nat -> exists rows, rows <> [] /\
    appended r [(S, tr1); (S, tr2)] = map (EvRow r) (rows ++ rows) /\
    exists p q, nth_error (rows ++ rows) (List.length rows - 1) = Some p /\ nth_error (rows ++ rows) (List.length rows) = Some q /\
      r_it q = 0 /\ ~ r_it p < r_it q.
Proof.
  intros A S HL k1 tr1 X1 k2 tr2 X2 E1 C1 E2 C2 r Hr.
  destruct (C16_columns _ S HL _ _ _ E1 C1 r Hr) as [r0 [rest [s [E [Z0 [_ [_ [P _]]]]]]]].
  exists (r0 :: rest). split; [discriminate|]. split.
  - unfold appended. cbn [map concat snd]. rewrite app_nil_r.
    rewrite <- (C39_schedule_independent _ S HL _ _ _ _ _ _ E1 C1 E2 C2 (FChain r) ltac:(discriminate)), E, map_app. auto.
  - assert (NE : (List.length (r0 :: rest) - 1 < List.length (r0 :: rest))%nat) by (cbn [List.length]; lia).
    destruct (nth_error (r0 :: rest) (List.length (r0 :: rest) - 1)) as [p|] eqn:Ep; [|apply nth_error_None in Ep; lia].
    exists p, r0. split; [rewrite nth_error_app1 by exact NE; exact Ep|].
    split; [rewrite nth_error_app2 by lia; rewrite Nat.sub_diag; reflexivity|]. split; [exact Z0|].
    apply nth_error_In in Ep. destruct Ep as [<-|Hp]; [lia|]. rewrite Forall_forall in P. specialize (P p Hp). cbn beta in P. lia.
Qed.
Print Assumptions C72_one_chain_refuted.

(** And if the first run was cut off in the middle of a line, the first row of the next run is
    glued to the torn piece: the file has no line for it. *)
Theorem C72_glued_refuted : forall L (S1 S2 : Setup (B64 L)), Legal S1 -> Legal S2 ->
  forall k1 tr1 X1, execution S1 k1 tr1 X1 -> complete S1 X1 -> forall k2 tr2 X2, execution S2 k2 tr2 X2 -> complete S2 X2 ->
  forall nan, nan_print nan -> forall r, (r < s_n S1)%nat -> (r < s_n S2)%nat -> forall m,
  exists full j part l0 rest, file_text nan (FChain r) tr1 = unlines full /\
    firstn m (file_text nan (FChain r) tr1) = unlines (firstn j full) ++ part /\
    file_text nan (FChain r) tr2 = unlines (l0 :: rest) /\
    firstn m (file_text nan (FChain r) tr1) ++ file_text nan (FChain r) tr2 = unlines (firstn j full ++ (part ++ l0) :: rest) /\
    Forall (fun l => ~ In NL l) (firstn j full ++ (part ++ l0) :: rest) /\
    (m = 1%nat -> part <> []).
Proof.
  intros L S1 S2 HL1 HL2 k1 tr1 X1 E1 C1 k2 tr2 X2 E2 C2 nan Hn r Hr1 Hr2 m.
  destruct (C67_torn L S1 HL1 k1 tr1 X1 E1 k1 tr1 X1 E1 C1 nan Hn (FChain r) ltac:(discriminate) m) as [full [j [part [T1 [CF [T2 [NP _]]]]]]].
  destruct (C16_columns _ S2 HL2 _ _ _ E2 C2 r Hr2) as [q0 [rows [s [E _]]]].
  assert (F2 : file_lines nan (FChain r) tr2 = map (row_line nan) (q0 :: rows)) by (unfold file_lines; rewrite E; apply file_rows).
  assert (CL : Forall (fun l => ~ In NL l) (map (row_line nan) (q0 :: rows))).
  { rewrite <- F2. apply Forall_forall. intros l Hl. apply (file_clean nan (nan_word nan Hn) _ _ _ Hl). }
  assert (TX : file_text nan (FChain r) tr2 = unlines (map (row_line nan) (q0 :: rows))) by (unfold file_text; rewrite F2; reflexivity).
  exists full, j, part, (row_line nan q0), (map (row_line nan) rows).
  split; [exact T1|]. split; [exact T2|]. split; [exact TX|]. split; [|split].
  - rewrite T2, TX. unfold unlines. rewrite map_app, concat_app. cbn [map concat]. rewrite <- !app_assoc. reflexivity.
  - cbn [map] in CL. inversion CL; subst. apply Forall_app. split.
    + rewrite Forall_forall in CF |- *. intros l Hl. apply CF. rewrite <- (firstn_skipn j full). apply in_app_iff. auto.
    + constructor; auto. intros HI. apply in_app_iff in HI. tauto.
  - intros -> ->. rewrite app_nil_r in T2.
    destruct (C16_columns _ S1 HL1 _ _ _ E1 C1 r Hr1) as [p0 [rows1 [s1 [E' _]]]].
    assert (F1 : file_lines nan (FChain r) tr1 = map (row_line nan) (p0 :: rows1)) by (unfold file_lines; rewrite E'; apply file_rows).
    assert (TX1 : file_text nan (FChain r) tr1 = unlines (map (row_line nan) (p0 :: rows1))) by (unfold file_text; rewrite F1; reflexivity).
    assert (LN : forall l, In NL (firstn 1 (l ++ [NL])) -> l = [] \/ In NL l).
    { intros [|c l] HI; [left; auto|right]. cbn in HI. destruct HI as [HI|[]]. left; auto. }
    assert (N1 : ~ In NL (firstn 1 (file_text nan (FChain r) tr1)) /\ firstn 1 (file_text nan (FChain r) tr1) <> []).
    { rewrite TX1. cbn [map unlines]. unfold unlines. cbn [map concat].
      assert (CL1 : ~ In NL (row_line nan p0)) by (apply (file_clean nan (nan_word nan Hn) (FChain r) tr1); rewrite F1; left; auto).
      assert (NE : row_line nan p0 <> []) by (unfold row_line; destruct (map (print_e nan) (r_parm p0)); discriminate || idtac; intros HH; apply (f_equal (@List.length _)) in HH; rewrite ?app_length in HH; cbn in HH; lia).
      destruct (row_line nan p0) as [|c l]; [congruence|]. cbn [app firstn]. split; [|discriminate]. intros [HI|[]]. apply CL1. left; auto. }
    destruct N1 as [N1 N2]. destruct (firstn j full) as [|l ls].
    + apply N2. rewrite T2. reflexivity.
    + apply N1. rewrite T2. unfold unlines. cbn [map concat]. rewrite <- app_assoc. apply in_app_iff. right. left. auto.
Qed.
Print Assumptions C72_glued_refuted.

(** the hypotheses are met: two complete runs of the demo setup in one directory *)
Example C72_case : forall L, exists k tr X, execution (demo L) k tr X /\ complete (demo L) X /\
  Forall (ran 1) [(demo L, tr); (demo L, tr)].
Proof.
  intros L. destruct (legal_completes _ _ (demo_legal L)) as [k [tr [X [HE HC]]]]. exists k, tr, X. split; [auto|]. split; [auto|].
  assert (R : ran 1 (demo L, tr)).
  { split; [apply demo_legal|]. split; [vm_compute; lia|]. split; [exists k, X; exact HE|]. cbn [snd].
    destruct (C16_columns _ _ (demo_legal L) _ _ _ HE HC 1%nat ltac:(vm_compute; lia)) as [r0 [rows [s [E _]]]]. rewrite E. discriminate. }
  repeat constructor; apply R.
Qed.
