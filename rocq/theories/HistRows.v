(** The rows of the chain files, along a history. *)
From Coq Require Import ZArith Arith List Bool Lia Permutation.
From Verif Require Import Base Arith B64 Rand Mh Ladder Tune Mpi MpiMeta Spmd Prog Seq ListAux MhSpec SeqWf Refine
  SeqTotal System RandRange Demo Runs SeqFiles History Views RunHist HistCount.
Import ListNotations.
Open Scope Z_scope.

(** the decision, with current value Lc and proposed value Lp, and g the generator state before the
    uniform draw: mpi_batch.c:209-235 *)
Definition mh_better {A} (Lc Lp : num A) : bool := nltb (nlog (ndiv (nof 1) (nof 1))) (nsub Lp Lc).
Definition mh_ok {A} (Lc Lp : num A) (g : Z) : bool :=
  if mh_better Lc Lp then true else nltb (fst (drand48 (A := A) g)) (nmul (nexp (nsub Lp Lc)) (nof 1)).

(** [mhwalk U D np sigma beta g p rows bs g']: from row p and generator state g, the rows [rows]
    follow one by one; the i-th one is the bounded proposal made from its predecessor, if the i-th
    boolean of bs is true, and a repeat of its predecessor otherwise.  The accept counter rises by one
    exactly in the first case, the iteration counter always. *)
Inductive mhwalk {A} (U : User A) (D : Data A) (np : Z) (sigma : list (num A)) (beta : num A)
  : Z -> crow A -> list (crow A) -> list bool -> Z -> Prop :=
| walk_nil : forall g p, mhwalk U D np sigma beta g p [] [] g
| walk_accept : forall g p new0 g1 g2 q rows bs g',
    do_gaussian_propose np (r_parm p) sigma g = OK (new0, nof 1, g1) ->
    mh_ok (r_lp p) (logpost_at U D (u_bound U new0) beta) g1 = true ->
    g2 = (if mh_better (r_lp p) (logpost_at U D (u_bound U new0) beta) then g1 else snd (drand48 (A := A) g1)) ->
    r_parm q = u_bound U new0 -> r_lp q = logpost_at U D (u_bound U new0) beta ->
    r_it q = r_it p + 1 -> r_acc q = r_acc p + 1 ->
    mhwalk U D np sigma beta g2 q rows bs g' ->
    mhwalk U D np sigma beta g p (q :: rows) (true :: bs) g'
| walk_repeat : forall g p new0 g1 q rows bs g',
    do_gaussian_propose np (r_parm p) sigma g = OK (new0, nof 1, g1) ->
    mh_ok (r_lp p) (logpost_at U D (u_bound U new0) beta) g1 = false ->
    r_parm q = r_parm p -> r_lp q = r_lp p ->
    r_it q = r_it p + 1 -> r_acc q = r_acc p ->
    mhwalk U D np sigma beta (snd (drand48 (A := A) g1)) q rows bs g' ->
    mhwalk U D np sigma beta g p (q :: rows) (false :: bs) g'.

Fixpoint ctrue (l : list bool) : Z := match l with [] => 0 | b :: t => (if b then 1 else 0) + ctrue t end.
Lemma ctrue_app : forall a b, ctrue (a ++ b) = ctrue a + ctrue b.
Proof. induction a; intros; cbn [ctrue app]; [lia|]. rewrite IHa. lia. Qed.
Lemma ctrue_range : forall l, 0 <= ctrue l <= Z.of_nat (length l).
Proof. induction l as [|b l IH]; cbn [ctrue length]; [lia|]. destruct b; lia. Qed.

Section Walk.
Context {A : Arith}.
Variable U : User A.
Variable D : Data A.
Variable np : Z.

Lemma itn_small : forall it k, 0 <= it -> it + Z.of_nat k <= INT_MAX -> itn it k = it + Z.of_nat k.
Proof. intros it k H H1. destruct k; cbn [itn]; [lia|]. apply u32_small. unfold UINT_MOD, INT_MAX in *. lia. Qed.

Lemma mhn_S : forall sigma beta k s, mhn U D sigma beta (S k) s = mhn U D sigma beta k (mhstep U D sigma beta s).
Proof. intros sigma beta k s. induction k as [|k IH]; [reflexivity|].
  change (mhstep U D sigma beta (mhn U D sigma beta (S k) s) = mhstep U D sigma beta (mhn U D sigma beta k (mhstep U D sigma beta s))).
  f_equal. exact IH.
Qed.

Lemma mhstep_cases : forall sigma beta s,
  let new0 := fst (prop_list (ms_x s) sigma (ms_g s)) in
  let g1 := snd (prop_list (ms_x s) sigma (ms_g s)) in
  let lpn := logpost_at U D (u_bound U new0) beta in
  (mh_ok (ms_lp s) lpn g1 = true /\
    mhstep U D sigma beta s = mkMs (u_bound U new0) lpn
      (if mh_better (ms_lp s) lpn then g1 else snd (drand48 (A := A) g1)) (u32 (ms_acc s + 1))) \/
  (mh_ok (ms_lp s) lpn g1 = false /\
    mhstep U D sigma beta s = mkMs (ms_x s) (ms_lp s) (snd (drand48 (A := A) g1)) (ms_acc s)).
Proof.
  intros. unfold mhstep, mh_ok, mh_better. fold new0 g1 lpn.
  destruct (nltb (nlog (ndiv (nof 1) (nof 1))) (nsub lpn (ms_lp s))); [left; auto|].
  destruct (nltb (fst (drand48 (A := A) g1)) (nmul (nexp (nsub lpn (ms_lp s))) (nof 1))); auto.
Qed.

Lemma mhn_walk : forall sigma beta, BoundLen U np -> haslen np sigma -> forall k s it p,
  haslen np (ms_x s) -> 0 <= it -> it + Z.of_nat k <= INT_MAX -> 0 <= ms_acc s -> ms_acc s + Z.of_nat k <= INT_MAX ->
  r_parm p = ms_x s -> r_lp p = ms_lp s -> r_it p = it -> r_acc p = ms_acc s ->
  exists bs, mhwalk U D np sigma beta (ms_g s) p (map (fun j => ms_row it (mhn U D sigma beta j s) j) (seq 1 k)) bs
               (ms_g (mhn U D sigma beta k s)) /\ ms_acc (mhn U D sigma beta k s) = ms_acc s + ctrue bs /\ length bs = k.
Proof.
  intros sigma beta HB Hs. induction k as [|k IH]; intros s it p Hx Hi Hm Ha Ham E1 E2 E3 E4.
  - exists []. split; [constructor|]. cbn. auto with zarith.
  - pose proof (mhstep_cases sigma beta s) as Hcs. cbn zeta in Hcs.
    pose proof (propose_ok np (ms_x s) sigma (ms_g s) Hx Hs) as Hp.
    set (s1 := mhstep U D sigma beta s) in *.
    assert (Hacc : ms_acc s1 = ms_acc s \/ ms_acc s1 = ms_acc s + 1).
    { destruct Hcs as [[_ ->]|[_ ->]]; cbn [ms_acc]; auto. right; apply u32_small; unfold UINT_MOD, INT_MAX in *; lia. }
    assert (Hx1 : haslen np (ms_x s1)) by (apply mhstep_len; auto).
    set (q := ms_row it s1 1).
    assert (Hit : r_it q = r_it p + 1).
    { unfold q, ms_row. cbn [r_it]. rewrite itn_small by lia. rewrite u2i_small by lia. lia. }
    assert (Hac : r_acc q = ms_acc s1). { unfold q, ms_row. cbn [r_acc]. apply u2i_small. lia. }
    destruct (IH s1 (it + 1) q Hx1) as [bs [Hw [Hc Hl]]]; try lia; auto.
    rewrite mhn_S. fold s1.
    assert (ER : map (fun j => ms_row it (mhn U D sigma beta j s) j) (seq 1 (S k))
      = q :: map (fun j => ms_row (it + 1) (mhn U D sigma beta j s1) j) (seq 1 k)).
    { cbn [seq map]. f_equal. rewrite <- seq_shift, map_map. apply map_ext_in. intros j Hj. apply in_seq in Hj.
      rewrite mhn_S. fold s1. unfold ms_row. f_equal. rewrite !itn_small by lia. f_equal. lia. }
    rewrite ER.
    assert (Hqx : r_parm q = ms_x s1 /\ r_lp q = ms_lp s1) by (split; reflexivity).
    clearbody q. destruct Hqx as [Hqx Hql].
    destruct Hcs as [[Hok Es]|[Hok Es]].
    + exists (true :: bs). split.
      * eapply walk_accept with (g2 := ms_g s1); [rewrite E1; exact Hp| | | | | | |exact Hw].
        -- rewrite E2. exact Hok.
        -- rewrite E2, Es. reflexivity.
        -- rewrite Hqx, Es. auto.
        -- rewrite Hql, Es. auto.
        -- exact Hit.
        -- rewrite Hac, E4, Es. cbn [ms_acc]. apply u32_small. unfold UINT_MOD, INT_MAX in *; lia.
      * cbn [ctrue length]. rewrite Hc. split; [|lia]. rewrite Es. cbn [ms_acc].
        rewrite u32_small by (unfold UINT_MOD, INT_MAX in *; lia). lia.
    + exists (false :: bs). split.
      * eapply walk_repeat; [rewrite E1; exact Hp| | | | | |].
        -- rewrite E2. exact Hok.
        -- rewrite Hqx, Es. auto.
        -- rewrite Hql, Es. auto.
        -- exact Hit.
        -- rewrite Hac, E4, Es. auto.
        -- rewrite Es in Hw at 1. exact Hw.
      * cbn [ctrue length]. rewrite Hc. split; [|lia]. rewrite Es. cbn [ms_acc]. lia.
Qed.

(** rows numbered from it, acc on *)
Inductive numbered : Z -> Z -> list (crow A) -> list bool -> Prop :=
| num_nil : forall it acc, numbered it acc [] []
| num_cons : forall it acc q b R B, r_it q = it + 1 -> r_acc q = acc + (if b : bool then 1 else 0) ->
    numbered (it + 1) (acc + (if b then 1 else 0)) R B -> numbered it acc (q :: R) (b :: B).

Lemma numbered_app : forall it acc R B, numbered it acc R B -> forall R' B',
  numbered (it + Z.of_nat (length R)) (acc + ctrue B) R' B' -> numbered it acc (R ++ R') (B ++ B').
Proof.
  induction 1; intros R' B' H'; cbn [app length ctrue] in *.
  - replace (it + Z.of_nat 0) with it in H' by lia. replace (acc + 0) with acc in H' by lia. auto.
  - constructor; auto. apply IHnumbered. 
    replace (it + 1 + Z.of_nat (length R)) with (it + Z.of_nat (S (length R))) by lia.
    rewrite <- Z.add_assoc. auto.
Qed.

Lemma walk_numbered : forall sigma beta g p rows bs g', mhwalk U D np sigma beta g p rows bs g' ->
  numbered (r_it p) (r_acc p) rows bs /\ length rows = length bs.
Proof.
  induction 1 as [|g p new0 g1 g2 q rows bs g' H Hok H0 H1 H2 H3 H4 Hw [I1 I2]|g p new0 g1 q rows bs g' H Hok H1 H2 H3 H4 Hw [I1 I2]].
  - split; constructor.
  - split; [|cbn [length]; lia]. constructor; auto. rewrite <- H3, <- H4. auto.
  - split; [|cbn [length]; lia]. constructor; auto; [lia|]. rewrite <- H3, Z.add_0_r, <- H4. auto.
Qed.

Lemma numbered_nth : forall it acc R B, numbered it acc R B -> length R = length B /\
  forall k d, (k < length R)%nat -> r_it (nth k R d) = it + Z.of_nat k + 1 /\
    r_acc (nth k R d) = acc + ctrue (firstn (S k) B).
Proof.
  induction 1 as [|it acc q b R B H1 H2 H [IL IH]]; [split; auto; intros; simpl in *; lia|].
  split; [cbn [length]; lia|]. intros [|k] d Hk; cbn [nth firstn ctrue].
  - split; [lia|]. destruct B; cbn [firstn ctrue]; lia.
  - cbn [length] in Hk. destruct (IH k d ltac:(lia)) as [-> ->]. cbn [firstn ctrue]. split; lia.
Qed.
End Walk.

(** the row a rank would write now *)
Definition row_at {A} (G : gst (A := A)) (r : nat) : crow A :=
  mkRow (x_at G r) (lp_at G r) (u2i (l_it (loc_at G r))) (u2i (l_acc (loc_at G r))).

(** what rank r does in batch b: the rows it goes through and the decisions it takes *)
Definition batch_walk {A} (S : Setup A) (D : Data A) (r : nat) (b : brec (A := A)) (rows : list (crow A)) (bs : list bool) : Prop :=
  mhwalk (s_user S) D (N_parm (s_cfg S)) (l_sig (loc_at (br_pre b) r)) (beta_at (br_pre b) r)
    (l_g (loc_at (br_pre b) r)) (row_at (br_pre b) r) rows bs (l_g (loc_at (br_mid b) r)) /\
  Z.of_nat (length rows) = br_len b /\ row_at (br_mid b) r = last rows (row_at (br_pre b) r) /\
  file (FChain r) (br_rows b) =
    if i_save_begin (s_cfg S) <=? l_it (loc_at (br_mid b) r) then map (EvRow r) rows else [].

Definition hbatches {A} (h : list (srec (A := A))) : list (brec (A := A)) := concat (map sr_batches h).

Section Run.
Context {A : Arith}.
Variable S : Setup A.
Hypothesis HL : Legal S.
Notation C := (s_cfg S).
Notation U := (s_user S).
Notation n := (s_n S).
Let RK := proj1 HL.
Let VC := proj1 (proj2 HL).
Let VU := proj1 (proj2 (proj2 HL)).

Lemma last_map_seq : forall {X} (f : nat -> X) k d, (1 <= k)%nat -> last (map f (seq 1 k)) d = f k.
Proof.
  intros X f k d Hk. destruct k as [|k]; [lia|]. rewrite seq_S, map_app. cbn [map]. rewrite last_last. f_equal.
Qed.

Lemma batch_walk_ok : forall D b base r, bcount C U n D base b -> (r < n)%nat ->
  base + br_from b + br_len b <= INT_MAX -> 0 <= base ->
  0 <= l_acc (loc_at (br_pre b) r) <= l_it (loc_at (br_pre b) r) ->
  exists rows bs, batch_walk S D r b rows bs /\ l_acc (loc_at (br_mid b) r) = l_acc (loc_at (br_pre b) r) + ctrue bs.
Proof.
  intros D b base r [Hl [Hf [W1 [W2 [HB [_ [_ Hit]]]]]]] Hr Hmax Hb Ha.
  destruct (seq_batch_view C U n D VC VU _ _ _ _ W1 HB) as [_ [_ V]]. specialize (V r Hr). cbn zeta in V.
  destruct V as [V1 [V2 [V3 [V4 V5]]]]. destruct (Hit r Hr) as [I1 I2].
  set (p := row_at (br_pre b) r).
  assert (BL : BoundLen U (N_parm C)).
  { apply (vu_ok _ _ VU). }
  assert (Hx : haslen (N_parm C) (ms_x (ms_at (br_pre b) r))).
  { cbn [ms_x ms_at]. apply (wf_trrow _ _ _ W1). apply nth_In. rewrite (wf_tr _ _ _ W1). auto. }
  assert (Hs : haslen (N_parm C) (l_sig (loc_at (br_pre b) r))).
  { apply (wf_sig _ _ _ W1). apply nth_In. rewrite (wf_locs _ _ _ W1). auto. }
  destruct (mhn_walk U D (N_parm C) (l_sig (loc_at (br_pre b) r)) (beta_at (br_pre b) r) BL Hs
     (Z.to_nat (br_len b)) (ms_at (br_pre b) r) (l_it (loc_at (br_pre b) r)) p Hx) as [bs [Hw [Hc Hlb]]];
    try (cbn [ms_acc ms_at]; lia); try reflexivity.
  { unfold p, row_at. cbn [r_it]. apply u2i_small. lia. }
  { unfold p, row_at. cbn [r_acc ms_acc ms_at]. apply u2i_small. lia. }
  set (rows := map _ _) in Hw. exists rows, bs.
  assert (Hacc2 : l_acc (loc_at (br_mid b) r) = l_acc (loc_at (br_pre b) r) + ctrue bs).
  { change (l_acc (loc_at (br_mid b) r)) with (ms_acc (ms_at (br_mid b) r)). rewrite V1, Hc. reflexivity. }
  split; [|exact Hacc2].
  split; [|split; [|split]].
  - replace (l_g (loc_at (br_mid b) r)) with (ms_g (ms_at (br_mid b) r)) by reflexivity. rewrite V1. exact Hw.
  - unfold rows. rewrite map_length, seq_length. lia.
  - unfold rows. rewrite last_map_seq by lia. unfold ms_row. rewrite <- V1. unfold row_at.
    cbn [ms_at ms_x ms_lp ms_acc]. f_equal. rewrite itn_small by lia. rewrite I1, I2. f_equal. lia.
  - rewrite V5. unfold rows. rewrite map_map. rewrite I2.
    rewrite I1 at 1. rewrite u32_small by (unfold UINT_MOD, INT_MAX in *; lia). reflexivity.
Qed.

(** the sequence of batches of one rank, with what it went through: xs lists rows and decisions *)
Definition walks (D : Data A) (r : nat) (bl : list (brec (A := A))) (xs : list (list (crow A) * list bool)) : Prop :=
  Forall2 (fun b x => batch_walk S D r b (fst x) (snd x)) bl xs.
Definition rows_in (xs : list (list (crow A) * list bool)) : list (crow A) := concat (map fst xs).
Definition decisions (xs : list (list (crow A) * list bool)) : list bool := concat (map snd xs).

(** ends of the batches, when a iterations were done before *)
Fixpoint ends (a : Z) (bl : list (brec (A := A))) : list Z :=
  match bl with [] => [] | b :: t => (a + br_len b) :: ends (a + br_len b) t end.

Lemma walk_row : forall D b r rows bs base, batch_walk S D r b rows bs -> bcount C U n D base b -> (r < n)%nat ->
  base + br_from b + br_len b <= INT_MAX -> 0 <= base ->
  0 <= l_acc (loc_at (br_pre b) r) <= l_it (loc_at (br_pre b) r) ->
  numbered (base + br_from b) (l_acc (loc_at (br_pre b) r)) rows bs.
Proof.
  intros D b r rows bs base [Hw _] [Hl [Hf [_ [_ [_ [_ [_ Hit]]]]]]] Hr Hm Hb Ha. destruct (Hit r Hr) as [I1 I2].
  destruct (walk_numbered _ _ _ _ _ _ _ _ _ _ Hw) as [N _].
  unfold row_at in N. cbn [r_it r_acc] in N. rewrite !u2i_small in N by lia. rewrite <- I1. exact N.
Qed.

Lemma bruns_walk : forall D base len i G isw nsw npr bl G' a b,
  bruns C U n D len i G isw nsw npr bl G' a b ->
  wf C n G -> 0 <= i <= len -> len <= n_iter_a_stack C -> 0 <= base -> base + len <= INT_MAX ->
  (forall r, (r < n)%nat -> l_it (loc_at G r) = base + i) ->
  forall r, (r < n)%nat -> 0 <= l_acc (loc_at G r) <= base + i ->
  exists xs, walks D r bl xs /\
    numbered (base + i) (l_acc (loc_at G r)) (rows_in xs) (decisions xs) /\
    l_acc (loc_at G' r) = l_acc (loc_at G r) + ctrue (decisions xs) /\
    Z.of_nat (length (rows_in xs)) = len - i /\
    Forall2 (fun b e => l_it (loc_at (br_mid b) r) = e) bl (ends (base + i) bl).
Proof.
  intros D base len i G isw nsw npr bl G' a b HB.
  induction HB as [i G isw nsw npr Hge|i G isw nsw npr l0 nx nb g G1 G2 lg G3 isw' nsw' npr' bl G4 nsw2 npr2
     H H0 H1 H2 H3 H4 HB IH]; intros W Hi Hlen Hb Hmax Hit r Hr Ha.
  - exists []. unfold rows_in, decisions. cbn. split; [constructor|]. split; [constructor|]. split; [lia|]. split; [lia|constructor].
  - pose proof (bruns_count C U n D RK VC VU base len i G isw nsw npr _ _ _ _
      (bruns_cons C U n D len _ _ _ _ _ _ _ _ _ _ _ _ _ _ _ _ _ _ _ _ H H0 H1 H2 H3 H4 HB) W Hi Hlen Hb Hmax Hit) as [_ [FB [BF _]]].
    pose proof (Forall_inv FB) as B1.
    destruct (next_batch_total C n RK VC len i (l_g l0)) as [nx' [nb' [E [Hnb [Hnx Hle]]]]]; [lia|auto|].
    assert (EE : nx = nx' /\ nb = nb'). { rewrite E in H1. injection H1; auto. } destruct EE; subst nx' nb'. clear E.
    set (b1 := mkBrec i nb G1 G2 G3 lg) in *.
    assert (Ha1 : l_acc (loc_at G1 r) = l_acc (loc_at G r)).
    { destruct (with_g0_frame C n VC _ _ _ W H2) as [[_ SL] _]. apply SL; auto. }
    assert (B1' := B1). destruct B1' as [_ [_ [W1 [W2 [_ [S3 [_ I]]]]]]]. cbn [b1 br_pre br_mid br_post br_from br_len] in *.
    destruct (I r Hr) as [I1 I2].
    destruct (batch_walk_ok D b1 base r B1 Hr) as [rows [bs [BW HA]]]; cbn [b1 br_pre br_mid br_post br_from br_len] in *; try lia.
    assert (Ha3 : l_acc (loc_at G3 r) = l_acc (loc_at G2 r)) by (apply S3; auto).
    assert (W3 : wf C n G3) by (apply (rounds_frame C U n D RK VC _ _ _ _ _ _ _ _ _ W2 H4)).
    assert (Len : Z.of_nat (length rows) = nb) by apply BW.
    assert (Num : numbered (base + i) (l_acc (loc_at G r)) rows bs).
    { rewrite <- Ha1. apply (walk_row D b1 r rows bs base BW B1); cbn [b1 br_pre br_mid br_post br_from br_len]; auto; lia. }
    assert (Lb : length rows = length bs).
    { destruct BW as [Hw _]. destruct (walk_numbered _ _ _ _ _ _ _ _ _ _ Hw). auto. }
    pose proof (ctrue_range bs) as Hc.
    destruct (IH W3) with (r := r) as [xs [X1 [X2 [X3 [X4 X5]]]]]; auto; try lia.
    { intros q Hq. destruct S3 as [_ S3]. destruct (S3 q Hq) as [_ [-> _]]. destruct (I q Hq) as [_ ->]. lia. }
    exists ((rows, bs) :: xs). unfold rows_in, decisions in *. cbn [map concat fst snd].
    split; [constructor; auto|].
    assert (Hnx' : base + nx = base + i + Z.of_nat (length rows)) by lia.
    split; [apply numbered_app; auto; rewrite <- Hnx', <- Ha1, <- HA, <- Ha3; auto|].
    split; [rewrite ctrue_app; lia|].
    split; [rewrite app_length; lia|].
    cbn [ends]. constructor; cbn [b1 br_mid br_len]; [auto|].
    replace (base + i + nb) with (base + nx) by lia. auto.
Qed.

Lemma Forall2_app3 : forall {X Y} (P : X -> Y -> Prop) a b c d, Forall2 P a c -> Forall2 P b d -> Forall2 P (a ++ b) (c ++ d).
Proof. intros. apply Forall2_app; auto. Qed.

Lemma ends_app : forall bl a bl', ends a (bl ++ bl') = ends a bl ++ ends (a + zsum (map br_len bl)) bl'.
Proof.
  induction bl as [|b bl IH]; intros a bl'; cbn [ends app map zsum].
  - f_equal. lia.
  - rewrite IH, Z.add_assoc. auto.
Qed.

Lemma rows_in_app : forall xs ys, rows_in (xs ++ ys) = rows_in xs ++ rows_in ys.
Proof. intros. unfold rows_in. rewrite map_app, concat_app. auto. Qed.
Lemma decisions_app : forall xs ys, decisions (xs ++ ys) = decisions xs ++ decisions ys.
Proof. intros. unfold decisions. rewrite map_app, concat_app. auto. Qed.

(** what happens between two stacks leaves the accept counter alone *)
Lemma stack_acc : forall D s, scount C U n D s -> forall r, (r < n)%nat ->
  l_acc (loc_at (sr_pre s) r) = l_acc (loc_at (sr_in s) r) /\
  l_acc (loc_at (sr_post s) r) = l_acc (loc_at (sr_mid s) r).
Proof.
  intros D s [_ [_ [_ [_ [Wi [_ [Wm [Wl [_ [Ep [_ [_ [_ [_ [HLad [HT _]]]]]]]]]]]]]]]] r Hr.
  split.
  - rewrite Ep. destruct (dist_view C n VC _ (sigt (g_ro (sr_in s))) Wi (wf_sigt _ _ _ Wi)) as [_ V]. apply V; auto.
  - transitivity (l_acc (loc_at (sr_lad s) r)).
    + destruct (tunes C (sr_end s)).
      * destruct (tune_all_view C U n D VC VU _ _ _ Wl HT) as [[_ [_ V]] _]. apply V; auto.
      * injection HT as ->. auto.
    + destruct (adapts C (sr_mid s)).
      * destruct (ladder_view C n VC _ _ _ _ Wm HLad) as [_ [b [_ [_ V]]]]. apply V; auto.
      * injection HLad as ->. auto.
Qed.

Lemma sruns_walk : forall D h i G Gf, Forall (scount C U n D) h -> sfollow i G h Gf -> 0 <= i ->
  forall r, (r < n)%nat -> 0 <= l_acc (loc_at G r) <= i ->
  exists xs, walks D r (hbatches h) xs /\
    numbered i (l_acc (loc_at G r)) (rows_in xs) (decisions xs) /\
    l_acc (loc_at Gf r) = l_acc (loc_at G r) + ctrue (decisions xs) /\
    Z.of_nat (length (rows_in xs)) = zsum (map sr_len h) /\
    Forall2 (fun b e => l_it (loc_at (br_mid b) r) = e) (hbatches h) (ends i (hbatches h)).
Proof.
  intros D. induction h as [|s h IH]; intros i G Gf HF HS Hi r Hr Ha; cbn [sfollow] in HS.
  - subst. exists []. unfold rows_in, decisions, hbatches. cbn. split; [constructor|]. split; [constructor|]. split; [lia|]. split; [lia|constructor].
  - destruct HS as [Hfrom [Hin Hs]]. pose proof (Forall_inv HF) as H1. pose proof (Forall_inv_tail HF) as H2.
    destruct (stack_acc D s H1 r Hr) as [A1 A2]. assert (H1' := H1).
    destruct H1' as [Hl [_ [He [_ [_ [Wp [_ [_ [_ [_ [Hz [_ [_ [HB [_ [_ [I _]]]]]]]]]]]]]]]]].
    unfold sr_end in *.
    pose proof (vc_sum _ _ VC) as Hsum. pose proof (vc_stack _ _ VC) as Hst.
    destruct (bruns_walk D (sr_from s) _ _ _ _ _ _ _ _ _ _ HB Wp) with (r := r) as [xs [X1 [X2 [X3 [X4 X5]]]]]; try lia.
    { intros q Hq. destruct (I q Hq) as [_ [-> _]]. lia. }
    { rewrite A1, Hin. lia. }
    rewrite Z.add_0_r, A1, Hin in *.
    assert (Lr : length (rows_in xs) = length (decisions xs)) by (apply (numbered_nth _ _ _ _ X2)).
    pose proof (ctrue_range (decisions xs)) as Hc.
    destruct (IH (i + sr_len s) (sr_post s) Gf H2 Hs) with (r := r) as [ys [Y1 [Y2 [Y3 [Y4 Y5]]]]]; try lia.
    exists (xs ++ ys). unfold hbatches in *. cbn [map concat zsum]. rewrite rows_in_app, decisions_app.
    split; [apply Forall2_app3; auto|].
    rewrite <- Hfrom. split.
    { apply numbered_app; auto. rewrite X4. replace (sr_from s + (sr_len s - 0)) with (i + sr_len s) by lia.
      rewrite <- X3, <- A2. auto. }
    split; [rewrite ctrue_app; lia|]. split; [rewrite app_length; lia|].
    rewrite ends_app. apply Forall2_app3; auto. rewrite Hz, Hfrom. auto.
Qed.

Lemma init_acc : forall D G0 h Gf, history S D G0 h Gf -> forall r, (r < n)%nat ->
  l_it (loc_at G0 r) = 0 /\ l_acc (loc_at G0 r) = 0.
Proof.
  intros D G0 h Gf [_ [[lg HI] _]] r Hr. destruct (init_view S HL _ _ _ HI) as [_ [V _]].
  destruct (V r Hr) as [_ [_ [-> _]]]. auto.
Qed.

Lemma history_count : forall D G0 h Gf, history S D G0 h Gf ->
  zsum (map sr_len h) = N_iter C /\ Forall (scount C U n D) h /\ sfollow 0 G0 h Gf /\ wf C n Gf /\
  (forall r, (r < n)%nat -> l_it (loc_at Gf r) = N_iter C).
Proof.
  intros D G0 h Gf HH. pose proof HH as [_ [[lg HI] HS]]. destruct (init_view S HL _ _ _ HI) as [W0 _].
  pose proof (vc_iter _ _ VC). pose proof (vc_stack _ _ VC).
  destruct (sruns_count C U n D RK VC VU _ _ _ _ _ HS W0) as [Q1 [Q2 [Q3 [Q4 Q5]]]]; try lia.
  { intros r Hr. apply (init_acc _ _ _ _ HH r Hr). }
  rewrite Z.sub_0_r in Q1. auto.
Qed.

Lemma history_walks : forall D G0 h Gf, history S D G0 h Gf -> forall r, (r < n)%nat ->
  exists xs, walks D r (hbatches h) xs /\
    numbered 0 0 (rows_in xs) (decisions xs) /\ l_acc (loc_at Gf r) = ctrue (decisions xs) /\
    Z.of_nat (length (rows_in xs)) = N_iter C /\
    Forall2 (fun b e => l_it (loc_at (br_mid b) r) = e) (hbatches h) (ends 0 (hbatches h)).
Proof.
  intros D G0 h Gf HH r Hr. destruct (history_count _ _ _ _ HH) as [Z1 [F [SF _]]].
  destruct (init_acc _ _ _ _ HH r Hr) as [_ A0].
  destruct (sruns_walk D h 0 G0 Gf F SF ltac:(lia) r Hr ltac:(lia)) as [xs [X1 [X2 [X3 [X4 X5]]]]].
  rewrite A0 in *. exists xs. rewrite Z1 in X4. auto.
Qed.

(** the saved batches are the last ones *)
Lemma ends_split : forall sb bl a, Forall (fun b : brec (A := A) => 1 <= br_len b) bl ->
  exists b1 b2, bl = b1 ++ b2 /\ Forall (fun e => e < sb) (ends a b1) /\
    Forall (fun e => sb <= e) (ends (a + zsum (map br_len b1)) b2).
Proof.
  intros sb. assert (K : forall bl a, Forall (fun b : brec (A := A) => 1 <= br_len b) bl -> sb <= a -> Forall (fun e => sb <= e) (ends a bl)).
  { induction bl as [|b bl IH]; intros a H Ha; cbn [ends]; constructor; pose proof (Forall_inv H) as H1; pose proof (Forall_inv_tail H) as H2; cbn beta in H1.
    - lia.
    - apply IH; auto; lia. }
  induction bl as [|b bl IH]; intros a H.
  - exists [], []. repeat split; constructor.
  - pose proof (Forall_inv H) as H1. pose proof (Forall_inv_tail H) as H2. destruct (Z_lt_le_dec (a + br_len b) sb).
    + destruct (IH (a + br_len b) H2) as [b1 [b2 [-> [E1 E2]]]]. exists (b :: b1), b2. split; auto.
      cbn [ends map zsum]. rewrite <- Z.add_assoc in E2. split; [constructor; auto|]. rewrite Z.add_assoc. rewrite Z.add_assoc in E2. auto.
    + exists [], (b :: bl). cbn [app ends map zsum]. rewrite Z.add_0_r. split; [auto|]. split; [constructor|].
      constructor; [lia|]. apply K; [auto|lia].
Qed.

Lemma chain_rows_hb : forall r h, chain_rows r h = concat (map (fun b => file (FChain r) (br_rows b)) (hbatches (A := A) h)).
Proof.
  intros r h. unfold chain_rows, hbatches. induction h as [|s h IH]; cbn [map concat]; auto.
  rewrite IH, map_app, concat_app. auto.
Qed.

Lemma Forall2_app_inv_l' : forall {X Y} (P : X -> Y -> Prop) a b c, Forall2 P (a ++ b) c ->
  exists c1 c2, Forall2 P a c1 /\ Forall2 P b c2 /\ c = c1 ++ c2.
Proof. intros X Y P a b c H. destruct (Forall2_app_inv_l _ _ H) as [c1 [c2 [H1 [H2 H3]]]]. eauto. Qed.

Lemma saved_none : forall D r bl xs es, walks D r bl xs ->
  Forall2 (fun b e => l_it (loc_at (br_mid b) r) = e) bl es -> Forall (fun e => e < i_save_begin C) es ->
  concat (map (fun b => file (FChain r) (br_rows b)) bl) = [].
Proof.
  intros D r bl xs es H. revert es. induction H as [|b x bl xs [_ [_ [_ Hf]]] H IH]; intros es He Hs; auto.
  inversion He; subst. cbn [map concat]. rewrite Hf. pose proof (Forall_inv Hs) as K. cbn beta in K.
  destruct (Z.leb_spec (i_save_begin C) (l_it (loc_at (br_mid b) r))); [lia|]. cbn [app]. eapply IH; eauto. eapply Forall_inv_tail; eauto.
Qed.

Lemma saved_all : forall D r bl xs es, walks D r bl xs ->
  Forall2 (fun b e => l_it (loc_at (br_mid b) r) = e) bl es -> Forall (fun e => i_save_begin C <= e) es ->
  concat (map (fun b => file (FChain r) (br_rows b)) bl) = map (EvRow r) (rows_in xs).
Proof.
  intros D r bl xs es H. revert es. induction H as [|b x bl xs [_ [_ [_ Hf]]] H IH]; intros es He Hs; auto.
  inversion He; subst. unfold rows_in in *. cbn [map concat]. rewrite Hf. pose proof (Forall_inv Hs) as K. cbn beta in K.
  destruct (Z.leb_spec (i_save_begin C) (l_it (loc_at (br_mid b) r))); [|lia]. rewrite map_app. f_equal.
  eapply IH; eauto. eapply Forall_inv_tail; eauto.
Qed.

Lemma hb_len : forall D h, Forall (scount C U n D) h -> Forall (fun b => 1 <= br_len b <= n_iter_a_batch_base C + n_iter_a_batch_rand C) (hbatches h).
Proof.
  intros D h H. unfold hbatches. induction H as [|s h Hs H IH]; cbn [map concat]; auto. apply Forall_app. split; auto.
  destruct Hs as [_ [_ [_ [_ [_ [_ [_ [_ [_ [_ [_ [F _]]]]]]]]]]]]. eapply Forall_impl; [|exact F]. intros b Hb. apply Hb.
Qed.

(** the chain file: initial row, then the rows of all batches that end at or after i_save_begin *)
Lemma history_saved : forall D G0 h Gf, history S D G0 h Gf ->
  forall k tr X, execution S k tr X -> complete S X -> forall r, (r < n)%nat ->
  exists bl1 bl2 xs1 xs2,
    hbatches h = bl1 ++ bl2 /\ walks D r bl1 xs1 /\ walks D r bl2 xs2 /\
    Forall (fun e => e < i_save_begin C) (ends 0 bl1) /\
    Forall (fun e => i_save_begin C <= e) (ends (zsum (map br_len bl1)) bl2) /\
    zsum (map br_len bl1) + zsum (map br_len bl2) = N_iter C /\
    numbered 0 0 (rows_in xs1) (decisions xs1) /\
    numbered (zsum (map br_len bl1)) (ctrue (decisions xs1)) (rows_in xs2) (decisions xs2) /\
    Z.of_nat (length (rows_in xs1)) = zsum (map br_len bl1) /\
    Z.of_nat (length (rows_in xs2)) = zsum (map br_len bl2) /\
    l_acc (loc_at Gf r) = ctrue (decisions xs1) + ctrue (decisions xs2) /\
    file (FChain r) tr = EvRow r (mkRow (x_at G0 r) (lp_at G0 r) 0 0) :: map (EvRow r) (rows_in xs2).
Proof.
  intros D G0 h Gf HH k tr X HE HC r Hr.
  destruct (history_files S HL _ _ _ _ HH _ _ _ HE HC) as [F _]. destruct (F r Hr) as [FC _].
  destruct (history_walks _ _ _ _ HH r Hr) as [xs [X1 [X2 [X3 [X4 X5]]]]].
  destruct (history_count _ _ _ _ HH) as [_ [FS _]]. pose proof (hb_len _ _ FS) as HLn.
  destruct (ends_split (i_save_begin C) (hbatches h) 0) as [b1 [b2 [E [E1 E2]]]].
  { eapply Forall_impl; [|exact HLn]. cbn beta. lia. }
  rewrite Z.add_0_l in E2. rewrite E in *.
  destruct (Forall2_app_inv_l' _ _ _ _ X1) as [xs1 [xs2 [W1 [W2 ->]]]].
  assert (Ln : forall bl ys, walks D r bl ys -> Z.of_nat (length (rows_in ys)) = zsum (map br_len bl)).
  { induction 1 as [|b y bl ys [_ [L _]] Hw IH]; auto. unfold rows_in in *. cbn [map concat zsum]. rewrite app_length. lia. }
  rewrite ends_app, Z.add_0_l in X5. destruct (Forall2_app_inv_l' _ _ _ _ X5) as [e1 [e2 [V1 [V2 EV]]]].
  assert (LE : forall bl a, length (ends a bl) = length bl) by (induction bl; intros; cbn [ends length]; auto).
  assert (L1 : length e1 = length (ends 0 b1)) by (rewrite LE; symmetry; clear - V1; induction V1; cbn [length]; auto).
  assert (EE : ends 0 b1 = e1 /\ ends (zsum (map br_len b1)) b2 = e2).
  { clear - EV L1. revert e1 L1 EV. generalize (ends 0 b1). intros l1.
    induction l1 as [|a l1 IH]; intros [|c e1] L1 EV; simpl in L1; try discriminate; cbn [app] in EV; auto.
    injection EV; intros EV' ->. destruct (IH e1 ltac:(lia) EV') as [-> ->]. auto. }
  destruct EE; subst e1 e2.
  rewrite rows_in_app, decisions_app in *.
  assert (N12 : forall (R1 : list (crow A)) B1 it acc R2 B2, length R1 = length B1 -> numbered it acc (R1 ++ R2) (B1 ++ B2) ->
     numbered it acc R1 B1 /\ numbered (it + Z.of_nat (length R1)) (acc + ctrue B1) R2 B2).
  { clear. induction R1 as [|q R1 IH]; intros [|b B1] it acc R2 B2 L H; try discriminate L; cbn [app length ctrue] in *.
    - rewrite !Z.add_0_r. split; [constructor|auto].
    - inversion H; subst. destruct (IH B1 _ _ R2 B2 ltac:(lia) H8) as [J1 J2]. split; [constructor; auto|].
      replace (it + Z.of_nat (Datatypes.S (length R1))) with (it + 1 + Z.of_nat (length R1)) by lia. rewrite Z.add_assoc. auto. }
  assert (LB : forall bl ys, walks D r bl ys -> length (rows_in ys) = length (decisions ys)).
  { induction 1 as [|b y bl ys [Hw1 _] Hw IH]; auto. unfold rows_in, decisions in *. cbn [map concat]. rewrite !app_length.
    destruct (walk_numbered _ _ _ _ _ _ _ _ _ _ Hw1). lia. }
  destruct (N12 _ _ _ _ _ _ (LB _ _ W1) X2) as [N1 N2]. rewrite (Ln _ _ W1) in N2.
  exists b1, b2, xs1, xs2. pose proof (Ln _ _ W1) as Q1. pose proof (Ln _ _ W2) as Q2.
  split; [auto|]. split; [auto|]. split; [auto|]. split; [auto|]. split; [auto|].
  split; [rewrite app_length in X4; lia|]. split; [auto|]. split; [auto|]. split; [auto|]. split; [auto|].
  split; [rewrite ctrue_app in X3; lia|].
  rewrite FC. f_equal. rewrite chain_rows_hb, E, map_app, concat_app.
  rewrite (saved_none D r b1 xs1 _ W1 V1 E1). cbn [app]. apply (saved_all D r b2 xs2 _ W2 V2 E2).
Qed.
End Run.
