(** Every execution writes what its history says. *)
From Coq Require Import ZArith Arith List Bool Lia Permutation.
From Verif Require Import Base Arith B64 Rand Mh Ladder Tune Mpi MpiMeta Spmd Prog Seq ListAux MhSpec SeqWf Refine
  SeqTotal System RandRange Demo Runs SeqFiles History Views.
Import ListNotations.
Open Scope Z_scope.

(** the data every rank holds after loading *)
Definition dataset {A} (S : Setup A) (D : Data A) : Prop :=
  exists nl arr, e_nlines (s_env S) = OK nl /\ e_data (s_env S) nl = OK arr /\ D = mkData nl arr.

(** [history S D G0 h Gf]: with data D the run starts in G0, goes through the stacks h, ends in Gf *)
Definition history {A} (S : Setup A) (D : Data A) (G0 : gst (A := A)) (h : list (srec (A := A))) (Gf : gst (A := A)) : Prop :=
  dataset S D /\
  (exists lg, seq_init (s_cfg S) (s_user S) (s_n S) (s_env S) D = OK (G0, lg)) /\
  sruns (s_cfg S) (s_user S) (s_n S) D 0 (n_iter_a_stack (s_cfg S)) G0 h Gf.

Section Det.
Context {A : Arith}.
Variable C : Cfg A.
Variable U : User A.
Variable n : nat.
Variable D : Data A.

Lemma bruns_det : forall len i G isw nsw npr bl G' a b, bruns C U n D len i G isw nsw npr bl G' a b ->
  forall bl2 G2 a2 b2, bruns C U n D len i G isw nsw npr bl2 G2 a2 b2 -> bl = bl2 /\ G' = G2 /\ a = a2 /\ b = b2.
Proof.
  induction 1; intros bl2 G2' a2 b2 H'; inversion H'; subst; try lia; auto.
  match goal with H1 : getloc G root = OK ?x, H2 : getloc G root = OK ?y |- _ => assert (x = y) by congruence; subst end.
  match goal with H1 : next_batch _ _ _ _ = OK ?x, H2 : next_batch _ _ _ _ = OK ?y |- _ => assert (HH : x = y) by congruence; injection HH; intros; subst; clear HH end.
  match goal with H1 : with_g0 G _ = OK ?x, H2 : with_g0 G _ = OK ?y |- _ => assert (x = y) by congruence; subst end.
  match goal with H1 : seq_batch _ _ _ _ _ _ = OK ?x, H2 : seq_batch _ _ _ _ _ _ = OK ?y |- _ => assert (HH : x = y) by congruence; injection HH; intros; subst; clear HH end.
  match goal with H1 : foldM _ _ _ = OK ?x, H2 : foldM _ _ _ = OK ?y |- _ => assert (HH : x = y) by congruence; injection HH; intros; subst; clear HH end.
  match goal with H1 : bruns _ _ _ _ _ _ _ _ _ _ bl0 _ _ _ |- _ => destruct (IHbruns _ _ _ _ H1) as [-> [-> [-> ->]]] end. auto.
Qed.

Lemma sruns_det : forall i len G h G', sruns C U n D i len G h G' ->
  forall h2 G2, sruns C U n D i len G h2 G2 -> h = h2 /\ G' = G2.
Proof.
  induction 1; intros h2 G2' H'; inversion H'; subst; try lia; auto.
  match goal with H1 : i32 _ = OK ?x, H2 : i32 _ = OK ?y |- _ => assert (x = y) by congruence; subst end.
  match goal with H1 : bruns _ _ _ _ _ _ _ _ _ _ bl _ _ _, H2 : bruns _ _ _ _ _ _ _ _ _ _ bl0 _ _ _ |- _ =>
    destruct (bruns_det _ _ _ _ _ _ _ _ _ _ H1 _ _ _ _ H2) as [-> [-> [-> ->]]] end.
  match goal with H1 : (if adapts _ ?g then _ else _) = OK ?x, H2 : (if adapts _ ?g then _ else _) = OK ?y |- _ => assert (x = y) by congruence; subst end.
  match goal with H1 : (if tunes _ ?g then _ else _) = OK ?x, H2 : (if tunes _ ?g then _ else _) = OK ?y |- _ => assert (x = y) by congruence; subst end.
  match goal with H1 : sruns _ _ _ _ _ _ _ hl0 _ |- _ => destruct (IHsruns _ _ H1) as [-> ->] end. auto.
Qed.
End Det.

Section R.
Context {A : Arith}.
Variable S : Setup A.
Hypothesis HL : Legal S.
Notation C := (s_cfg S).
Notation U := (s_user S).
Notation n := (s_n S).
Notation E := (s_env S).

Lemma dataset_unique : forall D D', dataset S D -> dataset S D' -> D = D'.
Proof. intros D D' [a [b [H1 [H2 ->]]]] [a' [b' [H1' [H2' ->]]]]. congruence. Qed.

Lemma history_unique : forall D G0 h Gf D' G0' h' Gf', history S D G0 h Gf -> history S D' G0' h' Gf' ->
  D = D' /\ G0 = G0' /\ h = h' /\ Gf = Gf'.
Proof.
  intros D G0 h Gf D' G0' h' Gf' [D1 [[l1 I1] R1]] [D2 [[l2 I2] R2]].
  pose proof (dataset_unique _ _ D1 D2); subst D'. rewrite I1 in I2. injection I2; intros; subst.
  destruct (sruns_det _ _ _ _ _ _ _ _ _ R1 _ _ R2); auto.
Qed.

Lemma firstn_snoc : forall {X} (l : list X) k v, nth_error l k = Some v -> firstn (Datatypes.S k) l = firstn k l ++ [v].
Proof.
  induction l as [|a l IH]; intros [|k] v H; try discriminate; simpl in H.
  - injection H; intros; subst. auto.
  - change (a :: firstn (Datatypes.S k) l = a :: (firstn k l ++ [v])). f_equal. apply IH; auto.
Qed.

(** state after the initialisation *)
Lemma copy_betas_eq : forall b, copy_betas C n = OK b -> b = firstn n (Beta_Values C).
Proof.
  intros b H. destruct HL as [RK [VC _]]. pose proof (vc_betas _ _ VC) as Hb.
  unfold copy_betas in H.
  apply (for_from_inv (fun i b => b = firstn (Z.to_nat i) (Beta_Values C))) in H; auto.
  - rewrite H. unfold zn. f_equal. lia.
  - intros j t t' Hj -> Hb'. rinv. match goal with H : zget _ _ = OK _ |- _ => apply zget_ok_inv in H; destruct H as [_ Hv] end.
    replace (Z.to_nat (j + 1)) with (Datatypes.S (Z.to_nat j)) by lia.
    rewrite (firstn_snoc _ _ _ Hv). auto.
Qed.

Lemma file_map2_row : forall r k a (l : list (list (num A) * num A)) (d : list (num A) * num A), (a <= r < a + k)%nat -> length l = k ->
  file (FChain r) (map2 (fun r xl => (r, EvRow r (mkRow (fst xl) (snd xl) 0 0))) (seq a k) l)
  = [EvRow r (mkRow (fst (nth (r - a) l d)) (snd (nth (r - a) l d)) 0 0)].
Proof.
  assert (Z : forall r k a (l : list (list (num A) * num A)), (r < a)%nat ->
    file (FChain r) (map2 (fun r xl => (r, EvRow r (mkRow (fst xl) (snd xl) 0 0))) (seq a k) l) = []).
  { induction k as [|k IH]; intros a l Ha; simpl; auto. destruct l; simpl; auto.
    unfold file in *. simpl. destruct (Nat.eqb_spec a r); [lia|]. apply IH; lia. }
  induction k as [|k IH]; intros a l d Ha Hl; [lia|]. destruct l as [|x l]; simpl in Hl; [lia|].
  simpl. unfold file. simpl. destruct (Nat.eqb_spec a r) as [->|Hne].
  - rewrite Nat.sub_diag. f_equal. apply (Z r k (Datatypes.S r) l). lia.
  - destruct (r - a)%nat as [|m] eqn:Em; [lia|]. replace m with (r - Datatypes.S a)%nat by lia. apply IH; lia.
Qed.

Lemma file_map_one : forall f (g : nat -> event A) r k a, (a <= r < a + k)%nat ->
  (forall q, in_file f (g q) = Nat.eqb q r) -> file f (map (fun q => (q, g q)) (seq a k)) = [g r].
Proof.
  intros f g r k. induction k as [|k IH]; intros a Ha Hf; [lia|]. simpl. unfold file. simpl. rewrite Hf.
  destruct (Nat.eqb_spec a r) as [->|Hne].
  - f_equal. clear - Hf. assert (Z : forall k a, (r < a)%nat -> filter (in_file f) (map snd (map (fun q => (q, g q)) (seq a k))) = []).
    { induction k0 as [|k0 IH]; intros a Ha; simpl; auto. rewrite Hf. destruct (Nat.eqb_spec a r); [lia|]. apply IH; lia. }
    apply Z; lia.
  - apply IH; auto; lia.
Qed.

Lemma init_view : forall D G0 lg, seq_init C U n E D = OK (G0, lg) ->
  wf C n G0 /\
  (forall r, (r < n)%nat ->
    x_at G0 r = fst (u_init U (seed_of C n E r)) /\
    lp_at G0 r = logpost_at U D (x_at G0 r) (nth r (Beta_Values C) (nof 0)) /\
    loc_at G0 r = mkLoc (snd (u_init U (seed_of C n E r))) (u_gp U) 0 0 (firstn n (Beta_Values C)) /\
    sigt_at G0 r = u_gp U /\
    file (FChain r) lg = [EvRow r (mkRow (x_at G0 r) (lp_at G0 r) 0 0)] /\
    file (FSigma r) lg = [EvSigma r (u_gp U)]) /\
  file FBeta lg = [].
Proof.
  intros D G0 lg H. pose proof HL as [RK [VC [VU VE]]].
  pose proof (seq_init_wf C U n (vu_ok _ _ VU) (vc_n _ _ VC) _ _ _ _ H) as W. split; auto.
  unfold seq_init in H. rinv. rename v into lp.
  match goal with H : copy_betas _ _ = _ |- _ => apply copy_betas_eq in H; subst end.
  match goal with H : tab _ _ = OK _ |- _ => apply (tab_ok n _ _ (nof 0)) in H; destruct H as [L0 F0] end.
  pose proof (vc_betas _ _ VC) as Hb.
  split.
  - intros r Hr. specialize (F0 r Hr).
    rewrite (zget_nat _ r []) in F0 by (rewrite !map_length; unfold ranks; rewrite seq_length; auto).
    cbn [rbind] in F0. rewrite (zget_nat _ r (nof 0)) in F0 by lia. cbn [rbind] in F0.
    injection F0 as F0.
    unfold x_at, lp_at, loc_at, sigt_at. cbn [g_ro g_locs transit lps sigt].
    assert (X : nth r (map fst (map (fun r => u_init U (seed_of C n E r)) (ranks n))) [] = fst (u_init U (seed_of C n E r))).
    { rewrite map_map. unfold ranks. rewrite (map_nth2 _ _ r 0%nat) by (rewrite seq_length; auto). rewrite nth_seq0; auto. }
    split; [exact X|]. split; [symmetry; exact F0|]. split.
    { rewrite map_map. unfold ranks. rewrite (map_nth2 _ _ r 0%nat) by (rewrite seq_length; auto). rewrite nth_seq0; auto. }
    split.
    { unfold ranks. rewrite (map_nth2 _ _ r 0%nat) by (rewrite seq_length; auto). auto. }
    change ((root, @EvInit A ?x) :: ?y) with ([(root, EvInit x)] ++ y).
    rewrite !file_app.
    split.
    + rewrite (file_map_none (FChain r) (fun r => EvSeed r (u2i (seed_of C n E r)))) by reflexivity.
      rewrite (file_map_none (FChain r) (fun r => EvSigma r (u_gp U))) by reflexivity.
      unfold ranks at 2. rewrite (file_map2_row r n 0 _ ([], nof 0)); try lia.
      2:{ rewrite combine_length, !map_length. unfold ranks. rewrite seq_length. lia. }
      rewrite Nat.sub_0_r. rewrite combine_nth by (rewrite !map_length; unfold ranks; rewrite seq_length; auto).
      reflexivity.
    + rewrite (file_map_none (FSigma r) (fun r => EvSeed r (u2i (seed_of C n E r)))) by reflexivity.
      rewrite !(map2_rows_none _ (fun r xl => EvRow r (mkRow (fst xl) (snd xl) 0 0))) by reflexivity.
      unfold ranks at 2. rewrite (file_map_one (FSigma r) (fun r => EvSigma r (u_gp U)) r n 0); auto. lia.
  - change ((root, @EvInit A ?x) :: ?y) with ([(root, EvInit x)] ++ y).
    rewrite !file_app.
    rewrite (file_map_none FBeta (fun r => EvSeed r (u2i (seed_of C n E r)))) by reflexivity.
    rewrite (file_map_none FBeta (fun r => EvSigma r (u_gp U))) by reflexivity.
    rewrite !(map2_rows_none _ (fun r xl => EvRow r (mkRow (fst xl) (snd xl) 0 0))) by reflexivity.
    reflexivity.
Qed.

Lemma file_map2_sigma : forall r k a (l : list (loc (A := A))), (a <= r < a + k)%nat -> length l = k ->
  file (FSigma r) (map2 (fun r x => (r, EvSigma r (l_sig x))) (seq a k) l) = [EvSigma r (l_sig (nth (r - a) l dloc))].
Proof.
  assert (Z : forall r k a (l : list (loc (A := A))), (r < a)%nat ->
    file (FSigma r) (map2 (fun r x => (r, EvSigma r (l_sig x))) (seq a k) l) = []).
  { induction k as [|k IH]; intros a l Ha; simpl; auto. destruct l; simpl; auto.
    unfold file in *. simpl. destruct (Nat.eqb_spec a r); [lia|]. apply IH; lia. }
  induction k as [|k IH]; intros a l Ha Hl; [lia|]. destruct l as [|x l]; simpl in Hl; [lia|].
  simpl. unfold file. simpl. destruct (Nat.eqb_spec a r) as [->|Hne].
  - rewrite Nat.sub_diag. f_equal. apply (Z r k (Datatypes.S r) l). lia.
  - destruct (r - a)%nat as [|m] eqn:Em; [lia|]. replace m with (r - Datatypes.S a)%nat by lia. apply IH; lia.
Qed.

Lemma file_map2_sigma_none : forall f k a (l : list (loc (A := A))), (forall r x, in_file f (EvSigma (A := A) r x) = false) ->
  file f (map2 (fun r x => (r, EvSigma r (l_sig x))) (seq a k) l) = [].
Proof.
  induction k as [|k IH]; intros a l H; simpl; auto. destruct l; simpl; auto.
  unfold file. simpl. rewrite H. apply IH; auto.
Qed.

Lemma file_concat : forall f (l : list (list (nat * event A))), file f (concat l) = concat (map (file f) l).
Proof. induction l; simpl; auto. rewrite file_app, IHl. auto. Qed.

(** a batch writes rows only *)
Lemma file_rows_none : forall f k a (bs : list (batch_out (A := A))), (forall r x, in_file f (EvRow (A := A) r x) = false) ->
  file f (concat (map2 rows_log (seq a k) bs)) = [].
Proof.
  induction k as [|k IH]; intros a bs H; simpl; auto. destruct bs as [|b bs]; simpl; auto.
  rewrite file_app, IH by auto. rewrite app_nil_r. unfold rows_log, file.
  induction (b_saved b) as [|x l IHl]; simpl; auto. rewrite H. auto.
Qed.

Lemma bruns_rows_none : forall D f len i G isw nsw npr bl G' a b,
  bruns C U n D len i G isw nsw npr bl G' a b -> (forall r x, in_file f (EvRow (A := A) r x) = false) ->
  concat (map (fun x => file f (br_rows x)) bl) = [].
Proof.
  induction 1; intros Hf; simpl; auto. rewrite IHbruns by auto. rewrite app_nil_r.
  unfold seq_batch in *. rinv. apply (file_rows_none f n 0); auto.
Qed.

(** rows of rank r in the chain file, after the initial one *)
Definition chain_rows (r : nat) (h : list (srec (A := A))) : list (event A) :=
  concat (map (fun s => concat (map (fun b => file (FChain r) (br_rows b)) (sr_batches s))) h).

Lemma sruns_files : forall D i len G h G', sruns C U n D i len G h G' -> wf C n G -> 
  let lg := concat (map (stack_log n) h) in
  (forall r, (r < n)%nat -> file (FChain r) lg = chain_rows r h /\
     file (FSigma r) lg = map (fun s => EvSigma r (l_sig (loc_at (sr_pre s) r))) h) /\
  file FBeta lg = map (fun s => EvBeta (l_beta (loc_at (sr_pre s) 0))) h.
Proof.
  intros D i len G h G' HR W. pose proof HL as [RK [VC [VU VE]]].
  destruct (sruns_all C U n D RK VC VU (fun _ => True)) with (i := i) (len := len) (G := G) (h := h) (G' := G') as [HA _]; auto.
  { split; auto. }
  revert HA. induction HR; intros HA; cbn zeta.
  - simpl. auto.
  - pose proof (Forall_inv HA) as HA1. pose proof (Forall_inv_tail HA) as HA2. clear HA. cbn [map concat].
    destruct (IHHR (proj1 (proj2 (proj2 (proj2 (proj2 (proj2 HA1)))))) HA2) as [I1 I2].
    assert (Wd : wf C n (seq_distribute G (sigt (g_ro G)))) by apply HA1.
    assert (Ld : length (g_locs (seq_distribute G (sigt (g_ro G)))) = n) by (apply (wf_locs _ _ _ Wd)).
    rewrite ?file_app. unfold stack_log at 1 3. cbn [sr_pre sr_batches]. unfold ranks.
    set (G1' := seq_distribute G (sigt (g_ro G))) in *.
    change ((root, @EvBeta A ?x) :: ?y) with ([(root, EvBeta x)] ++ y).
    split.
    + intros r Hr. destruct (I1 r Hr) as [J1 J2]. rewrite ?file_app. rewrite !J1, !J2.
      unfold stack_log. cbn [sr_pre sr_batches]. unfold ranks. fold G1'.
      change ((root, @EvBeta A ?x) :: ?y) with ([(root, EvBeta x)] ++ y). rewrite ?file_app, ?file_concat, ?map_map.
      rewrite (file_map2_sigma_none (FChain r) n 0) by reflexivity.
      rewrite (file_map2_sigma r n 0) by lia. rewrite Nat.sub_0_r.
      rewrite (bruns_rows_none D (FSigma r) _ _ _ _ _ _ _ _ _ _ H3) by reflexivity.
      split; reflexivity.
    + rewrite ?file_app. rewrite I2. unfold stack_log. cbn [sr_pre sr_batches]. unfold ranks. fold G1'.
      change ((root, @EvBeta A ?x) :: ?y) with ([(root, EvBeta x)] ++ y).
      rewrite ?file_app, ?file_concat, ?map_map.
      rewrite (file_map2_sigma_none FBeta n 0) by reflexivity.
      rewrite (bruns_rows_none D FBeta _ _ _ _ _ _ _ _ _ _ H3) by reflexivity.
      reflexivity.
Qed.

Lemma history_exists : exists D G0 h Gf, history S D G0 h Gf.
Proof.
  destruct (reference_ok S HL) as [G [t H]]. unfold reference, seq_main in H. rinv.
  match goal with H : seq_flow_loop _ _ _ _ _ _ _ _ _ = _ |- _ => apply flow_loop_sruns in H; destruct H as [h [Hh _]] end.
  do 4 eexists. split; [|split].
  - do 2 eexists. split; [eassumption|]. split; [eassumption|reflexivity].
  - eexists. eassumption.
  - exact Hh.
Qed.

Lemma history_reference : forall D G0 h Gf, history S D G0 h Gf ->
  exists lg0, seq_init C U n E D = OK (G0, lg0) /\
    reference S = OK (Gf, (root, EvDir) :: lg0 ++ concat (map (stack_log n) h)).
Proof.
  intros D G0 h Gf [HD [[lg0 HI] HR]]. exists lg0. split; auto.
  destruct (reference_ok S HL) as [G [t H]]. pose proof H as H0. unfold reference, seq_main in H. rinv.
  destruct HD as [nl [arr [Hn [Ha ->]]]].
  match goal with H : e_nlines _ = OK ?v, H2 : e_nlines _ = OK ?w |- _ => assert (v = w) by congruence; subst end.
  match goal with H : e_data _ _ = OK ?v, H2 : e_data _ _ = OK ?w |- _ => assert (v = w) by congruence; subst end.
  match goal with H : seq_init _ _ _ _ _ = OK ?v, H2 : seq_init _ _ _ _ _ = OK ?w |- _ =>
    assert (HH : v = w) by congruence; injection HH; intros; subst; clear HH end.
  match goal with H : seq_flow_loop _ _ _ _ _ _ _ _ _ = _ |- _ => apply flow_loop_sruns in H; destruct H as [h' [Hh ->]] end.
  destruct (sruns_det _ _ _ _ _ _ _ _ _ HR _ _ Hh); subst. exact H0.
Qed.

(** the files of a completed execution *)
Theorem history_files : forall D G0 h Gf, history S D G0 h Gf ->
  forall k tr X, execution S k tr X -> complete S X ->
  (forall r, (r < n)%nat ->
     file (FChain r) tr = EvRow r (mkRow (x_at G0 r) (lp_at G0 r) 0 0) :: chain_rows r h /\
     file (FSigma r) tr = EvSigma r (u_gp U) :: map (fun s => EvSigma r (l_sig (loc_at (sr_pre s) r))) h) /\
  file FBeta tr = map (fun s => EvBeta (l_beta (loc_at (sr_pre s) 0))) h.
Proof.
  intros D G0 h Gf HH k tr X HE HC.
  destruct (history_reference _ _ _ _ HH) as [lg0 [HI HR]].
  destruct (legal_files S HL k tr X HE HC _ _ HR) as [_ HF].
  destruct (init_view _ _ _ HI) as [W [V1 V2]].
  destruct HH as [_ [_ Hs]]. destruct (sruns_files _ _ _ _ _ _ Hs W) as [F1 F2].
  split.
  - intros r Hr. destruct (V1 r Hr) as [_ [_ [_ [_ [Va Vb]]]]]. destruct (F1 r Hr) as [Fa Fb].
    split; rewrite HF by discriminate; change ((root, @EvDir A) :: ?x) with ([(root, @EvDir A)] ++ x); rewrite !file_app.
    + rewrite Va, Fa. reflexivity.
    + rewrite Vb, Fb. reflexivity.
  - rewrite HF by discriminate. change ((root, @EvDir A) :: ?x) with ([(root, @EvDir A)] ++ x); rewrite !file_app.
    rewrite V2, F2. reflexivity.
Qed.

(** the files of an execution that is cut off at any point are prefixes of these *)
Theorem history_prefix : forall D G0 h Gf, history S D G0 h Gf ->
  forall k tr X, execution S k tr X -> forall r, (r < n)%nat ->
  exists rest, EvRow r (mkRow (x_at G0 r) (lp_at G0 r) 0 0) :: chain_rows r h = file (FChain r) tr ++ rest.
Proof.
  intros D G0 h Gf HH k tr X HE r Hr.
  destruct (history_reference _ _ _ _ HH) as [lg0 [HI HR]].
  destruct (legal_prefix S HL k tr X HE _ _ HR (FChain r)) as [rest Hp]; [discriminate|].
  destruct (init_view _ _ _ HI) as [W [V1 V2]].
  destruct HH as [_ [_ Hs]]. destruct (sruns_files _ _ _ _ _ _ Hs W) as [F1 F2].
  exists rest. rewrite <- Hp. change ((root, @EvDir A) :: ?x) with ([(root, @EvDir A)] ++ x); rewrite !file_app.
  destruct (V1 r Hr) as [_ [_ [_ [_ [Va Vb]]]]]. destruct (F1 r Hr) as [Fa Fb]. rewrite Va, Fa. reflexivity.
Qed.

(** all states of a history are well formed, and satisfy whatever is preserved *)
Lemma history_all : forall (P : gst (A := A) -> Prop) D G0 h Gf, history S D G0 h Gf ->
  P G0 ->
  (forall G g G', wf C n G -> P G -> with_g0 G g = OK G' -> P G') ->
  (forall G nb G' lg, wf C n G -> P G -> seq_batch C U n D G nb = OK (G', lg) -> P G') ->
  (forall G i G' d, wf C n G -> P G -> 0 <= i < zn n - 1 -> seq_swap C U n D G i = OK (G', d) -> P G') ->
  (forall G, wf C n G -> P G -> P (seq_distribute G (sigt (g_ro G)))) ->
  (forall G nsw npr G', wf C n G -> P G -> adapts C G = true -> seq_ladder C n G nsw npr = OK G' -> P G') ->
  (forall G rk G', wf C n G -> P G -> 0 <= rk < zn n -> seq_tune_irank C U n D G rk = OK G' -> P G') ->
  Forall (sall C n P) h /\ wf C n Gf /\ P Gf.
Proof.
  intros P D G0 h Gf [_ [[lg0 HI] Hs]] P0 H1 H2 H3 H4 H5 H6. pose proof HL as [RK [VC [VU VE]]].
  destruct (init_view _ _ _ HI) as [W _].
  destruct (sruns_all C U n D RK VC VU P H1 H2 H3 H4 H5 H6 _ _ _ _ _ Hs (conj W P0)) as [F [W' P']]. auto.
Qed.

Lemma history_wf : forall D G0 h Gf, history S D G0 h Gf -> Forall (sall C n (fun _ => True)) h /\ wf C n G0 /\ wf C n Gf.
Proof.
  intros D G0 h Gf HH. destruct (history_all (fun _ => True) D G0 h Gf HH) as [F [W _]]; auto.
  destruct HH as [_ [[lg0 HI] _]]. destruct (init_view _ _ _ HI) as [W0 _]. auto.
Qed.
End R.

(** the states in which the ranks return from main *)
Lemma history_final : forall {A} (S : Setup A), Legal S -> forall D G0 h Gf, history S D G0 h Gf ->
  forall k tr X, execution S k tr X -> complete S X ->
  forall r, (r < s_n S)%nat -> pr X r = Ret (st_of Gf r).
Proof.
  intros A S HL D G0 h Gf HH k tr X HE HC r Hr. pose proof HL as [RK [VC [VU VE]]].
  destruct (history_reference S HL _ _ _ _ HH) as [lg0 [_ HR]].
  destruct (sys_given _ _ _ _ _ RK VC VU VE _ _ HR) as [N HN].
  destruct (HN k X (mrun_mstar _ _ _ _ _ HE)) as [_ [_ [_ [H4 _]]]].
  rewrite (H4 HC). cbn [final pr]. rewrite (proj2 (Nat.ltb_lt r _) Hr). reflexivity.
Qed.
