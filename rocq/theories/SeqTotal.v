(** Within the stated limits the sequential reference runs to the end: no undefined behaviour
    (out-of-bounds access, uninitialised read, signed overflow, bad conversion) and no lack of
    loop fuel. *)
From Coq Require Import ZArith Arith List Bool Lia.
From Verif Require Import Base Arith Rand Mh Ladder Tune Mpi Prog Seq ListAux MhSpec SeqWf.
Import ListNotations.
Open Scope Z_scope.

(** What the control flow needs from the random draws: an index below a lies in [0,a), a jitter
    of amplitude R lies in [-R,R].  Proved for binary64 and for the reals in RandRange.v. *)
Record RandOK (A : Arith) : Prop := {
  rk_0a : forall a g, 0 < a <= INT_MAX ->
    exists v, i4_unif_0a (A := A) a g = OK (v, lcg g) /\ 0 <= v < a;
  rk_ab : forall R g, 0 <= R -> 2 * R <= INT_MAX ->
    exists v, i4_unif_ab (A := A) (- R) R g = OK (v, lcg g) /\ - R <= v <= R
}.

(** The limits on the numbers of input.ini and on the number of ranks. *)
Record ValidCfg {A} (C : Cfg A) (n : nat) : Prop := {
  vc_n : (2 <= n)%nat;
  vc_nmax : Z.of_nat n <= INT_MAX;
  vc_np : 1 <= N_parm C;
  vc_iter : 0 <= N_iter C;
  vc_stack : 1 <= n_iter_a_stack C;
  vc_sum : N_iter C + n_iter_a_stack C <= INT_MAX;
  vc_rand : 0 <= n_iter_a_batch_rand C;
  vc_base : n_iter_a_batch_rand C < n_iter_a_batch_base C;
  vc_batch : n_iter_a_stack C + n_iter_a_batch_base C + n_iter_a_batch_rand C <= INT_MAX;
  vc_tune : 1 <= n_iter_in_tune C;
  vc_seed : 0 <= init_rand_seed C < UINT_MOD;
  vc_betas : (n <= length (Beta_Values C))%nat
}.

(** The user's functions return N_parm numbers and the width limits have N_parm entries. *)
Record ValidUser {A} (C : Cfg A) (U : User A) : Prop := {
  vu_ok : UserOK C U;
  vu_min : N_parm C <= Z.of_nat (length (u_sigmin U));
  vu_max : N_parm C <= Z.of_nat (length (u_sigmax U))
}.

(** The data file could be counted and read, into nline * ndim numbers. *)
Record ValidEnv {A} (E : Env (A := A)) (ndim : Z) : Prop := {
  ve_lines : exists nl arr, e_nlines E = OK nl /\ INT_MIN <= nl * ndim <= INT_MAX /\ e_data E nl = OK arr;
  ve_data : forall nl arr, e_data E nl = OK arr -> Z.of_nat (length arr) = nl * ndim
}.

Section Total.
Context {A : Arith}.
Variable C : Cfg A.
Variable U : User A.
Variable n : nat.
Variable E : Env (A := A).
Hypothesis RK : RandOK A.
Hypothesis VC : ValidCfg C n.
Hypothesis VU : ValidUser C U.
Notation row := (list (num A)).
Notation hl := (haslen (N_parm C)).
Notation wf := (wf C n).

Let UO : UserOK C U := vu_ok C U VU.
Let Hn : (2 <= n)%nat := vc_n C n VC.

Lemma getloc_ok : forall G r, wf G -> (r < n)%nat -> getloc G r = OK (nth r (g_locs G) dloc).
Proof. intros. unfold getloc. apply zget_nat. rewrite (wf_locs C n G H). auto. Qed.

Lemma loc_in : forall G r, wf G -> (r < n)%nat -> In (nth r (g_locs G) dloc) (g_locs G).
Proof. intros. apply nth_In. rewrite (wf_locs C n G H). auto. Qed.

Lemma zget_tot : forall {X} (l : list X) i (d : X), 0 <= i < Z.of_nat (length l) ->
  zget l i = OK (nth (Z.to_nat i) l d).
Proof.
  intros. unfold zget. destruct (Z.ltb_spec i 0); [lia|].
  rewrite (nth_error_nth2 l _ d) by lia. auto.
Qed.

Lemma with_g0_total : forall G g, wf G -> exists G', with_g0 G g = OK G' /\ wf G'.
Proof.
  intros. eexists. split; [apply (with_g0_ok C n Hn); auto|]. apply wf_g0; auto.
Qed.

Lemma seq_batch_total : forall D G nb, wf G -> 1 <= nb ->
  exists G' lg, seq_batch C U n D G nb = OK (G', lg) /\ wf G'.
Proof.
  intros D G nb W Hnb.
  assert (exists G' lg, seq_batch C U n D G nb = OK (G', lg)).
  { unfold seq_batch.
    destruct (tab_total n (batch_of C U D G nb)) as [bs ->].
    - intros r Hr. unfold batch_of.
      rewrite (zget_nat _ r []) by (rewrite (wf_tr _ _ _ W); auto).
      rewrite (zget_nat _ r (nof 0)) by (rewrite (wf_lps _ _ _ W); auto).
      rewrite getloc_ok by auto. cbn [rbind].
      rewrite (zget_nat _ r (nof 0)) by (rewrite (wf_beta _ _ _ W); auto; apply loc_in; auto).
      cbn [rbind]. eexists. apply iter_batch_mh_spec; auto.
      + apply UO.
      + apply (wf_sig _ _ _ W). apply loc_in; auto.
      + apply (wf_trrow _ _ _ W). apply nth_In. rewrite (wf_tr _ _ _ W); auto.
    - cbn [rbind]. eauto. }
  destruct H as [G' [lg H]]. exists G', lg. split; auto. eapply seq_batch_wf; eauto.
Qed.

Lemma choose_j_total : forall i g, 0 <= i < zn n - 1 ->
  exists j g', choose_j (A := A) C n i g = OK (j, g') /\ 0 <= j < zn n.
Proof.
  intros i g Hi. unfold choose_j. destruct (Swapmode C =? 1).
  - destruct (rk_0a _ RK (zn n - 1) g) as [v [-> Hv]].
    { pose proof (vc_nmax C n VC). unfold zn in *. lia. }
    cbn [rbind]. do 2 eexists; split; [reflexivity|]. destruct (i <=? v); lia.
  - do 2 eexists; split; [reflexivity|]. destruct (Swapmode C =? 0); lia.
Qed.

Lemma seq_swap_total : forall D G i, wf G -> 0 <= i < zn n - 1 ->
  exists G' d, seq_swap C U n D G i = OK (G', d) /\ wf G'.
Proof.
  intros D G i W Hi.
  assert (exists G' d, seq_swap C U n D G i = OK (G', d)).
  { unfold seq_swap. rewrite !getloc_ok by (auto; unfold root, slave_rank; lia). cbn [rbind].
    destruct (choose_j_total i (l_g (nth root (g_locs G) dloc)) Hi) as [j [g1 [-> Hj]]]. cbn [rbind].
    unfold zn in *.
    rewrite !(zget_tot (transit (g_ro G)) _ []) by (rewrite (wf_tr _ _ _ W); lia). cbn [rbind].
    rewrite !(zget_tot (lps (g_ro G)) _ (nof 0)) by (rewrite (wf_lps _ _ _ W); lia). cbn [rbind].
    rewrite !(zget_tot (l_beta _) _ (nof 0))
      by (rewrite (wf_beta _ _ _ W); try lia; apply loc_in; auto; unfold root, slave_rank; lia).
    cbn [rbind].
    match goal with |- context [let '(_, _) := ?e in _] => destruct e as [dsw g2] end.
    destruct (with_g0_total G g2 W) as [G1 [-> W1]]. cbn [rbind].
    destruct dsw; [|eauto].
    rewrite (zset_ok (transit (g_ro G))) by (rewrite (wf_tr _ _ _ W); lia). cbn [rbind].
    rewrite zset_ok by (rewrite lset_length, (wf_tr _ _ _ W); lia). cbn [rbind].
    rewrite (zset_ok (lps (g_ro G))) by (rewrite (wf_lps _ _ _ W); lia). cbn [rbind].
    rewrite zset_ok by (rewrite lset_length, (wf_lps _ _ _ W); lia). cbn [rbind]. eauto. }
  destruct H as [G' [d H]]. exists G', d. split; auto. eapply seq_swap_wf; eauto.
Qed.

Definition cntok (nsw npr : row) : Prop :=
  0 < Tune_Ladder C -> length nsw = n /\ length npr = n.

Lemma bump_total : forall (l : row) i d, 0 <= i < Z.of_nat (length l) ->
  exists l', bump l i d = OK l' /\ length l' = length l.
Proof.
  intros. unfold bump. rewrite (zget_tot l i (nof 0)) by auto. cbn [rbind].
  rewrite zset_ok by auto. eexists; split; [reflexivity|]. apply lset_length.
Qed.

Lemma seq_round_total : forall D k G isw nsw npr, wf G -> cntok nsw npr ->
  exists G' i' nsw' npr', seq_round C U n D k (G, isw, nsw, npr) = OK (G', i', nsw', npr') /\
    wf G' /\ cntok nsw' npr'.
Proof.
  intros D k G isw nsw npr W HC. unfold seq_round.
  rewrite getloc_ok by (auto; unfold root; lia). cbn [rbind].
  destruct (rk_0a _ RK (zn n - 1) (l_g (nth root (g_locs G) dloc))) as [i [-> Hi]].
  { pose proof (vc_nmax C n VC). unfold zn in *. lia. }
  cbn [rbind].
  destruct (with_g0_total G (lcg (l_g (nth root (g_locs G) dloc))) W) as [G1 [-> W1]]. cbn [rbind].
  destruct (seq_swap_total D G1 i W1 Hi) as [G2 [d [-> W2]]]. cbn [rbind].
  destruct (Z.ltb_spec 0 (Tune_Ladder C)).
  - destruct (HC H) as [H1 H2]. unfold zn in *.
    destruct (bump_total npr i 1) as [npr' [-> L1]]; [lia|]. cbn [rbind].
    destruct (bump_total nsw i d) as [nsw' [-> L2]]; [lia|]. cbn [rbind].
    do 4 eexists. split; [reflexivity|]. split; auto. intros _. lia.
  - do 4 eexists. split; [reflexivity|]. split; auto.
Qed.

Lemma seq_rounds_total : forall D l G isw nsw npr, wf G -> cntok nsw npr ->
  exists G' i' nsw' npr', foldM l (seq_round C U n D) (G, isw, nsw, npr) = OK (G', i', nsw', npr') /\
    wf G' /\ cntok nsw' npr'.
Proof.
  induction l as [|k l IH]; intros G isw nsw npr W HC; cbn [foldM].
  - do 4 eexists. split; [reflexivity|]. auto.
  - destruct (seq_round_total D k G isw nsw npr W HC) as [G1 [i1 [nsw1 [npr1 [-> [W1 HC1]]]]]].
    cbn [rbind]. apply IH; auto.
Qed.

(** the next batch: at least one iteration, never past the end of the stack *)
Lemma next_batch_total : forall len i_tmp g, 0 <= i_tmp < len -> len <= n_iter_a_stack C ->
  exists nx nb, next_batch C len i_tmp g = OK (nx, nb, lcg g) /\
    1 <= nb <= n_iter_a_batch_base C + n_iter_a_batch_rand C /\ nx = i_tmp + nb /\ nx <= len.
Proof.
  intros len i_tmp g Hi Hlen. unfold next_batch. destruct VC.
  unfold INT_MAX in *.
  rewrite i32_ok by (unfold INT_MIN, INT_MAX; lia). cbn [rbind].
  destruct (rk_ab _ RK (n_iter_a_batch_rand C) g) as [v [-> Hv]]; [lia|unfold INT_MAX; lia|].
  cbn [rbind].
  rewrite i32_ok by (unfold INT_MIN, INT_MAX; lia). cbn [rbind].
  rewrite i32_ok by (unfold INT_MIN, INT_MAX; lia). cbn [rbind].
  do 2 eexists. split; [reflexivity|].
  destruct (Z.ltb_spec len (i_tmp + (n_iter_a_batch_base C + v))); lia.
Qed.

Lemma seq_stack_loop_total : forall D len fuel G i_tmp isw nsw npr,
  wf G -> cntok nsw npr -> 0 <= i_tmp -> len <= n_iter_a_stack C -> (Z.to_nat (len - i_tmp) <= fuel)%nat ->
  exists G' nsw' npr' lg, seq_stack_loop C U n D len fuel G i_tmp i_tmp isw nsw npr = OK (G', nsw', npr', lg) /\
    wf G' /\ cntok nsw' npr'.
Proof.
  intros D len fuel. induction fuel as [|fuel IH]; intros G i_tmp isw nsw npr W HC Hi Hlen Hf;
    cbn [seq_stack_loop]; destruct (Z.ltb_spec i_tmp len); try lia.
  - do 4 eexists. split; [reflexivity|]. auto.
  - rewrite getloc_ok by (auto; unfold root; lia). cbn [rbind].
    destruct (next_batch_total len i_tmp (l_g (nth root (g_locs G) dloc))) as [nx [nb [-> [Hnb [Hnx Hle]]]]]; try lia.
    cbn [rbind].
    destruct (with_g0_total G (lcg (l_g (nth root (g_locs G) dloc))) W) as [G1 [-> W1]]. cbn [rbind].
    destruct (seq_batch_total D G1 nb W1 ltac:(lia)) as [G2 [lg1 [-> W2]]]. cbn [rbind].
    destruct (seq_rounds_total D (zseq (N_swap C)) G2 isw nsw npr W2 HC) as [G3 [i3 [nsw3 [npr3 [-> [W3 HC3]]]]]].
    cbn [rbind].
    destruct (IH G3 nx i3 nsw3 npr3 W3 HC3) as [G4 [nsw4 [npr4 [lg4 [-> [W4 HC4]]]]]]; try lia.
    cbn [rbind]. do 4 eexists. split; [reflexivity|]. auto.
  - do 4 eexists. split; [reflexivity|]. auto.
Qed.

(** ** Ladder *)
Lemma ladder_T_total : forall m (beta : row), length beta = m ->
  exists T, ladder_T (Z.of_nat m) beta = OK T /\ length T = m.
Proof.
  intros m beta Hb. unfold ladder_T. rewrite Nat2Z.id.
  destruct (for_from_ok (fun i (T : row) => Z.of_nat (length T) = i)
    (fun i T => let* b := zget beta i in OK (T ++ [ndiv one b])) m 0 []) as [T [-> HT]]; auto.
  - intros j t Hj Ht. rewrite (zget_tot beta j (nof 0)) by lia. cbn [rbind].
    eexists; split; [reflexivity|]. rewrite app_length; cbn [length]; lia.
  - exists T. split; auto. lia.
Qed.

Lemma ladder_ar_total : forall m (nsw npr : row), length nsw = m -> length npr = m ->
  exists ar, ladder_ar (Z.of_nat m) nsw npr = OK ar /\ Z.of_nat (length ar) = Z.max 0 (Z.of_nat m - 1).
Proof.
  intros m nsw npr H1 H2. unfold ladder_ar.
  destruct (for_from_ok (fun i (T : row) => Z.of_nat (length T) = i)
    (fun i ar => let* s := zget nsw i in let* p := zget npr i in OK (ar ++ [ndiv s p]))
    (Z.to_nat (Z.of_nat m - 1)) 0 []) as [T [-> HT]]; auto.
  - intros j t Hj Ht. rewrite (zget_tot nsw j (nof 0)) by lia. rewrite (zget_tot npr j (nof 0)) by lia.
    cbn [rbind]. eexists; split; [reflexivity|]. rewrite app_length; cbn [length]; lia.
  - exists T. split; auto. lia.
Qed.

Ltac zg d := rewrite !(zget_tot _ _ d) by lia; cbn [rbind].
Ltac zs := rewrite !zset_ok by (rewrite ?lset_length; lia); cbn [rbind].

Lemma ladder_geom_total : forall m i (beta T : row), length beta = m -> length T = m ->
  1 <= i < Z.of_nat m - 1 -> exists T', ladder_geom i beta T = OK T' /\ length T' = m.
Proof.
  intros m i beta T Hb HT Hi. unfold ladder_geom. zg (nof 0 : num A). zs.
  eexists; split; [reflexivity|]. rewrite lset_length; auto.
Qed.

Lemma ladder_body_total : forall sc zs m i (beta ar T : row), length beta = m -> length T = m ->
  Z.of_nat (length ar) = Z.of_nat m - 1 ->
  1 <= i < Z.of_nat m - 1 -> exists T', ladder_body sc zs (Z.of_nat m) beta ar i T = OK T' /\ length T' = m.
Proof.
  intros sc zs0 m i beta ar T Hb HT Har Hi. unfold ladder_body. zg (nof 0 : num A).
  match goal with |- context [rbind (if nltb (nof 0) (nadd ?a ?b) then ?c else ?d) ?k] =>
    assert (K : exists T', (if nltb (nof 0) (nadd a b) then c else d) = OK T' /\ length T' = m) end.
  { destruct (nltb (nof 0) _); [|apply ladder_geom_total with (m := m); auto].
    destruct (nltb (nof 0) _).
    { zs. eexists; split; [reflexivity|]. rewrite lset_length; auto. }
    destruct (neqb _ (nof 0)); [apply ladder_geom_total with (m := m); auto|].
    zs. eexists; split; [reflexivity|]. rewrite lset_length; auto. }
  destruct K as [T1 [-> L1]]. cbn [rbind].
  match goal with |- context [rbind (if ?b then ?c else OK T1) ?k] =>
    assert (K : exists T', (if b then c else OK T1) = OK T' /\ length T' = m) end.
  { destruct (nltb _ _); eauto. zg (nof 0 : num A). zs. eexists; split; [reflexivity|]. rewrite lset_length; auto. }
  destruct K as [T2 [-> L2]]. cbn [rbind].
  destruct (nltb _ _); eauto. zg (nof 0 : num A). zs. eexists; split; [reflexivity|]. rewrite lset_length; auto.
Qed.

Lemma tune_ladder_total : forall sc zs m (nsw npr beta : row), (2 <= m)%nat ->
  length nsw = m -> length npr = m -> length beta = m ->
  exists b, tune_ladder sc zs (Z.of_nat m) nsw npr beta = OK b /\ length b = m.
Proof.
  intros sc zs0 m nsw npr beta Hm H1 H2 H3. unfold tune_ladder.
  destruct (ladder_T_total m beta H3) as [T0 [-> LT]]. cbn [rbind].
  destruct (ladder_ar_total m nsw npr H1 H2) as [ar [-> La]]. cbn [rbind].
  destruct (for_from_ok (fun _ (T : row) => length T = m) (ladder_body sc zs0 (Z.of_nat m) beta ar)
    (Z.to_nat (Z.of_nat m - 2)) 1 T0) as [T [-> HT]]; auto.
  { intros j t Hj Ht. apply ladder_body_total; auto; lia. }
  cbn [rbind].
  destruct (for_from_ok (fun _ (b : row) => length b = m)
     (fun i b => let* t := zget T i in zset b i (ndiv one t)) (Z.to_nat (Z.of_nat m - 2)) 1 beta) as [b [-> Hb]]; auto.
  { intros j t Hj Ht. zg (nof 0 : num A). zs. eexists; split; [reflexivity|]. rewrite lset_length; auto. }
  eauto.
Qed.

Lemma seq_ladder_total : forall G nsw npr, wf G -> length nsw = n -> length npr = n ->
  exists G', seq_ladder C n G nsw npr = OK G' /\ wf G'.
Proof.
  intros G nsw npr W H1 H2.
  assert (exists G', seq_ladder C n G nsw npr = OK G').
  { unfold seq_ladder. rewrite getloc_ok by (auto; unfold root; lia). cbn [rbind].
    destruct (tune_ladder_total (scale_tune_ladder C) (zero_stretch C) n nsw npr
                (l_beta (nth root (g_locs G) dloc))) as [b [Eb _]]; auto.
    { apply (wf_beta _ _ _ W). apply loc_in; auto. unfold root; lia. }
    unfold zn. rewrite Eb. cbn [rbind]. eauto. }
  destruct H as [G' H]. exists G'. split; auto. eapply seq_ladder_wf; eauto.
Qed.

Lemma seq_stack_total : forall D G len, wf G -> 0 <= len <= n_iter_a_stack C ->
  exists G' lg, seq_stack C U n D G len = OK (G', lg) /\ wf G'.
Proof.
  intros D G len W Hlen. unfold seq_stack.
  rewrite getloc_ok by (auto; unfold root; lia). cbn [rbind].
  destruct (seq_stack_loop_total D len (Z.to_nat len) G 0 0
     (if 0 <? Tune_Ladder C then repeat (nof 0) n else [])
     (if 0 <? Tune_Ladder C then repeat (nof 0) n else [])) as [G1 [nsw [npr [lg [-> [W1 HC]]]]]]; auto; try lia.
  { intros Ht. destruct (Z.ltb_spec 0 (Tune_Ladder C)); [|lia]. rewrite repeat_length; auto. }
  cbn [rbind]. rewrite getloc_ok by (auto; unfold root; lia). cbn [rbind].
  destruct (_ && (0 <? Tune_Ladder C)) eqn:EB.
  - apply andb_prop in EB. destruct EB as [_ EB]. apply Z.ltb_lt in EB. destruct (HC EB) as [H1 H2].
    destruct (seq_ladder_total G1 nsw npr W1 H1 H2) as [G2 [-> W2]]. cbn [rbind]. eauto.
  - cbn [rbind]. eauto.
Qed.

(** ** Tuning of the widths *)
Definition mat_n (l : list row) : Prop := forall x, In x l -> length x = n.

Lemma in_zget_len : forall (l : list row) i, mat_n l -> 0 <= i < Z.of_nat (length l) ->
  length (nth (Z.to_nat i) l []) = n.
Proof. intros. apply H. apply nth_In. lia. Qed.

Lemma logspace_len : forall (b h : num A), length (create_logspace_array b h (zn n)) = n.
Proof. intros. unfold create_logspace_array, zn. rewrite map_length, seq_length. lia. Qed.

Lemma check_bounce_total : forall (arr : row) ip, length arr = n -> 0 <= ip < N_parm C ->
  exists r, check_bounce C U (zn n) arr ip = OK r /\ length r = n.
Proof.
  intros arr ip Ha Hip. unfold check_bounce. pose proof (vu_min C U VU). pose proof (vu_max C U VU).
  rewrite (zget_tot (u_sigmin U) ip (nof 0)) by lia.
  rewrite (zget_tot (u_sigmax U) ip (nof 0)) by lia. cbn [rbind].
  rewrite (zget_tot arr 0 (nof 0)) by lia. cbn [rbind].
  match goal with |- context [zget (if ?b then ?x else ?y) _] => set (arr1 := if b then x else y) end.
  assert (L1 : length arr1 = n) by (unfold arr1; destruct (nltb _ _); [apply logspace_len|auto]).
  clearbody arr1. rewrite (zget_tot arr1 _ (nof 0)) by (unfold zn; lia). cbn [rbind].
  eexists; split; [reflexivity|]. destruct (nltb _ _); [apply logspace_len|auto].
Qed.

Lemma gen_sigma_alltune_total : forall (sg : list row) rk, length sg = n -> (forall x, In x sg -> hl x) ->
  0 <= rk < zn n ->
  exists al, gen_sigma_alltune C U (zn n) sg rk = OK al /\ Z.of_nat (length al) = N_parm C /\ mat_n al.
Proof.
  intros sg rk Hl Hs Hrk. unfold gen_sigma_alltune. unfold zn in Hrk.
  match goal with |- context [for_from ?k 0 ?b ?s] =>
    destruct (for_from_ok (fun i (out : list row) => Z.of_nat (length out) = i /\ mat_n out) b k 0 s) as [al [-> Ha]] end.
  - split; auto. intros x [].
  - intros j t Hj [Ht1 Ht2].
    assert (Hrow : hl (nth (Z.to_nat rk) sg [])) by (apply Hs; apply nth_In; lia).
    unfold haslen in Hrow.
    rewrite (zget_tot sg rk []) by lia. cbn [rbind].
    rewrite (zget_tot _ j (nof 0)) by lia. cbn [rbind].
    destruct (check_bounce_total (create_logspace_array (nth (Z.to_nat j) (nth (Z.to_nat rk) sg []) (nof 0))
                (sigma_scale_half_ratio C) (zn n)) j) as [r [-> Lr]]; [apply logspace_len|lia|].
    cbn [rbind]. eexists; split; [reflexivity|]. split.
    + rewrite app_length; cbn [length]; lia.
    + intros x Hx. apply in_app_iff in Hx. destruct Hx as [Hx|[<-|[]]]; auto.
  - exists al. pose proof (vc_np C n VC). destruct Ha. split; auto. split; auto. lia.
Qed.

Lemma tune_matrix_total : forall (sg al : list row) rk jp, length sg = n -> (forall x, In x sg -> hl x) ->
  0 <= rk < zn n -> Z.of_nat (length al) = N_parm C -> mat_n al -> 0 <= jp < N_parm C ->
  exists mat, tune_matrix (zn n) sg rk al jp = OK mat.
Proof.
  intros sg al rk jp Hl Hs Hrk Ha Hm Hjp. unfold tune_matrix. unfold zn in *. rewrite Nat2Z.id.
  match goal with |- context [for_from ?k 0 ?b ?s] =>
    destruct (for_from_ok (fun _ (_ : list row) => True) b k 0 s) as [mat [-> _]] end; eauto.
  intros j t Hj _.
  assert (Hrow : hl (nth (Z.to_nat rk) sg [])) by (apply Hs; apply nth_In; lia).
  unfold haslen in Hrow.
  pose proof (in_zget_len al jp Hm ltac:(lia)).
  rewrite (zget_tot sg rk []) by lia. cbn [rbind].
  rewrite (zget_tot al jp []) by lia. cbn [rbind].
  rewrite (zget_tot _ j (nof 0)) by lia. cbn [rbind].
  rewrite zset_ok by lia. cbn [rbind]. eauto.
Qed.

Lemma seq_tune_parm_total : forall D rk al x lp jp G ars, wf G -> hl x -> 0 <= rk < zn n ->
  Z.of_nat (length al) = N_parm C -> mat_n al -> 0 <= jp < N_parm C -> mat_n ars ->
  exists G' ars', seq_tune_parm C U n D rk al x lp jp (G, ars) = OK (G', ars') /\ wf G' /\ mat_n ars' /\
    length ars' = S (length ars).
Proof.
  intros D rk al x lp jp G ars W Hx Hrk Ha Hm Hjp Hars.
  assert (exists G' ars', seq_tune_parm C U n D rk al x lp jp (G, ars) = OK (G', ars') /\ mat_n ars').
  { unfold seq_tune_parm.
    destruct (tune_matrix_total (sigt (g_ro G)) al rk jp) as [mat Em]; auto;
      [apply (wf_sigt _ _ _ W)|apply (wf_sigrow _ _ _ W)|].
    rewrite Em. cbn [rbind].
    destruct (tune_matrix_shape C n Hn n (sigt (g_ro G)) rk al jp mat (wf_sigrow _ _ G W) Em) as [M1 M2].
    pose proof (seq_distribute_wf C n Hn G mat W M1 M2) as W1.
    destruct (tab_total n (tune_of C U D (seq_distribute G mat) x lp rk)) as [rs Ers].
    - intros r Hr. unfold tune_of. rewrite getloc_ok by auto. cbn [rbind].
      rewrite (zget_tot _ rk (nof 0)) by (rewrite (wf_beta _ _ _ W1) by (apply loc_in; auto); auto).
      cbn [rbind]. eexists. apply iter_batch_mh_tune_spec; auto.
      + apply UO.
      + apply (wf_sig _ _ _ W1). apply loc_in; auto.
      + apply (vc_tune C n VC).
    - rewrite Ers. cbn [rbind]. do 2 eexists; split; [reflexivity|].
      apply (tab_ok n _ _ (nof 0, 0)) in Ers. destruct Ers as [Lrs _].
      intros y Hy. apply in_app_iff in Hy. destruct Hy as [Hy|[<-|[]]]; auto.
      rewrite map_length; auto. }
  destruct H as [G' [ars' [H Hm']]]. exists G', ars'.
  destruct (seq_tune_parm_wf C U n Hn _ _ _ _ _ _ _ _ _ _ W H). auto.
Qed.

Lemma seq_tune_parms_total : forall D rk al x lp l G ars, wf G -> hl x -> 0 <= rk < zn n ->
  Z.of_nat (length al) = N_parm C -> mat_n al -> (forall jp, In jp l -> 0 <= jp < N_parm C) -> mat_n ars ->
  exists G' ars', foldM l (seq_tune_parm C U n D rk al x lp) (G, ars) = OK (G', ars') /\ wf G' /\ mat_n ars' /\
    length ars' = (length l + length ars)%nat.
Proof.
  induction l as [|jp l IH]; intros G ars W Hx Hrk Ha Hm Hl Hars; cbn [foldM].
  - do 2 eexists. split; [reflexivity|]. auto.
  - destruct (seq_tune_parm_total D rk al x lp jp G ars) as [G1 [ars1 [-> [W1 [M1 L1]]]]]; auto.
    { apply Hl; left; auto. }
    cbn [rbind]. destruct (IH G1 ars1) as [G2 [ars2 [-> [W2 [M2 L2]]]]]; auto.
    { intros; apply Hl; right; auto. }
    do 2 eexists. split; [reflexivity|]. split; auto. split; auto. cbn [length]. lia.
Qed.

Section Decide.
Variable ars : list row.
Hypothesis La : Z.of_nat (length ars) = N_parm C.
Hypothesis Ma : mat_n ars.

Lemma ar_err_total : forall i j, 0 <= i < N_parm C -> 0 <= j < zn n ->
  exists e, ar_err C ars i j = OK e.
Proof.
  intros i j Hi Hj. unfold ar_err, zn in *. pose proof (in_zget_len ars i Ma ltac:(lia)).
  rewrite (zget_tot ars i []) by lia. cbn [rbind].
  rewrite (zget_tot _ j (nof 0)) by lia. cbn [rbind]. eauto.
Qed.

Lemma argext_total : forall (cmp : num A -> num A -> bool) (arr : row) na,
  Z.of_nat (length arr) = na -> 1 <= na ->
  exists i v, (let* v0 := zget arr 0 in
    for_from (Z.to_nat (na - 1)) 1
      (fun i '(im, vm) => let* v := zget arr i in
         OK (if cmp v vm then (i, v) else (im, vm))) (0, v0)) = OK (i, v) /\ 0 <= i < na.
Proof.
  intros cmp arr na Hl Hna. rewrite (zget_tot arr 0 (nof 0)) by lia. cbn [rbind].
  match goal with |- context [for_from ?k 1 ?b ?s] =>
    destruct (for_from_ok (fun _ (x : Z * num A) => 0 <= fst x < na) b k 1 s) as [[i v] [-> Hi]] end.
  - cbn [fst]. lia.
  - intros j [im vm] Hj Ht. rewrite (zget_tot arr j (nof 0)) by lia. cbn [rbind].
    eexists; split; [reflexivity|]. destruct (cmp _ _); cbn [fst] in *; lia.
  - eauto.
Qed.

Lemma argmin_total : forall (arr : row) na, Z.of_nat (length arr) = na -> 1 <= na ->
  exists i, argmin arr na = OK i /\ 0 <= i < na.
Proof.
  intros arr na H1 H2. destruct (argext_total nltb arr na H1 H2) as [i [v [H Hi]]].
  exists i. split; auto. unfold argmin. destruct (zget arr 0); cbn [rbind] in *; [|discriminate].
  rewrite H. auto.
Qed.

Lemma argmax_total : forall (arr : row) na, Z.of_nat (length arr) = na -> 1 <= na ->
  exists i, argmax arr na = OK i /\ 0 <= i < na.
Proof.
  intros arr na H1 H2. destruct (argext_total (fun a b => nltb b a) arr na H1 H2) as [i [v [H Hi]]].
  exists i. split; auto. unfold argmax. destruct (zget arr 0); cbn [rbind] in *; [|discriminate].
  rewrite H. auto.
Qed.

Lemma calc_SD_total : exists sd, calc_SD_allParm C (zn n) ars = OK sd /\ Z.of_nat (length sd) = N_parm C.
Proof.
  unfold calc_SD_allParm.
  match goal with |- context [for_from ?k 0 ?b (@nil ?T)] =>
    destruct (for_from_ok (fun i (out : row) => Z.of_nat (length out) = i) b k 0 []) as [sd [-> Ha]] end; auto.
  - intros j t Hj Ht. pose proof (in_zget_len ars j Ma ltac:(lia)) as Lr.
    rewrite (zget_tot ars j []) by lia. cbn [rbind]. unfold zn. rewrite Nat2Z.id.
    match goal with |- context [for_from n 0 ?b (nof 0)] =>
      destruct (for_from_ok (fun _ (_ : num A) => True) b n 0 (nof 0)) as [sum [-> _]] end; auto.
    { intros i s Hi _. rewrite (zget_tot _ i (nof 0)) by lia. cbn [rbind]. eauto. }
    cbn [rbind].
    match goal with |- context [for_from n 0 ?b (nof 0)] =>
      destruct (for_from_ok (fun _ (_ : num A) => True) b n 0 (nof 0)) as [var [-> _]] end; auto.
    { intros i s Hi _. rewrite (zget_tot _ i (nof 0)) by lia. cbn [rbind]. eauto. }
    cbn [rbind]. eexists; split; [reflexivity|]. rewrite app_length; cbn [length]; lia.
  - exists sd. pose proof (vc_np C n VC). split; auto. lia.
Qed.

Lemma closest_oneparm_total : forall ip, 0 <= ip < N_parm C ->
  exists v j, closest_oneparm C (zn n) ars ip = OK (v, j) /\ 0 <= j < zn n.
Proof.
  intros ip Hip. unfold closest_oneparm. destruct (ar_err_total ip 0) as [v0 ->]; [auto|unfold zn; lia|].
  cbn [rbind]. unfold zn at 1. rewrite Nat2Z.id.
  match goal with |- context [for_from n 0 ?b ?s] =>
    destruct (for_from_ok (fun _ (x : num A * Z) => 0 <= snd x < zn n) b n 0 s) as [[v j] [-> Hj]] end.
  - cbn [snd]. unfold zn; lia.
  - intros j [cv cj] Hj Ht. destruct (ar_err_total ip j) as [e ->]; [auto|unfold zn; lia|]. cbn [rbind].
    eexists; split; [reflexivity|]. destruct (nltb e cv); cbn [snd] in *; unfold zn in *; lia.
  - eauto.
Qed.

Lemma closest_all_total :
  exists v i j, closest_all C (zn n) ars = OK (v, i, j) /\ 0 <= i < N_parm C /\ 0 <= j < zn n.
Proof.
  pose proof (vc_np C n VC) as Hnp. unfold closest_all.
  destruct (ar_err_total 0 0) as [v0 ->]; [lia|unfold zn; lia|]. cbn [rbind].
  pose (Q := fun (x : num A * Z * Z) => 0 <= snd (fst x) < N_parm C /\ 0 <= snd x < zn n).
  match goal with |- context [for_from ?k 0 ?b ?s] =>
    destruct (for_from_ok (fun _ => Q) b k 0 s) as [[[v i] j] [-> [Hi Hj]]] end.
  - unfold Q. cbn. unfold zn. lia.
  - intros i s Hi HQ. unfold zn at 1. rewrite Nat2Z.id.
    match goal with |- context [for_from n 0 ?b ?s] =>
      destruct (for_from_ok (fun _ => Q) b n 0 s) as [s' [-> HQ']] end; eauto.
    intros j [[cv ci] cj] Hj Ht. destruct (ar_err_total i j) as [e ->]; [lia|unfold zn; lia|]. cbn [rbind].
    eexists; split; [reflexivity|]. destruct (nltb e cv); auto. unfold Q. cbn. unfold zn; lia.
  - do 3 eexists; split; [reflexivity|]. auto.
Qed.

Lemma decide_total : forall g, exists ip ir g', decide_sigma_to_change C (zn n) ars g = OK (ip, ir, g') /\
  ((0 <= ip < N_parm C /\ 0 <= ir < zn n) \/ (ip = -1 /\ (ir = 0 \/ ir = -1))).
Proof.
  intros g. pose proof (vc_np C n VC) as Hnp. unfold decide_sigma_to_change.
  destruct calc_SD_total as [sd [-> Lsd]]. cbn [rbind].
  destruct (argmax_total sd (N_parm C) Lsd Hnp) as [ip1 [-> Hip1]]. cbn [rbind].
  destruct (closest_oneparm_total ip1 Hip1) as [v1 [ir1 [-> Hir1]]]. cbn [rbind].
  destruct closest_all_total as [v2 [ip2 [ir2 [-> [Hip2 Hir2]]]]]. cbn [rbind].
  destruct (drand48 g) as [u g'].
  repeat match goal with |- context [if ?b then _ else _] => destruct b end; do 3 eexists; (split; [reflexivity|]); auto.
Qed.

Lemma race_total : forall al, Z.of_nat (length al) = N_parm C -> mat_n al ->
  exists r, race_all_parm C (zn n) al ars = OK r.
Proof.
  intros al Lal Mal. unfold race_all_parm.
  match goal with |- context [for_from ?k 0 ?b (@nil ?T)] =>
    destruct (for_from_ok (fun _ (_ : row) => True) b k 0 []) as [r [-> _]] end; eauto.
  intros i out Hi _. unfold zn at 1. rewrite Nat2Z.id.
  match goal with |- context [for_from n 0 ?b (@nil ?T)] =>
    destruct (for_from_ok (fun i (es : row) => Z.of_nat (length es) = i) b n 0 []) as [es [-> Les]] end; auto.
  { intros j t Hj Ht. destruct (ar_err_total i j) as [e ->]; [lia|unfold zn; lia|]. cbn [rbind].
    eexists; split; [reflexivity|]. rewrite app_length; cbn [length]; lia. }
  cbn [rbind].
  destruct (argmin_total es (zn n)) as [jm [-> Hjm]]; [unfold zn; lia|unfold zn; lia|]. cbn [rbind].
  pose proof (in_zget_len al i Mal ltac:(lia)).
  rewrite (zget_tot al i []) by lia. cbn [rbind].
  rewrite (zget_tot _ jm (nof 0)) by (unfold zn in *; lia). cbn [rbind]. eauto.
Qed.

Lemma modify_total : forall rk ip ir (sg al : list row), length sg = n -> (forall x, In x sg -> hl x) ->
  0 <= rk < zn n -> Z.of_nat (length al) = N_parm C -> mat_n al ->
  ((0 <= ip < N_parm C /\ 0 <= ir < zn n) \/ (ip = -1 /\ (ir = 0 \/ ir = -1))) ->
  exists t, modify_sigma_prop C U (zn n) rk ip ir sg al ars = OK t.
Proof.
  intros rk ip ir sg al Hl Hs Hrk Lal Mal Hd. unfold modify_sigma_prop. unfold zn in Hrk.
  assert (Hrow : hl (nth (Z.to_nat rk) sg [])) by (apply Hs; apply nth_In; lia).
  unfold haslen in Hrow.
  destruct Hd as [[H1 H2]|[-> H2]].
  - destruct (Z.leb_spec 0 ip); [|lia].
    rewrite (zget_tot sg rk []) by lia. cbn [rbind].
    pose proof (in_zget_len al ip Mal ltac:(lia)).
    rewrite (zget_tot al ip []) by lia. cbn [rbind].
    rewrite (zget_tot _ ir (nof 0)) by (unfold zn in *; lia). cbn [rbind].
    rewrite zset_ok by lia. cbn [rbind]. rewrite zset_ok by lia. eauto.
  - cbn [Z.leb Z.compare].
    destruct (0 <=? ir).
    + cbn [rbind]. rewrite zset_ok by lia. eauto.
    + destruct (race_total al Lal Mal) as [r ->]. cbn [rbind]. rewrite zset_ok by lia. eauto.
Qed.
End Decide.

Lemma in_zseq : forall k j, In j (zseq k) -> 0 <= j < k.
Proof.
  intros k j H. unfold zseq in H. apply in_map_iff in H. destruct H as [i [<- Hi]]. apply in_seq in Hi. lia.
Qed.

Lemma zseq_length : forall k, length (zseq k) = Z.to_nat k.
Proof. intros. unfold zseq. rewrite map_length, seq_length. auto. Qed.

Lemma seq_tune_irank_total : forall D G rk, wf G -> 0 <= rk < zn n ->
  exists G', seq_tune_irank C U n D G rk = OK G' /\ wf G'.
Proof.
  intros D G rk W Hrk.
  assert (exists G', seq_tune_irank C U n D G rk = OK G').
  { unfold seq_tune_irank.
    destruct (gen_sigma_alltune_total (sigt (g_ro G)) rk) as [al [-> [Lal Mal]]]; auto;
      [apply (wf_sigt _ _ _ W)|apply (wf_sigrow _ _ _ W)|]. cbn [rbind].
    unfold zn in Hrk.
    rewrite (zget_tot (lps (g_ro G)) rk (nof 0)) by (rewrite (wf_lps _ _ _ W); auto).
    rewrite (zget_tot (transit (g_ro G)) rk []) by (rewrite (wf_tr _ _ _ W); auto). cbn [rbind].
    destruct (seq_tune_parms_total D rk al (nth (Z.to_nat rk) (transit (g_ro G)) [])
       (nth (Z.to_nat rk) (lps (g_ro G)) (nof 0)) (zseq (N_parm C)) G []) as [G1 [ars [-> [W1 [Mars Lars]]]]]; auto.
    { apply (wf_trrow _ _ _ W). apply nth_In. rewrite (wf_tr _ _ _ W); lia. }
    { intros jp. apply in_zseq. }
    { intros x []. }
    cbn [rbind]. rewrite getloc_ok by (auto; unfold root; lia). cbn [rbind].
    pose proof (vc_np C n VC) as Hnp. cbn [length] in Lars. rewrite zseq_length in Lars.
    destruct (decide_total ars ltac:(lia) Mars (l_g (nth root (g_locs G1) dloc))) as [ip [ir [g [-> Hd]]]].
    cbn [rbind].
    destruct (modify_total ars ltac:(lia) Mars rk ip ir (sigt (g_ro G1)) al) as [t ->]; auto;
      [apply (wf_sigt _ _ _ W1)|apply (wf_sigrow _ _ _ W1)|]. cbn [rbind].
    destruct (with_g0_total G1 g W1) as [G2 [-> _]]. cbn [rbind]. eauto. }
  destruct H as [G' H]. exists G'. split; auto. eapply seq_tune_irank_wf; eauto.
Qed.

Lemma seq_tune_all_total : forall D flags G, wf G -> length flags = n ->
  exists G', seq_tune_all C U n D flags G = OK G' /\ wf G'.
Proof.
  intros D flags G W Hf. unfold seq_tune_all.
  assert (Hin : forall r, In r (zseq (zn n)) -> 0 <= r < zn n) by apply in_zseq.
  revert G W. induction (zseq (zn n)) as [|r l IH]; intros G W; cbn [foldM].
  - eauto.
  - assert (Hr : 0 <= r < zn n) by (apply Hin; left; auto).
    rewrite (zget_tot flags r 0) by (unfold zn in *; lia). cbn [rbind].
    destruct (_ =? 1).
    + destruct (seq_tune_irank_total D G r W Hr) as [G1 [-> W1]]. cbn [rbind]. apply IH; auto.
      intros; apply Hin; right; auto.
    + cbn [rbind]. apply IH; auto. intros; apply Hin; right; auto.
Qed.

Lemma seq_flow_loop_total : forall D fuel G len i_tmp, wf G ->
  0 <= i_tmp -> 1 <= len <= n_iter_a_stack C -> (Z.to_nat (N_iter C - i_tmp) <= fuel)%nat ->
  exists G' lg, seq_flow_loop C U n D fuel G len i_tmp i_tmp = OK (G', lg) /\ wf G'.
Proof.
  intros D fuel. pose proof (vc_sum C n VC) as Hsum. pose proof (vc_iter C n VC) as Hit.
  induction fuel as [|fuel IH]; intros G len i_tmp W Hi Hlen Hf;
    cbn [seq_flow_loop]; destruct (Z.ltb_spec i_tmp (N_iter C)); try lia; eauto.
  rewrite i32_ok by (unfold INT_MIN; lia). cbn [rbind].
  set (nx := if N_iter C <? i_tmp + len then N_iter C else i_tmp + len).
  set (len' := if N_iter C <? i_tmp + len then N_iter C - i_tmp else len).
  assert (Hnx : nx = i_tmp + len' /\ 1 <= len' <= n_iter_a_stack C /\ nx <= N_iter C).
  { unfold nx, len'. destruct (Z.ltb_spec (N_iter C) (i_tmp + len)); lia. }
  assert (W1 : wf (seq_distribute G (sigt (g_ro G)))).
  { apply seq_distribute_wf; auto; [apply (wf_sigt _ _ _ W)|apply (wf_sigrow _ _ _ W)]. }
  destruct (seq_stack_total D (seq_distribute G (sigt (g_ro G))) len' W1 ltac:(lia)) as [G2 [lg1 [-> W2]]].
  cbn [rbind].
  match goal with |- context [rbind (if ?b then ?x else OK G2) ?k] =>
    assert (K : exists G3, (if b then x else OK G2) = OK G3 /\ wf G3) end.
  { destruct ((N_begintune C <? nx) && (nx <? N_stoptune C) && (nx <? N_iter C)); eauto.
    apply seq_tune_all_total; auto. apply map2_length; [apply (wf_locs _ _ _ W1)|apply (wf_locs _ _ _ W2)]. }
  destruct K as [G3 [-> W3]]. cbn [rbind].
  destruct (IH G3 len' nx W3) as [G4 [lg2 [-> W4]]]; try lia.
  cbn [rbind]. eauto.
Qed.

Lemma copy_betas_total : exists b, copy_betas C n = OK b.
Proof.
  unfold copy_betas. pose proof (vc_betas C n VC) as Hb.
  match goal with |- context [for_from ?k 0 ?b (@nil ?T)] =>
    destruct (for_from_ok (fun _ (_ : row) => True) b k 0 []) as [r [-> _]] end; eauto.
  intros j t Hj _. rewrite (zget_tot _ j (nof 0)) by lia. cbn [rbind]. eauto.
Qed.

Lemma seq_init_total : forall D, exists G lg, seq_init C U n E D = OK (G, lg) /\ wf G.
Proof.
  intros D.
  assert (exists G lg, seq_init C U n E D = OK (G, lg)).
  { unfold seq_init.
    match goal with |- context [tab n ?f] => destruct (tab_total n f) as [lp ->] end.
    - intros r Hr. rewrite (zget_nat _ r []) by (rewrite !map_length; unfold ranks; rewrite seq_length; auto).
      cbn [rbind]. rewrite (zget_nat _ r (nof 0)) by (pose proof (vc_betas C n VC); lia).
      cbn [rbind]. eauto.
    - cbn [rbind]. destruct copy_betas_total as [b ->]. cbn [rbind]. eauto. }
  destruct H as [G [lg H]]. exists G, lg. split; auto. eapply seq_init_wf; eauto.
Qed.

Theorem seq_main_total : forall ndim, ValidEnv E ndim ->
  exists G lg, seq_main C U n E ndim = OK (G, lg) /\ wf G.
Proof.
  intros ndim [[nl [arr [Enl [Hsz Earr]]]] _]. unfold seq_main. rewrite Enl. cbn [rbind].
  rewrite i32_ok by auto. cbn [rbind]. rewrite Earr. cbn [rbind].
  destruct (seq_init_total (mkData nl arr)) as [G [lg1 [-> W]]]. cbn [rbind].
  destruct (seq_flow_loop_total (mkData nl arr) (Z.to_nat (N_iter C)) G (n_iter_a_stack C) 0 W)
    as [G' [lg2 [-> W']]]; try lia.
  { pose proof (vc_stack C n VC). lia. }
  cbn [rbind]. eauto.
Qed.

End Total.
