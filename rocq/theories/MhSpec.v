(** The array program [iter_batch_mh] computes a plain iteration of one Metropolis step. *)
From Coq Require Import ZArith Arith List Bool Lia.
From Verif Require Import Base Arith Rand Mh Ladder Tune Mpi Prog Seq ListAux.
Import ListNotations.
Open Scope Z_scope.

Section MhSpec.
Context {A : Arith}.
Variable U : User A.
Variable D : Data A.
Variable np : Z.
Notation row := (list (num A)).

Definition haslen (x : row) : Prop := Z.of_nat (length x) = np.
Definition BoundLen : Prop := forall x, haslen x -> haslen (u_bound U x).

(** the random-walk proposal, list by list *)
Fixpoint prop_list (x sigma : row) (g : Z) : row * Z :=
  match x, sigma with
  | a :: x', s :: sigma' =>
      let (r, g1) := r8_normal_01 g in
      let (t, g2) := prop_list x' sigma' g1 in
      (nadd a (nmul r s) :: t, g2)
  | _, _ => ([], g)
  end.

Lemma prop_list_length : forall x sigma g, length sigma = length x ->
  length (fst (prop_list x sigma g)) = length x.
Proof.
  induction x as [|a x IH]; intros [|s sigma] g H; cbn [prop_list length] in *; try discriminate; auto.
  destruct (r8_normal_01 (A := A) g) as [r g1]. specialize (IH sigma g1 ltac:(lia)).
  destruct (prop_list x sigma g1). cbn [fst length] in *. lia.
Qed.

Lemma propose_loop : forall (x sigma px ps acc : row) g,
  length sigma = length x -> length ps = length px ->
  for_from (length x) (Z.of_nat (length px))
      (fun i '(new, g) =>
         let* x := zget (px ++ x) i in
         let* s := zget (ps ++ sigma) i in
         let (r, g1) := r8_normal_01 g in
         let dx := nmul r s in
         OK (new ++ [nadd x dx], g1)) (acc, g)
  = OK (acc ++ fst (prop_list x sigma g), snd (prop_list x sigma g)).
Proof.
  induction x as [|a x IH]; intros [|s sigma] px ps acc g H1 H2; simpl in H1; try discriminate.
  - simpl. rewrite app_nil_r. auto.
  - cbn [length for_from].
    rewrite (zget_nth (px ++ a :: x) (length px) a)
      by (rewrite nth_error_app2, Nat.sub_diag by lia; auto).
    rewrite (zget_nth (ps ++ s :: sigma) (length px) s)
      by (rewrite nth_error_app2 by lia; rewrite H2, Nat.sub_diag; auto).
    cbn [rbind]. cbn [prop_list]. destruct (r8_normal_01 (A := A) g) as [r g1]. cbn [rbind].
    specialize (IH sigma (px ++ [a]) (ps ++ [s]) (acc ++ [nadd a (nmul r s)]) g1
                  ltac:(lia) ltac:(rewrite !app_length; simpl; lia)).
    rewrite app_length in IH. cbn [length] in IH.
    replace (Z.of_nat (length px) + 1) with (Z.of_nat (length px + 1)) by lia.
    rewrite <- !app_assoc in IH. simpl app in IH.
    etransitivity; [exact IH|]. destruct (prop_list x sigma g1). simpl.
    auto.
Qed.

Lemma propose_ok : forall x sigma g, haslen x -> haslen sigma ->
  do_gaussian_propose np x sigma g = OK (fst (prop_list x sigma g), nof 1, snd (prop_list x sigma g)).
Proof.
  intros x sigma g Hx Hs. unfold haslen in *. unfold do_gaussian_propose.
  replace (Z.to_nat np) with (length x) by lia.
  pose proof (propose_loop x sigma [] [] [] g ltac:(lia) eq_refl) as P. cbn [app length Z.of_nat] in P.
  rewrite P. auto.
Qed.

Record ms : Type := mkMs { ms_x : row; ms_lp : num A; ms_g : Z; ms_acc : Z }.

(** one iteration *)
Definition mhstep (sigma : row) (beta : num A) (s : ms) : ms :=
  let new0 := fst (prop_list (ms_x s) sigma (ms_g s)) in
  let g1 := snd (prop_list (ms_x s) sigma (ms_g s)) in
  let new := u_bound U new0 in
  let lpn := logpost_at U D new beta in
  if nltb (nlog (ndiv (nof 1) (nof 1))) (nsub lpn (ms_lp s))
  then mkMs new lpn g1 (u32 (ms_acc s + 1))
  else if nltb (fst (drand48 g1)) (nmul (nexp (nsub lpn (ms_lp s))) (nof 1))
  then mkMs new lpn (snd (drand48 (A := A) g1)) (u32 (ms_acc s + 1))
  else mkMs (ms_x s) (ms_lp s) (snd (drand48 (A := A) g1)) (ms_acc s).

Definition mhn (sigma : row) (beta : num A) (k : nat) (s : ms) : ms :=
  Nat.iter k (mhstep sigma beta) s.

Definition itn (it : Z) (k : nat) : Z := match k with O => it | S _ => u32 (it + Z.of_nat k) end.

Definition ms_row (it : Z) (s : ms) (k : nat) : crow A :=
  mkRow (ms_x s) (ms_lp s) (u2i (itn it k)) (u2i (ms_acc s)).

Lemma mhstep_len : forall sigma beta s, BoundLen -> haslen sigma -> haslen (ms_x s) ->
  haslen (ms_x (mhstep sigma beta s)).
Proof.
  intros sigma beta s HB Hs Hx. unfold mhstep.
  assert (haslen (u_bound U (fst (prop_list (ms_x s) sigma (ms_g s))))).
  { apply HB. unfold haslen in *. rewrite prop_list_length; lia. }
  repeat match goal with |- context [if ?b then _ else _] => destruct b end; simpl; auto.
Qed.

Lemma mhn_len : forall sigma beta k s, BoundLen -> haslen sigma -> haslen (ms_x s) ->
  haslen (ms_x (mhn sigma beta k s)).
Proof. induction k; intros; simpl; auto. apply mhstep_len; auto. Qed.

(** invariant of the loop: the first i rows hold the iterates 1..i *)
Definition minv (sigma : row) (beta : num A) (n : nat) (s0 : ms) (i : Z) (s : mhs (A := A)) : Prop :=
  let k := Z.to_nat i in
  length (m_chain s) = n /\ length (m_lp s) = n /\
  (forall j, (j < k)%nat -> nth_error (m_chain s) j = Some (Some (ms_x (mhn sigma beta (S j) s0)))) /\
  (forall j, (j < k)%nat -> nth_error (m_lp s) j = Some (Some (ms_lp (mhn sigma beta (S j) s0)))) /\
  (k = O -> nth_error (m_chain s) 0 = Some (Some (ms_x s0)) /\ nth_error (m_lp s) 0 = Some (Some (ms_lp s0))) /\
  m_g s = ms_g (mhn sigma beta k s0) /\ m_acc s = ms_acc (mhn sigma beta k s0).

Lemma mh_body_ok : forall sigma beta n s0 i s,
  BoundLen -> haslen sigma -> haslen (ms_x s0) ->
  0 <= i < Z.of_nat n -> minv sigma beta n s0 i s ->
  exists s', mh_body U D np sigma beta (ms_lp s0) i s = OK s' /\ minv sigma beta n s0 (i + 1) s'.
Proof.
  intros sigma beta n s0 i s HB Hsig Hx0 Hi [L1 [L2 [C1 [C2 [C0 [Hg Ha]]]]]].
  set (k := Z.to_nat i) in *.
  assert (Hlp : (if 0 <? i then (let* c := zget (m_lp s) (i - 1) in cell c) else OK (ms_lp s0))
                = OK (ms_lp (mhn sigma beta k s0))).
  { destruct (Z.ltb_spec 0 i).
    - replace (i - 1) with (Z.of_nat (k - 1)) by (unfold k; lia).
      rewrite (zget_nth _ _ _ (C2 (k - 1)%nat ltac:(unfold k; lia))). cbn [rbind cell].
      replace (S (k - 1)) with k by (unfold k; lia). auto.
    - assert (k = O) by (unfold k; lia). rewrite H0. auto. }
  assert (Hch : (let* c := zget (m_chain s) (if 0 <? i then i - 1 else 0) in cell c)
                = OK (ms_x (mhn sigma beta k s0))).
  { destruct (Z.ltb_spec 0 i).
    - replace (i - 1) with (Z.of_nat (k - 1)) by (unfold k; lia).
      rewrite (zget_nth _ _ _ (C1 (k - 1)%nat ltac:(unfold k; lia))). cbn [rbind cell].
      replace (S (k - 1)) with k by (unfold k; lia). auto.
    - assert (k = O) by (unfold k; lia). destruct (C0 H0) as [C0a _].
      change 0 with (Z.of_nat 0). rewrite (zget_nth _ _ _ C0a). rewrite H0. auto. }
  assert (Hk : Z.to_nat (i + 1) = S k) by (unfold k; lia).
  assert (Hik : i = Z.of_nat k) by (unfold k; lia).
  assert (Hstep : mhn sigma beta (S k) s0 = mhstep sigma beta (mhn sigma beta k s0)) by reflexivity.
  set (sk := mhn sigma beta k s0) in *.
  assert (Hxk : haslen (ms_x sk)) by (apply mhn_len; auto).
  unfold mh_body. rewrite Hlp, Hch. cbn [rbind]. rewrite propose_ok by auto. cbn [rbind].
  assert (Hset : forall {X} (l : list X) v, length l = n -> zset l i v = OK (lset l k v)).
  { intros. rewrite zset_ok by lia. auto. }
  assert (Hpost : forall ch lp g acc,
     ch = lset (m_chain s) k (Some (ms_x (mhn sigma beta (S k) s0))) ->
     lp = lset (m_lp s) k (Some (ms_lp (mhn sigma beta (S k) s0))) ->
     g = ms_g (mhn sigma beta (S k) s0) -> acc = ms_acc (mhn sigma beta (S k) s0) ->
     minv sigma beta n s0 (i + 1) (mkMhs ch lp g acc)).
  { intros ch lp g acc -> -> -> ->. unfold minv. rewrite Hk.
    cbn [m_chain m_lp m_g m_acc]. rewrite !lset_length. repeat split; auto.
    - intros j Hj. destruct (Nat.eq_dec j k) as [->|Hne].
      + apply nth_error_lset_eq; lia.
      + rewrite nth_error_lset_ne by auto. apply C1; lia.
    - intros j Hj. destruct (Nat.eq_dec j k) as [->|Hne].
      + apply nth_error_lset_eq; lia.
      + rewrite nth_error_lset_ne by auto. apply C2; lia.
    - discriminate.
    - discriminate. }
  rewrite Hg. rewrite !Hset by auto.
  set (nw := u_bound U (fst (prop_list (ms_x sk) sigma (ms_g sk)))) in *.
  change (nadd (u_logll U nw (d_nline D) (d_arr D) beta) (u_logprior U nw)) with (logpost_at U D nw beta).
  set (lpn := logpost_at U D nw beta) in *.
  assert (Hms : mhn sigma beta (S k) s0 =
     if nltb (nlog (ndiv (nof 1) (nof 1))) (nsub lpn (ms_lp sk))
     then mkMs nw lpn (snd (prop_list (ms_x sk) sigma (ms_g sk))) (u32 (ms_acc sk + 1))
     else if nltb (fst (drand48 (snd (prop_list (ms_x sk) sigma (ms_g sk))))) (nmul (nexp (nsub lpn (ms_lp sk))) (nof 1))
     then mkMs nw lpn (snd (drand48 (A := A) (snd (prop_list (ms_x sk) sigma (ms_g sk))))) (u32 (ms_acc sk + 1))
     else mkMs (ms_x sk) (ms_lp sk) (snd (drand48 (A := A) (snd (prop_list (ms_x sk) sigma (ms_g sk))))) (ms_acc sk))
    by reflexivity.
  destruct (nltb (nlog (ndiv (nof 1) (nof 1))) (nsub lpn (ms_lp sk))).
  - cbn [rbind]. eexists; split; [reflexivity|].
    apply Hpost; rewrite Hms; simpl; auto. rewrite Ha; auto.
  - destruct (drand48 (snd (prop_list (ms_x sk) sigma (ms_g sk)))) as [u g2] eqn:Eu.
    simpl fst in Hms. simpl snd in Hms.
    destruct (nltb u (nmul (nexp (nsub lpn (ms_lp sk))) (nof 1))).
    + cbn [rbind]. eexists; split; [reflexivity|].
      apply Hpost; rewrite Hms; simpl; auto. rewrite Ha; auto.
    + destruct (Z.ltb_spec 0 i).
      * replace (i - 1) with (Z.of_nat (k - 1)) by (unfold k; lia).
        rewrite (zget_nth _ _ _ (C1 (k - 1)%nat ltac:(unfold k; lia))). cbn [rbind cell].
        replace (mhn sigma beta (S (k - 1)) s0) with sk
          by (unfold sk; replace (S (k - 1)) with k by (unfold k; lia); auto).
        cbn [rbind]. rewrite Hset by auto. cbn [rbind]. eexists; split; [reflexivity|].
        apply Hpost; rewrite Hms; simpl; auto.
      * assert (Hk0 : k = O) by (unfold k; lia). destruct (C0 Hk0) as [Ca Cb].
        eexists; split; [reflexivity|].
        apply Hpost; rewrite Hms; simpl; auto.
        -- unfold sk. rewrite Hk0. simpl. destruct (m_chain s); simpl in *; congruence.
        -- unfold sk. rewrite Hk0. simpl. destruct (m_lp s); simpl in *; congruence.
Qed.

Lemma nth_error_ext : forall {X} (a b : list X), (forall i, nth_error a i = nth_error b i) -> a = b.
Proof.
  induction a as [|x a IH]; intros [|y b] H; auto.
  - specialize (H O); discriminate.
  - specialize (H O); discriminate.
  - pose proof (H O) as H0. simpl in H0. inversion H0; subst. f_equal.
    apply IH. intros i. apply (H (S i)).
Qed.

Lemma cells_done : forall {X} (f : nat -> X) n (l : list (option X)),
  length l = n -> (forall j, (j < n)%nat -> nth_error l j = Some (Some (f (S j)))) ->
  all_cells l = OK (map f (seq 1 n)).
Proof.
  intros X f n l Hl H. replace l with (map Some (map f (seq 1 n))); [apply all_cells_some|].
  apply nth_error_ext. intros i. rewrite map_map. destruct (Nat.lt_ge_cases i n).
  - rewrite H by auto. rewrite nth_error_map, nth_error_seq by auto. auto.
  - rewrite (proj2 (nth_error_None l i)) by lia. apply nth_error_None.
    rewrite map_length, seq_length. auto.
Qed.

Lemma batch_rows_map : forall (fx : nat -> row) (fl : nat -> num A) (fi fa : nat -> Z) l,
  batch_rows (map fx l) (map fl l) (map fi l) (map fa l)
  = map (fun k => mkRow (fx k) (fl k) (fi k) (fa k)) l.
Proof. induction l; simpl; auto. f_equal; auto. Qed.

Lemma itn_S : forall it k, u32 (itn it k + 1) = itn it (S k).
Proof.
  intros it [|k]; cbn [itn].
  - f_equal; lia.
  - unfold u32. rewrite Zplus_mod_idemp_l. f_equal. lia.
Qed.

(** what a batch returns *)
Definition batch_spec (x0 sigma : row) (n : Z) (beta : num A) (g it acc sb : Z) (lp : num A)
    : batch_out (A := A) :=
  let k := Z.to_nat n in
  let s0 := mkMs x0 lp g acc in
  let sk := mhn sigma beta k s0 in
  mkBatch (ms_x sk) (ms_lp sk) (ms_g sk) (itn it k) (ms_acc sk)
    (if sb <=? itn it k
     then map (fun j => ms_row it (mhn sigma beta j s0) j) (seq 1 k) else []).

Lemma chain_start_inv : forall {X} n (x0 : X), 1 <= n ->
  exists l, zset (fresh n) 0 (Some x0) = OK l /\ length l = Z.to_nat n /\
            nth_error l 0 = Some (Some x0).
Proof.
  intros X n x0 Hn. unfold fresh. rewrite zset_ok by (rewrite repeat_length; lia).
  eexists; split; [reflexivity|]. rewrite lset_length, repeat_length. split; auto.
  apply nth_error_lset_eq. rewrite repeat_length. lia.
Qed.

Theorem iter_batch_mh_spec : forall x0 sigma n beta g it acc sb lp,
  BoundLen -> haslen sigma -> haslen x0 -> 1 <= n ->
  iter_batch_mh U D np x0 sigma n beta g it acc sb lp
  = OK (batch_spec x0 sigma n beta g it acc sb lp).
Proof.
  intros x0 sigma n beta g it acc sb lp HB Hs Hx Hn. unfold iter_batch_mh, chain_start.
  destruct (chain_start_inv n x0 Hn) as [ch0 [-> [Lc Cc]]].
  destruct (chain_start_inv n lp Hn) as [lp0 [-> [Ll Cl]]].
  cbn [rbind].
  set (s0 := mkMs x0 lp g acc). set (N := Z.to_nat n).
  match goal with |- context [for_from N 0 ?b ?s] => set (body := b); set (st0 := s) end.
  pose (Inv := fun (i : Z) (x : mhs (A := A) * Z * list (option Z) * list (option Z)) =>
     let '(s, it', its, acs) := x in
     minv sigma beta N s0 i s /\ it' = itn it (Z.to_nat i) /\
     length its = N /\ length acs = N /\
     (forall j, (j < Z.to_nat i)%nat -> nth_error its j = Some (Some (u2i (itn it (S j))))) /\
     (forall j, (j < Z.to_nat i)%nat -> nth_error acs j = Some (Some (u2i (ms_acc (mhn sigma beta (S j) s0)))))).
  destruct (for_from_ok Inv body N 0 st0) as [[[[s it'] its] acs] [Hr HI]].
  - unfold st0, Inv, minv. simpl. unfold fresh. rewrite !repeat_length.
    repeat split; auto; intros; lia.
  - intros i [[[s it'] its] acs] Hi [HM [Hit [L1 [L2 [C1 C2]]]]].
    assert (Hi' : 0 <= i < Z.of_nat N) by lia.
    destruct (mh_body_ok sigma beta N s0 i s HB Hs Hx Hi' HM) as [s' [E HM']].
    unfold body. change lp with (ms_lp s0). rewrite E. cbn [rbind].
    rewrite (zset_ok its) by lia. cbn [rbind]. rewrite (zset_ok acs) by lia. cbn [rbind].
    eexists; split; [reflexivity|]. unfold Inv.
    assert (Hk : Z.to_nat (i + 1) = S (Z.to_nat i)) by lia. rewrite Hk, Hit, itn_S, !lset_length.
    repeat split; auto.
    + apply HM'.
    + apply HM'.
    + apply HM'.
    + apply HM'.
    + apply HM'. auto.
    + apply HM'. auto.
    + apply HM'.
    + apply HM'.
    + intros j Hj. destruct (Nat.eq_dec j (Z.to_nat i)) as [->|Hne].
      * apply nth_error_lset_eq; lia.
      * rewrite nth_error_lset_ne by auto. apply C1; lia.
    + intros j Hj. destruct (Nat.eq_dec j (Z.to_nat i)) as [->|Hne].
      * rewrite nth_error_lset_eq by lia. do 3 f_equal.
        destruct HM' as [_ [_ [_ [_ [_ [_ Ha]]]]]]. rewrite Hk in Ha. auto.
      * rewrite nth_error_lset_ne by auto. apply C2; lia.
  - rewrite Hr. cbn [rbind]. unfold Inv in HI. rewrite Z.add_0_l, Nat2Z.id in HI.
    destruct HI as [[L1 [L2 [C1 [C2 [C0 [Hg Ha]]]]]] [Hit [L3 [L4 [C3 C4]]]]].
    rewrite Nat2Z.id in *.
    rewrite (cells_done (fun j => ms_x (mhn sigma beta j s0)) N) by auto.
    rewrite (cells_done (fun j => ms_lp (mhn sigma beta j s0)) N) by auto.
    rewrite (cells_done (fun j => u2i (itn it j)) N) by auto.
    rewrite (cells_done (fun j => u2i (ms_acc (mhn sigma beta j s0))) N) by auto.
    cbn [rbind]. rewrite batch_rows_map.
    replace (n - 1) with (Z.of_nat (N - 1)) by (unfold N; lia).
    rewrite (zget_nth _ _ _ (C1 (N - 1)%nat ltac:(unfold N; lia))).
    rewrite (zget_nth _ _ _ (C2 (N - 1)%nat ltac:(unfold N; lia))).
    replace (S (N - 1)) with N by (unfold N; lia).
    unfold batch_spec. fold N s0. rewrite Hit, Hg, Ha.
    destruct (sb <=? itn it N); reflexivity.
Qed.

Theorem iter_batch_mh_tune_spec : forall x0 sigma n beta g lp,
  BoundLen -> haslen sigma -> haslen x0 -> 1 <= n ->
  iter_batch_mh_tune U D np x0 sigma n beta g lp
  = OK (let sk := mhn sigma beta (Z.to_nat n) (mkMs x0 lp g 0) in
        (ndiv (nof (ms_acc sk)) (nof n), ms_g sk)).
Proof.
  intros x0 sigma n beta g lp HB Hs Hx Hn. unfold iter_batch_mh_tune, chain_start.
  destruct (chain_start_inv n x0 Hn) as [ch0 [-> [Lc Cc]]].
  destruct (chain_start_inv n lp Hn) as [lp0 [-> [Ll Cl]]].
  cbn [rbind].
  set (s0 := mkMs x0 lp g 0). set (N := Z.to_nat n).
  destruct (for_from_ok (minv sigma beta N s0) (mh_body U D np sigma beta lp) N 0
              (mkMhs ch0 lp0 g 0)) as [s [Hr HI]].
  - unfold minv. simpl. repeat split; auto; intros; lia.
  - intros i s Hi HM. change lp with (ms_lp s0). apply mh_body_ok; auto.
  - rewrite Hr. cbn [rbind]. destruct HI as [_ [_ [_ [_ [_ [Hg Ha]]]]]].
    rewrite Z.add_0_l, Nat2Z.id in Hg, Ha. rewrite Hg, Ha. auto.
Qed.

(** a batch that returned had at least one iteration *)
Lemma iter_batch_mh_pos : forall x0 sigma n beta g it acc sb lp b,
  iter_batch_mh U D np x0 sigma n beta g it acc sb lp = OK b -> 1 <= n.
Proof.
  intros. unfold iter_batch_mh, chain_start in H. apply rbind_ok in H. destruct H as [c [H _]].
  apply zset_ok_inv in H. destruct H as [H _]. unfold fresh in H. rewrite repeat_length in H. lia.
Qed.

End MhSpec.
