(** Every part of the MPI program computes what the sequential reference computes. *)
From Coq Require Import ZArith Arith List Bool Lia FunctionalExtensionality.
From Verif Require Import Base Arith Rand Mh Ladder Tune Mpi MpiMeta Spmd Prog Seq ListAux MhSpec SeqWf.
Import ListNotations.
Open Scope Z_scope.

Section Drain.
Context {msg event : Type}.
Notation proc := (proc msg event).

Lemma drains_bind : forall {X Y} (p p' : proc X) l (c : X -> proc Y),
  drains p l p' -> drains (pbind p c) l (pbind p' c).
Proof. induction 1; simpl; constructor; auto. Qed.

Lemma feeds_bind : forall {X Y} (p p' : proc X) l (c : X -> proc Y),
  feeds p l p' -> feeds (pbind p c) l (pbind p' c).
Proof. induction 1; simpl; constructor; auto. Qed.

Lemma drains_pfor : forall {S} (I : S -> Prop) (ms : nat -> list (nat * msg))
    (body : nat -> S -> proc S) (step : S -> nat -> S) l s,
  (forall i s, In i l -> I s -> drains (body i s) (tagged i (ms i)) (Ret (step s i)) /\ I (step s i)) ->
  I s ->
  drains (pfor l body s) (concat (map (fun i => tagged i (ms i)) l)) (Ret (fold_left step l s)).
Proof.
  intros S I ms body step l. induction l as [|i l IH]; intros s H Hs; simpl.
  - constructor.
  - destruct (H i s (or_introl eq_refl) Hs) as [H1 H2].
    eapply drains_app.
    + apply drains_bind. exact H1.
    + simpl. apply IH; auto. intros. apply H; auto. right; auto.
Qed.
End Drain.

Section Refine.
Context {A : Arith}.
Variable C : Cfg A.
Variable U : User A.
Variable n : nat.
Variable E : Env (A := A).
Variable F : Type.
Hypothesis UO : UserOK C U.
Hypothesis Hn : (2 <= n)%nat.
Notation row := (list (num A)).
Notation hl := (haslen (N_parm C)).
Notation proc := (proc (msg A) (event A)).
Notation wf := (wf C n).
Notation ev := (ev (F := F) n).

Definition at0 {X} (a b : X) (r : nat) : X := if is_root r then a else b.
Definition st_of (G : gst (A := A)) (r : nat) : st (A := A) :=
  mkSt (nth r (g_locs G) dloc) (at0 (g_ro G) noroot r).

Lemma Hn0 : (0 < n)%nat. Proof. lia. Qed.

Lemma as_dbls_ok : forall k l, Z.of_nat (length l) = k -> as_dbls (A := A) k (MD l) = OK l.
Proof. intros. unfold as_dbls. rewrite H, Z.eqb_refl. auto. Qed.
Lemma as_ints_ok : forall k l, Z.of_nat (length l) = k -> as_ints (A := A) k (MI l) = OK l.
Proof. intros. unfold as_ints. rewrite H, Z.eqb_refl. auto. Qed.

Lemma root_slave : forall r, (0 < r < n)%nat -> is_root r = false.
Proof. intros r H. unfold is_root, root. destruct r; [lia|auto]. Qed.

(** the root's collection loop into a fresh array *)
Lemma fill_drain : forall {X} tag (dec : msg A -> res X) (enc : X -> msg A) (v : nat -> X),
  (forall i, (0 < i < n)%nat -> dec (enc (v i)) = OK (v i)) ->
  drains (event := event A)
    (pfor (slaves n) (fun i t => Recv i tag (fun m => x <- plift (dec m);; plift (zset t (zr i) (Some x))))
       (lset (fresh (zn n)) 0 (Some (v 0%nat))))
    (concat (map (fun i => tagged i [(tag, enc (v i))]) (slaves n)))
    (Ret (map (fun i => Some (v i)) (seq 0 n))).
Proof.
  intros X tag dec enc v Hdec.
  rewrite <- (fill_all (fun i => Some (v i)) n (fresh (zn n))).
  2:{ unfold fresh, zn. rewrite repeat_length. lia. }
  2:{ lia. }
  rewrite <- (slaves_seq n) by lia.
  apply (drains_pfor (fun t => length t = n) (fun i => [(tag, enc (v i))])).
  - intros i s Hi Hs. apply slaves_in in Hi. split; [|rewrite lset_length; auto].
    simpl. constructor. rewrite Hdec by auto. simpl. rewrite zset_nat by lia. simpl. constructor.
  - rewrite lset_length. unfold fresh, zn. rewrite repeat_length. lia.
Qed.

(** collect one value per rank at the root *)
Lemma ev_collect : forall {X Y} tag (dec : msg A -> res X) (enc : X -> msg A) (v : nat -> X)
    (kr : list X -> proc Y) (ks : nat -> proc Y) y es,
  (forall i, (0 < i < n)%nat -> dec (enc (v i)) = OK (v i)) ->
  ev (fun r => if is_root r then kr (map v (ranks n)) else ks r) y es ->
  ev (fun r => if is_root r then
        t0 <- plift (zset (fresh (zn n)) (zr root) (Some (v 0%nat)));;
        t <- pfor (slaves n) (fun i t => Recv i tag (fun m => x <- plift (dec m);; plift (zset t (zr i) (Some x)))) t0;;
        l <- plift (all_cells t);; kr l
      else Send root tag (enc (v r)) (ks r)) y es.
Proof.
  intros X Y tag dec enc v kr ks y es Hdec H.
  apply (ev_gather n (fun i => [(tag, enc (v i))]) (slaves n) _
           (fun r => if is_root r then kr (map v (ranks n)) else ks r)).
  - apply slaves_nodup.
  - apply slaves_in.
  - cbn [is_root root Nat.eqb]. change (zr root) with (zr 0).
    rewrite zset_nat by (unfold fresh, zn; rewrite repeat_length; lia). cbn [plift pbind].
    pose proof (fill_drain tag dec enc v Hdec) as P.
    apply (drains_bind _ _ _ (fun t => l <- plift (all_cells t);; kr l)) in P.
    cbn [pbind] in P. rewrite <- (map_map v Some), all_cells_some in P. exact P.
  - intros r Hr. rewrite (root_slave r Hr). cbn [sendto0]. reflexivity.
  - exact H.
Qed.

(** root sends one message to each other rank *)
Lemma ev_send_each : forall {Y} (ms : nat -> list (nat * msg A)) (body : nat -> unit -> proc unit)
    (kr : proc Y) (fs ks : nat -> proc Y) y es,
  (forall i, (0 < i < n)%nat -> body i tt = send_list (tagged i (ms i)) (Ret tt)) ->
  (forall r, (0 < r < n)%nat -> feeds (fs r) (ms r) (ks r)) ->
  ev (fun r => if is_root r then kr else ks r) y es ->
  ev (fun r => if is_root r then (_ <- pfor (slaves n) body tt;; kr) else fs r) y es.
Proof.
  intros Y ms body kr fs ks y es Hb Hf H.
  apply (ev_scatter n ms (slaves n) _ (fun r => if is_root r then kr else ks r)).
  - apply slaves_nodup.
  - apply slaves_in.
  - cbn [is_root root Nat.eqb]. rewrite (pfor_sends ms).
    + rewrite pbind_send_list. cbn [pbind]. reflexivity.
    + intros i Hi. apply slaves_in in Hi. apply Hb; auto.
  - intros r Hr. rewrite (root_slave r Hr). apply Hf; auto.
  - exact H.
Qed.

(** *** mpi_distribute_sigma *)
Lemma ev_distribute : forall t, length t = n -> (forall x, In x t -> hl x) ->
  ev (fun r => mpi_distribute_sigma C n r (at0 t [] r)) (fun r => nth r t []) (fun _ => []).
Proof.
  intros t Ht Hx.
  eapply ev_ext; [| | |
    apply (ev_send_each (fun i => [(100%nat, MD (nth i t []))])
      (fun i _ => x <- plift (zget t (zr i));; Send i 100 (MD x) (Ret tt))
      (Ret (nth 0 t []))
      (fun r => Recv root 100 (fun m => plift (as_dbls (N_parm C) m)))
      (fun r => Ret (nth r t [])) (fun r => nth r t []) (fun _ => []))].
  - intros r Hr. unfold mpi_distribute_sigma, at0. destruct r as [|r]; cbn [is_root root Nat.eqb]; auto.
    change (zr root) with (zr 0). rewrite (zget_nat t 0 []) by lia. reflexivity.
  - reflexivity.
  - reflexivity.
  - intros i Hi. rewrite (zget_nat t i []) by lia. reflexivity.
  - intros r Hr. constructor. rewrite as_dbls_ok by (apply Hx, nth_In; lia). constructor.
  - eapply ev_ext; [| reflexivity | reflexivity | apply ev_ret].
    intros r Hr. destruct r; cbn [is_root root Nat.eqb]; auto.
Qed.

(** *** mpi_gather_sigma *)
Lemma ev_gather_sigma : forall (sig : nat -> row), (forall r, hl (sig r)) ->
  ev (fun r => mpi_gather_sigma C n r (sig r)) (at0 (map sig (ranks n)) []) (fun _ => []).
Proof.
  intros sig Hs.
  eapply ev_ext; [| | |
    apply (ev_collect 200 (as_dbls (N_parm C)) (fun x => MD x) sig Ret (fun _ => Ret []))].
  - intros r Hr. unfold mpi_gather_sigma. destruct r as [|r]; cbn [is_root root Nat.eqb]; auto.
    f_equal. apply functional_extensionality; intros t0. f_equal.
    apply functional_extensionality; intros t. rewrite pbind_ret. auto.
  - reflexivity.
  - reflexivity.
  - intros i Hi. apply as_dbls_ok. apply Hs.
  - eapply ev_ext; [| reflexivity | reflexivity | apply (ev_ret n (at0 (map sig (ranks n)) []))].
    intros r Hr. unfold at0. destruct (is_root r); auto.
Qed.

Lemma st_lo : forall G r, lo (st_of G r) = nth r (g_locs G) dloc.
Proof. auto. Qed.

(** *** mpi_run_a_batch *)
Lemma ev_batch : forall D G nb G' lg, wf G -> seq_batch C U n D G nb = OK (G', lg) ->
  ev (fun r => mpi_run_a_batch C U n D r (st_of G r) nb) (st_of G') (fun r => proj r lg).
Proof.
  intros D G nb G' lg W H. pose proof (seq_batch_wf C U n UO Hn _ _ _ _ _ W H) as W'.
  unfold seq_batch in H. rinv. rename v into bs. rename E0 into Ebs.
  destruct (batch_of_inv C U n Hn D G nb bs W Ebs) as [HL [Hnb K]].
  set (b := fun r => nth r bs dbatch).
  assert (Hlast : forall r, (r < n)%nat -> hl (b_last (b r))).
  { intros r Hr. apply (wf_trrow _ _ _ W'). cbn [g_ro transit]. apply in_map. apply nth_In; lia. }
  pose proof (wf_tr _ _ _ W) as Ltr. pose proof (wf_lps _ _ _ W) as Llp.
  pose proof (wf_locs _ _ _ W) as Llo.
  assert (Lb : forall r, (r < n)%nat -> length (l_beta (nth r (g_locs G) dloc)) = n).
  { intros. apply (wf_beta _ _ _ W). apply nth_In; lia. }
  set (rest2 :=
     lps1 <- plift (zset (lps (g_ro G)) (zr root) (b_lp (b 0%nat)));;
     tr1 <- plift (zset (transit (g_ro G)) (zr root) (b_last (b 0%nat)));;
     '(tr, lp') <- pfor (slaves n) (fun i '(tr, l) =>
          Recv i 200 (fun m1 =>
            x <- plift (as_dbls (N_parm C) m1);;
            tr' <- plift (zset tr (zr i) x);;
            Recv i 201 (fun m2 =>
              v <- plift (as_dbl m2);;
              l' <- plift (zset l (zr i) v);;
              Ret (tr', l')))) (tr1, lps1);;
      Ret (set_trlp (after_batch (st_of G 0) (b 0%nat)) tr lp') : proc st).
  set (sl := fun r => Send root 200 (MD (b_last (b r)))
               (Send root 201 (MD [b_lp (b r)]) (Ret (after_batch (st_of G r) (b r)))) : proc st).
  eapply ev_ext; [| | |
    apply (ev_send_each (fun i => [(102%nat, MD (nth i (transit (g_ro G)) []));
                                   (103%nat, MD [nth i (lps (g_ro G)) (nof 0)])])
      (fun i _ => x <- plift (zget (transit (g_ro G)) (zr i));;
         Send i 102 (MD x) (l <- plift (zget (lps (g_ro G)) (zr i));; Send i 103 (MD [l]) (Ret tt)))
      (pouts (map (EvRow 0%nat) (b_saved (b 0%nat))) rest2)
      (fun r => Recv root 102 (fun m1 =>
        x0 <- plift (as_dbls (N_parm C) m1);;
        Recv root 103 (fun m2 =>
        lp <- plift (as_dbl m2);;
        beta <- plift (zget (l_beta (lo (st_of G r))) (zr r));;
        b <- plift (iter_batch_mh U D (N_parm C) x0 (l_sig (lo (st_of G r))) nb beta (l_g (lo (st_of G r)))
                     (l_it (lo (st_of G r))) (l_acc (lo (st_of G r))) (i_save_begin C) lp);;
        pouts (map (EvRow r) (b_saved b))
          (Send root 200 (MD (b_last b))
            (Send root 201 (MD [b_lp b])
              (Ret (after_batch (st_of G r) b)))))))
      (fun r => pouts (map (EvRow r) (b_saved (b r))) (sl r))
      (st_of (mkG (map2 loc_batch (g_locs G) bs) (mkRoot (map b_last bs) (map b_lp bs) (sigt (g_ro G)))))
      (fun r => map (EvRow r) (b_saved (b r)) ++ []))].
  - intros r Hr. unfold mpi_run_a_batch. destruct r as [|r]; cbn [is_root root Nat.eqb]; auto.
    f_equal. apply functional_extensionality; intros _.
    cbn [st_of lo ro at0 is_root root Nat.eqb].
    change (zr 0) with (zr 0%nat). change (zr root) with (zr 0).
    rewrite (zget_nat _ 0 []) by lia. rewrite (zget_nat _ 0 (nof 0)) by lia. cbn [plift pbind].
    rewrite (zget_nat _ 0 (nof 0)) by (rewrite Lb; lia). cbn [plift pbind].
    rewrite K by lia. reflexivity.
  - reflexivity.
  - intros r Hr. cbv beta; rewrite app_nil_r.
    rewrite (map2_seq _ _ _ 0%nat dbatch n) by (unfold ranks; rewrite ?seq_length; auto).
    transitivity (proj r (concat (map (fun q => map (pair q) (map (EvRow q) (b_saved (b q)))) (ranks n)))).
    + rewrite proj_ranks; auto.
    + f_equal. f_equal. apply map_ext_in. intros q Hq. apply in_seq in Hq.
      unfold rows_log, ranks. rewrite nth_seq0 by lia. rewrite map_map. reflexivity.
  - intros i Hi. rewrite (zget_nat _ i []) by lia. rewrite (zget_nat _ i (nof 0)) by lia. reflexivity.
  - intros r Hr. constructor. rewrite as_dbls_ok by (apply (wf_trrow _ _ _ W), nth_In; lia).
    cbn [plift pbind]. constructor. cbn [as_dbl plift pbind]. rewrite !st_lo.
    rewrite (zget_nat _ r (nof 0)) by (rewrite Lb; lia). cbn [plift pbind].
    rewrite K by lia. cbn [plift pbind]. constructor.
  - eapply ev_ext; [| reflexivity | reflexivity |
      apply (ev_pouts n (fun r => map (EvRow r) (b_saved (b r))) (fun r => if is_root r then rest2 else sl r))].
    + intros r Hr. destruct r as [|r]; cbn [is_root root Nat.eqb]; auto.
    + match goal with |- Spmd.ev _ _ ?x _ => apply (ev_gather n
        (fun i => [(200%nat, MD (b_last (b i))); (201%nat, MD [b_lp (b i)])]) (slaves n) _ (fun r => Ret (x r))) end.
      * apply slaves_nodup.
      * apply slaves_in.
      * cbn [is_root root Nat.eqb]. unfold rest2. change (zr root) with (zr 0).
        rewrite !zset_nat by lia. cbn [plift pbind].
        match goal with |- drains (pbind (pfor _ ?bd ?s0) ?K0) _ _ =>
          pose proof (drains_pfor (fun x => length (fst x) = n /\ length (snd x) = n)
             (fun i => [(200%nat, MD (b_last (b i))); (201%nat, MD [b_lp (b i)])]) bd
             (fun x i => (lset (fst x) i (b_last (b i)), lset (snd x) i (b_lp (b i)))) (slaves n) s0) as P;
          set (K1 := K0) end.
        assert (P' : forall i s, In i (slaves n) -> length (fst s) = n /\ length (snd s) = n ->
           drains (event := event A) ((fun i '(tr, l) =>
              Recv i 200 (fun m1 => x <- plift (as_dbls (N_parm C) m1);;
                tr' <- plift (zset tr (zr i) x);;
                Recv i 201 (fun m2 => v <- plift (as_dbl m2);; l' <- plift (zset l (zr i) v);; Ret (tr', l')))) i s)
             (tagged i [(200%nat, MD (b_last (b i))); (201%nat, MD [b_lp (b i)])])
             (Ret (lset (fst s) i (b_last (b i)), lset (snd s) i (b_lp (b i)))) /\
           length (fst (lset (fst s) i (b_last (b i)), lset (snd s) i (b_lp (b i)))) = n /\
           length (snd (lset (fst s) i (b_last (b i)), lset (snd s) i (b_lp (b i)))) = n).
        { intros i [t l] Hi [Ht Hl]. apply slaves_in in Hi. cbn [fst snd] in *.
          rewrite !lset_length. split; auto. cbn [tagged map]. constructor.
          rewrite as_dbls_ok by (apply Hlast; lia). cbn [plift pbind]. rewrite zset_nat by lia.
          cbn [plift pbind]. constructor. cbn [as_dbl plift pbind]. rewrite zset_nat by lia. constructor. }
        specialize (P P'). cbn [fst snd] in P. rewrite !lset_length in P. specialize (P (conj Ltr Llp)).
        apply (drains_bind _ _ _ K1) in P.
        match type of P with drains _ _ ?q => match goal with |- drains _ _ ?q' => replace q' with q end end;
          [exact P|].
        assert (FS : forall l a c, fold_left (fun (x : list row * row) i => (lset (fst x) i (b_last (b i)), lset (snd x) i (b_lp (b i)))) l (a, c)
             = (fold_left (fun t i => lset t i (b_last (b i))) l a, fold_left (fun t i => lset t i (b_lp (b i))) l c)).
        { induction l as [|i l IHl]; intros a c; cbn [fold_left]; auto. }
        rewrite FS. rewrite !slaves_seq by lia.
        rewrite (fill_all (fun i => b_last (b i))) by (auto; lia).
        rewrite (fill_all (fun i => b_lp (b i))) by (auto; lia).
        cbn [pbind K1]. unfold K1. f_equal. unfold st_of, set_trlp, set_ro, after_batch.
        cbn [lo ro at0 is_root root Nat.eqb g_locs g_ro sigt]. f_equal.
        -- rewrite (map2_nth _ _ _ _ dloc dbatch) by lia. reflexivity.
        -- unfold b. rewrite <- !(map_map (fun i => nth i bs dbatch)), <- HL, <- list_as_map. auto.
      * intros r Hr. rewrite (root_slave r Hr). unfold sl. cbn [sendto0]. do 3 f_equal.
        unfold st_of, after_batch, at0. rewrite (root_slave r Hr). cbn [lo ro g_locs].
        rewrite (map2_nth _ _ _ _ dloc dbatch) by lia. reflexivity.
      * apply ev_ret.
Qed.

(** *** mpi_judge_and_swap *)
Lemma concat_only1 : forall (l : list (nat * msg A)),
  concat (map (fun i => tagged i (if Nat.eqb i 1 then l else [])) (slaves n)) = tagged 1 l.
Proof.
  intros l. rewrite slaves_seq by lia. replace (n - 1)%nat with (S (n - 2)) by lia.
  cbn [seq map concat Nat.eqb]. rewrite <- (app_nil_r (tagged 1 l)) at 2. f_equal.
  assert (G : forall k a, (1 < a)%nat ->
     concat (map (fun i => tagged i (if Nat.eqb i 1 then l else [])) (seq a k)) = []).
  { induction k as [|k IH]; intros a Ha; cbn [seq map concat]; auto.
    destruct (Nat.eqb_spec a 1); [lia|]. cbn [tagged map app]. apply IH; lia. }
  apply G; lia.
Qed.

Lemma rank_cases : forall r, (r < n)%nat -> r = 0%nat \/ r = 1%nat \/ (is_root r = false /\ Nat.eqb r slave_rank = false /\ Nat.eqb r 1 = false /\ (1 < r)%nat).
Proof.
  intros r Hr. destruct r as [|[|r]]; auto. right; right. repeat split; auto. lia.
Qed.

Lemma ev_swap : forall D G (ii : nat -> Z) G' d, wf G -> seq_swap C U n D G (ii 0%nat) = OK (G', d) ->
  ev (fun r => mpi_judge_and_swap C U n D r (st_of G r) (ii r))
     (fun r => (st_of G' r, at0 d 0 r)) (fun _ => []).
Proof.
  intros D G ii G' d W H. set (i := ii 0%nat) in *.
  unfold seq_swap in H.
  pose proof (wf_locs _ _ _ W) as Llo.
  unfold getloc in H. change (zr root) with (zr 0) in H. change (zr slave_rank) with (zr 1) in H.
  rewrite (zget_nat _ 0 dloc) in H by lia. rewrite (zget_nat _ 1 dloc) in H by lia.
  cbn [rbind] in H.
  rinv. rename z into j. rename z0 into g1.
  set (xi := v) in *. set (xj := v0) in *. set (lpii := v1) in *. set (lpjj := v2) in *.
  set (bj := v3) in *. set (bi := v4) in *.
  set (ij := logpost_at U D xi bj) in *. set (ji := logpost_at U D xj bi) in *.
  set (sum := nsub (nsub (nadd ij ji) lpii) lpjj) in *.
  set (dec := if nltb (nof 0) sum then (true, g1)
              else let (u, g2) := drand48 g1 in (nltb u (nexp sum), g2)) in *.
  assert (Hxj : hl xj). { apply (wf_trrow _ _ _ W). eapply zget_in; eauto. }
  set (rest := let '(doswap, g2) := dec in
          if doswap then
            t1 <- plift (zset (transit (g_ro G)) i xj);;
            t2 <- plift (zset t1 j xi);;
            l1 <- plift (zset (lps (g_ro G)) i ji);;
            l2 <- plift (zset l1 j ij);;
            Ret (set_trlp (set_g (st_of G 0) g2) t2 l2, 1)
          else Ret (set_g (st_of G 0) g2, 0) : proc (st * Z)).
  assert (Hrest : rest = Ret (st_of G' 0, d)).
  { unfold rest. destruct dec as [dsw g2]. apply rbind_ok in H. destruct H as [G1 [HG H]].
    rewrite (with_g0_ok C n Hn) in HG by auto. inversion HG; subst G1; clear HG.
    cbn [g_locs g_ro] in H.
    assert (N0 : nth 0 (lset (g_locs G) 0 (loc_g (nth 0 (g_locs G) dloc) g2)) dloc
                 = loc_g (nth 0 (g_locs G) dloc) g2) by (apply nth_lset_eq; lia).
    destruct dsw; rinv.
    - rewrite E7, E9. cbn [plift pbind]. rewrite E8, E10. cbn [plift pbind].
      unfold st_of. cbn [g_locs g_ro at0 is_root root Nat.eqb]. rewrite N0. reflexivity.
    - unfold st_of. cbn [g_locs g_ro at0 is_root root Nat.eqb]. rewrite N0. reflexivity. }
  assert (Hother : forall r, (0 < r < n)%nat -> st_of G r = st_of G' r).
  { intros r Hr. clear Hrest rest. destruct dec as [dsw g2]. apply rbind_ok in H. destruct H as [G1 [HG H]].
    rewrite (with_g0_ok C n Hn) in HG by auto. inversion HG; subst G1; clear HG.
    unfold st_of, at0. rewrite (root_slave r Hr). f_equal.
    destruct dsw; rinv; cbn [g_locs]; rewrite nth_lset_ne by lia; auto. }
  apply (ev_scatter n (fun r => if Nat.eqb r 1 then [(101%nat, MD xj); (102%nat, MI [i])] else []) (slaves n) _
    (fun r => if is_root r then
        Recv slave_rank 200 (fun m => ji' <- plift (as_dbl m);;
          let sum := nsub (nsub (nadd ij ji') lpii) lpjj in
          let '(doswap, g2) :=
            if nltb (nof 0) sum then (true, g1)
            else let (u, g2) := drand48 g1 in (nltb u (nexp sum), g2) in
          if doswap then
            t1 <- plift (zset (transit (g_ro G)) i xj);;
            t2 <- plift (zset t1 j xi);;
            l1 <- plift (zset (lps (g_ro G)) i ji');;
            l2 <- plift (zset l1 j ij);;
            Ret (set_trlp (set_g (st_of G 0) g2) t2 l2, 1)
          else Ret (set_g (st_of G 0) g2, 0))
      else if Nat.eqb r 1 then Send root 200 (MD [ji]) (Ret (st_of G r, 0))
      else Ret (st_of G r, 0))).
  - apply slaves_nodup.
  - apply slaves_in.
  - rewrite concat_only1. unfold mpi_judge_and_swap. cbn [is_root root Nat.eqb].
    fold i. cbn [st_of lo ro at0 is_root root Nat.eqb].
    rewrite E0. cbn [plift pbind]. rewrite E1, E2, E3, E4. cbn [plift pbind].
    cbn [tagged map send_list]. do 2 f_equal. rewrite E5. reflexivity.
  - intros r Hr. destruct (rank_cases r) as [->|[->|[R1 [R2 [R3 R4]]]]]; try lia.
    + cbn [Nat.eqb]. unfold mpi_judge_and_swap.
      change (is_root 1) with false. change (Nat.eqb 1 slave_rank) with true. cbv iota.
      constructor. rewrite as_dbls_ok by auto. cbn [plift pbind]. constructor.
      cbn [as_int plift pbind]. cbn [st_of lo]. rewrite E6. cbn [plift pbind]. constructor.
    + unfold mpi_judge_and_swap. rewrite R1, R2, R3. constructor.
  - apply (ev_gather n (fun r => if Nat.eqb r 1 then [(200%nat, MD [ji])] else []) (slaves n) _
      (fun r => Ret (st_of G' r, at0 d 0 r))).
    + apply slaves_nodup.
    + apply slaves_in.
    + rewrite concat_only1. cbn [is_root root Nat.eqb tagged map]. constructor.
      cbn [as_dbl plift pbind]. fold sum. fold dec. fold rest. rewrite Hrest.
      cbn [at0 is_root root Nat.eqb]. constructor.
    + intros r Hr. unfold at0. rewrite (root_slave r Hr). rewrite Hother by auto.
      destruct (Nat.eqb r 1); reflexivity.
    + apply ev_ret.
Qed.

(** *** the swaps after a batch *)
Definition rstate (x : gst (A := A) * Z * row * row) (isl : Z) (r : nat) : st (A := A) * Z * row * row :=
  let '(G, i, nsw, npr) := x in (st_of G r, at0 i isl r, at0 nsw [] r, at0 npr [] r).

Lemma ev_round : forall D k G i nsw npr isl y, wf G ->
  seq_round C U n D k (G, i, nsw, npr) = OK y ->
  ev (fun r => swap_round C U n D r k (rstate (G, i, nsw, npr) isl r)) (rstate y isl) (fun _ => []).
Proof.
  intros D k G i nsw npr isl y W H. unfold seq_round in H.
  pose proof (wf_locs _ _ _ W) as Llo.
  unfold getloc in H. change (zr root) with (zr 0) in H.
  rewrite (zget_nat _ 0 dloc) in H by lia. cbn [rbind] in H. rinv.
  rename g into G2. rename z into i1. rename z0 into g. rename v into G1. rename z1 into dsw.
  pose proof (with_g0_wf C n Hn _ _ _ W E1) as W1.
  assert (HG1 : forall r, (r < n)%nat -> st_of G1 r = at0 (set_g (st_of G 0) g) (st_of G r) r).
  { rewrite (with_g0_ok C n Hn) in E1 by auto. inversion E1; subst.
    intros [|r] Hr; unfold at0, st_of; cbn [is_root root Nat.eqb g_locs g_ro].
    - rewrite nth_lset_eq by lia. reflexivity.
    - rewrite nth_lset_ne by lia. reflexivity. }
  unfold swap_round, rstate at 1.
  eapply (ev_bind0 n _ _ (fun r => (st_of G1 r, at0 i1 isl r))).
  - eapply ev_ext; [| reflexivity | reflexivity | apply ev_ret].
    intros r Hr. cbv beta. rewrite HG1 by auto. destruct r as [|r]; unfold at0; cbn [is_root root Nat.eqb]; auto.
    cbn [st_of lo]. rewrite E0. reflexivity.
  - cbv beta iota.
    eapply (ev_bind0 n _ _ (fun r => (st_of G2 r, at0 dsw 0 r))).
    + apply (ev_swap D G1 (at0 i1 isl)); auto.
    + eapply ev_ext; [| reflexivity | reflexivity | apply ev_ret].
      intros r Hr. destruct (0 <? Tune_Ladder C); cbn [andb].
      * unfold bump in H. rinv.
        destruct r as [|r]; unfold at0; cbn [is_root root Nat.eqb rstate at0]; auto.
        rewrite E6. cbn [plift pbind]. rewrite E3. cbn [plift pbind].
        rewrite E5. cbn [plift pbind]. rewrite E4. reflexivity.
      * rinv. destruct r as [|r]; reflexivity.
Qed.

Lemma ev_rounds : forall D l x isl y, wf (fst (fst (fst x))) ->
  foldM l (seq_round C U n D) x = OK y ->
  ev (fun r => pfor l (swap_round C U n D r) (rstate x isl r)) (rstate y isl) (fun _ => []).
Proof.
  induction l as [|k l IH]; intros x isl y W H; cbn [foldM pfor] in *.
  - rinv. apply ev_ret.
  - destruct x as [[[G i] nsw] npr]. apply rbind_ok in H.
    destruct H as [[[[G1 i1] nsw1] npr1] [E1 H]]. cbn [fst] in W.
    eapply (ev_bind0 n _ _ (rstate (G1, i1, nsw1, npr1) isl)).
    + eapply ev_round; eauto.
    + apply IH; auto. cbn [fst]. eapply seq_round_wf; eauto.
Qed.

(** *** mpi_static_sigma_stack *)
Lemma ev_stack_loop : forall D len fuel G it ix i nsw npr isl G' nsw' npr' lg, wf G ->
  seq_stack_loop C U n D len fuel G it ix i nsw npr = OK (G', nsw', npr', lg) ->
  ev (fun r => stack_loop C U n D r len fuel (st_of G r) it ix (at0 i isl r) (at0 nsw [] r) (at0 npr [] r))
     (fun r => (st_of G' r, at0 nsw' [] r, at0 npr' [] r)) (fun r => proj r lg).
Proof.
  induction fuel as [|fuel IH]; intros G it ix i nsw npr isl G' nsw' npr' lg W H;
    cbn [seq_stack_loop stack_loop] in *; destruct (ix <? len).
  - discriminate.
  - rinv. apply ev_ret.
  - pose proof (wf_locs _ _ _ W) as Llo.
    unfold getloc in H. change (zr root) with (zr 0) in H.
    rewrite (zget_nat _ 0 dloc) in H by lia. cbn [rbind] in H.
    apply rbind_ok in H. destruct H as [[[nx nb] g] [Enb H]].
    apply rbind_ok in H. destruct H as [G1 [EG1 H]].
    apply rbind_ok in H. destruct H as [[G2 lg1] [EG2 H]].
    apply rbind_ok in H. destruct H as [[[[G3 i3] nsw3] npr3] [EG3 H]].
    apply rbind_ok in H. destruct H as [[[[G4 nsw4] npr4] lg4] [EG4 H]]. injection H as <- <- <- <-.
    pose proof (with_g0_wf C n Hn _ _ _ W EG1) as W1.
    pose proof (seq_batch_wf C U n UO Hn _ _ _ _ _ W1 EG2) as W2.
    pose proof (seq_rounds_wf C U n Hn _ _ _ _ _ _ _ _ _ _ W2 EG3) as W3.
    assert (HG1 : forall r, (r < n)%nat -> st_of G1 r = at0 (set_g (st_of G 0) g) (st_of G r) r).
    { rewrite (with_g0_ok C n Hn) in EG1 by auto. inversion EG1; subst G1.
      intros [|r] Hr; unfold at0, st_of; cbn [is_root root Nat.eqb g_locs g_ro].
      - rewrite nth_lset_eq by lia. reflexivity.
      - rewrite nth_lset_ne by lia. reflexivity. }
    eapply (ev_bind0 n _ _ (fun r => (st_of G1 r, nx, nb))).
    + eapply ev_ext; [| reflexivity | reflexivity |
        apply (ev_send_each (fun r => [(100%nat, MI [nx]); (101%nat, MI [nb])])
          (fun i _ => Send i 100 (MI [nx]) (Send i 101 (MI [nb]) (Ret tt)))
          (Ret (set_g (st_of G 0) g, nx, nb))
          (fun r => Recv root 100 (fun m1 => nx <- plift (as_int m1);;
             Recv root 101 (fun m2 => nb <- plift (as_int m2);; Ret (st_of G r, nx, nb))))
          (fun r => Ret (st_of G r, nx, nb)) (fun r => (st_of G1 r, nx, nb)) (fun _ => []))].
      * intros r Hr. destruct r as [|r]; cbn [is_root root Nat.eqb]; auto.
        unfold next_batch in Enb. apply rbind_ok in Enb. destruct Enb as [lr [E1 Enb]].
        apply rbind_ok in Enb. destruct Enb as [[adj g'] [E2 Enb]].
        apply rbind_ok in Enb. destruct Enb as [nb0 [E3 Enb]].
        apply rbind_ok in Enb. destruct Enb as [nx0 [E4 Enb]]. inversion Enb; subst; clear Enb.
        rewrite E1. cbn [plift pbind]. cbn [st_of lo]. rewrite E2. cbn [plift pbind].
        rewrite E3. cbn [plift pbind]. rewrite E4. cbn [plift pbind]. reflexivity.
      * intros i0 Hi. reflexivity.
      * intros r Hr. repeat (constructor; cbn [as_int plift pbind]).
      * eapply ev_ext; [| reflexivity | reflexivity | apply ev_ret].
        intros r Hr. cbv beta. rewrite HG1 by auto. destruct r; reflexivity.
    + cbv beta iota. apply ev_barrier; [lia|].
      eapply ev_ext; [reflexivity | reflexivity | |
        eapply (ev_bind n _ _ (st_of G2) _ (fun r => proj r lg1) (fun r => proj r lg4))].
      * intros r Hr. cbv beta. rewrite proj_app. reflexivity.
      * apply ev_batch; auto.
      * apply ev_barrier; [lia|].
        eapply (ev_bind0 n _ _ (rstate (G3, i3, nsw3, npr3) isl)).
        -- apply (ev_rounds D (zseq (N_swap C)) (G2, i, nsw, npr) isl); auto.
        -- unfold rstate. apply ev_barrier; [lia|].
           apply (IH G3 nx nx i3 nsw3 npr3 isl); auto.
  - rinv. apply ev_ret.
Qed.

(** *** mpi_adjust_ladder *)
Lemma ev_ladder : forall G nsw npr G', wf G -> seq_ladder C n G nsw npr = OK G' ->
  ev (fun r => mpi_adjust_ladder C n r (st_of G r) (at0 nsw [] r) (at0 npr [] r)) (st_of G') (fun _ => []).
Proof.
  intros G nsw npr G' W H. unfold seq_ladder in H.
  pose proof (wf_locs _ _ _ W) as Llo.
  unfold getloc in H. change (zr root) with (zr 0) in H.
  rewrite (zget_nat _ 0 dloc) in H by lia. cbn [rbind] in H.
  apply rbind_ok in H. destruct H as [b [Eb H]]. inversion H; subst G'; clear H.
  assert (Lb : length b = n).
  { rewrite (tune_ladder_length _ _ _ _ _ _ _ Eb). apply (wf_beta _ _ _ W). apply nth_In; lia. }
  assert (HS : forall r, (r < n)%nat ->
    st_of (mkG (map (fun l => loc_beta l b) (g_locs G)) (g_ro G)) r = set_beta (st_of G r) b).
  { intros r Hr. unfold st_of, set_beta. cbn [g_locs g_ro lo ro].
    rewrite (map_nth2 (fun l => loc_beta l b) _ _ dloc) by lia. reflexivity. }
  eapply ev_ext; [| | reflexivity |
    apply (ev_send_each (fun r => [(100%nat, MD b)]) (fun i _ => Send i 100 (MD b) (Ret tt))
      (Ret (set_beta (st_of G 0) b))
      (fun r => Recv root 100 (fun m => b <- plift (as_dbls (zn n) m);; Ret (set_beta (st_of G r) b)))
      (fun r => Ret (set_beta (st_of G r) b)) (fun r => set_beta (st_of G r) b) (fun _ => []))].
  - intros r Hr. unfold mpi_adjust_ladder. destruct r as [|r]; cbn [is_root root Nat.eqb at0]; auto.
    cbn [st_of lo]. rewrite Eb. reflexivity.
  - intros r Hr. symmetry. apply HS; auto.
  - reflexivity.
  - intros r Hr. constructor. rewrite as_dbls_ok by (unfold zn; lia). constructor.
  - eapply ev_ext; [| reflexivity | reflexivity | apply ev_ret].
    intros r Hr. destruct r; reflexivity.
Qed.

Lemma ev_root_out : forall {Y} (e : event A) (k : nat -> proc Y) y es,
  ev k y es ->
  ev (fun r => _ <- (if is_root r then Out e (Ret tt) else Ret tt);; k r) y
     (fun r => at0 [e] [] r ++ es r).
Proof.
  intros Y e k y es H.
  eapply ev_ext; [| reflexivity | reflexivity | apply (ev_pouts n (at0 [e] []) k y es H)].
  intros r Hr. destruct r; reflexivity.
Qed.

Lemma ev_stack : forall D G len G' lg, wf G -> seq_stack C U n D G len = OK (G', lg) ->
  ev (fun r => mpi_static_sigma_stack C U n D r (st_of G r) len) (st_of G') (fun r => proj r lg).
Proof.
  intros D G len G' lg W H. unfold seq_stack in H.
  pose proof (wf_locs _ _ _ W) as Llo.
  unfold getloc in H. change (zr root) with (zr 0) in H.
  rewrite (zget_nat _ 0 dloc) in H by lia. cbn [rbind] in H.
  apply rbind_ok in H. destruct H as [[[[G1 nsw] npr] lg1] [E1 H]].
  pose proof (seq_stack_loop_wf C U n UO Hn _ _ _ _ _ _ _ _ _ _ _ _ _ W E1) as W1.
  pose proof (wf_locs _ _ _ W1) as Llo1.
  rewrite (zget_nat _ 0 dloc) in H by lia. cbn [rbind] in H.
  apply rbind_ok in H. destruct H as [G2 [E2 H]]. injection H as <- <-.
  set (e := EvBeta (l_beta (nth 0 (g_locs G) dloc))).
  set (cnt := if 0 <? Tune_Ladder C then repeat (nof 0) n else []) in *.
  eapply ev_ext; [| reflexivity | |
     apply (ev_root_out e (fun r => '(s1, nsw, npr) <- stack_loop C U n D r len (Z.to_nat len) (st_of G r) 0 0 0
                                          (at0 cnt [] r) (at0 cnt [] r);;
              if (u2i (l_it (lo s1)) <? N_stopTuneLadder C) && (0 <? Tune_Ladder C)
              then mpi_adjust_ladder C n r s1 nsw npr else Ret s1) (st_of G2) (fun r => proj r lg1))].
  - intros r Hr. unfold mpi_static_sigma_stack. destruct r as [|r]; unfold at0, cnt;
      cbn [is_root root Nat.eqb]; rewrite ?andb_true_r, ?andb_false_r; reflexivity.
  - intros r Hr. cbv beta. change ((root, e) :: lg1) with ([(root, e)] ++ lg1).
    rewrite proj_app. f_equal. destruct r; reflexivity.
  - eapply ev_ext; [| reflexivity | |
      eapply (ev_bind n _ _ (fun r => (st_of G1 r, at0 nsw [] r, at0 npr [] r)) _ (fun r => proj r lg1) (fun _ => []))].
    + intros r Hr. cbv beta. reflexivity.
    + intros r Hr. cbv beta. apply app_nil_r.
    + eapply ev_ext; [| reflexivity | reflexivity | apply (ev_stack_loop D len (Z.to_nat len) G 0 0 0 cnt cnt 0); eauto].
      intros r Hr. unfold at0 at 1. destruct (is_root r); reflexivity.
    + cbv beta iota.
      eapply ev_ext with (f := fun r => if (u2i (l_it (nth 0 (g_locs G1) dloc)) <? N_stopTuneLadder C) && (0 <? Tune_Ladder C)
              then mpi_adjust_ladder C n r (st_of G1 r) (at0 nsw [] r) (at0 npr [] r) else Ret (st_of G1 r));
        [| reflexivity | reflexivity |].
      * intros r Hr. rewrite st_lo.
        rewrite (wf_it _ _ _ W1 (nth r (g_locs G1) dloc) (nth 0 (g_locs G1) dloc)) by (apply nth_In; lia).
        reflexivity.
      * destruct ((u2i (l_it (nth 0 (g_locs G1) dloc)) <? N_stopTuneLadder C) && (0 <? Tune_Ladder C)).
        -- apply ev_ladder; auto.
        -- injection E2 as <-. apply ev_ret.
Qed.

(** *** mpi_find_ranks2tune *)
Lemma ev_find : forall (rate : nat -> num A),
  ev (fun r => mpi_find_ranks2tune C n r (rate r))
     (fun _ => map (fun r => tune_flag C (rate r)) (ranks n)) (fun _ => []).
Proof.
  intros rate. unfold mpi_find_ranks2tune.
  eapply (ev_bind0 n _ _ (at0 (map (fun r => tune_flag C (rate r)) (ranks n)) [])).
  - eapply ev_ext; [| | |
      apply (ev_collect 200 as_int (fun z => MI [z]) (fun r => tune_flag C (rate r)) Ret (fun _ => Ret []))].
    + intros r Hr. destruct r as [|r]; cbn [is_root root Nat.eqb]; auto.
      f_equal. apply functional_extensionality; intros t0. f_equal.
      apply functional_extensionality; intros t. rewrite pbind_ret. auto.
    + reflexivity.
    + reflexivity.
    + reflexivity.
    + eapply ev_ext; [| reflexivity | reflexivity | apply ev_ret].
      intros r Hr. unfold at0. destruct (is_root r); auto.
  - apply (ev_bcast n (fun r => MI (at0 (map (fun r => tune_flag C (rate r)) (ranks n)) [] r))); [lia|].
    unfold at0. cbn [is_root root Nat.eqb].
    rewrite as_ints_ok by (rewrite map_length; unfold ranks, zn; rewrite seq_length; auto).
    cbn [plift]. apply ev_ret.
Qed.

(** *** tuning of one parameter of one rank *)
Lemma st_of_distribute : forall G t r, wf G -> length t = n -> (r < n)%nat ->
  st_of (seq_distribute G t) r = set_sig (st_of G r) (nth r t []).
Proof.
  intros G t r W Ht Hr. unfold st_of, seq_distribute, set_sig. cbn [g_locs g_ro lo ro].
  rewrite (map2_nth _ _ _ _ dloc []) by (rewrite ?(wf_locs _ _ _ W); lia). reflexivity.
Qed.

Lemma ev_tune_iparmNrank : forall D G x lp rk rs, wf G ->
  tab n (tune_of C U D G x lp rk) = OK rs ->
  ev (fun r => mpi_tune_iparmNrank C U n D r (st_of G r) x lp rk)
     (fun r => (st_of (mkG (map2 loc_g (g_locs G) (map snd rs)) (g_ro G)) r, at0 (map fst rs) [] r))
     (fun _ => []).
Proof.
  intros D G x lp rk rs W H. apply (tab_ok n _ _ (nof 0, 0)) in H. destruct H as [HL H].
  pose proof (wf_locs _ _ _ W) as Llo.
  set (ar := fun r => fst (nth r rs (nof 0, 0))). set (gg := fun r => snd (nth r rs (nof 0, 0))).
  assert (HS : forall r, (r < n)%nat ->
    st_of (mkG (map2 loc_g (g_locs G) (map snd rs)) (g_ro G)) r = set_g (st_of G r) (gg r)).
  { intros r Hr. unfold st_of, set_g. cbn [g_locs g_ro lo ro].
    rewrite (map2_nth _ _ _ _ dloc 0) by (rewrite ?map_length; lia).
    rewrite (map_nth2 snd _ _ (nof 0, 0)) by lia. reflexivity. }
  eapply ev_ext; [| | |
    apply (ev_collect 200 as_dbl (fun v => MD [v]) ar
      (fun l => Ret (set_g (st_of G 0) (gg 0%nat), l)) (fun r => Ret (set_g (st_of G r) (gg r), [])))].
  - intros r Hr. unfold mpi_tune_iparmNrank. specialize (H r Hr). unfold tune_of, getloc in H.
    rewrite (zget_nat _ r dloc) in H by lia. cbn [rbind] in H.
    apply rbind_ok in H. destruct H as [beta [Eb H]]. rewrite st_lo, Eb. cbn [plift pbind].
    rewrite H. unfold ar, gg. destruct (nth r rs (nof 0, 0)) as [a g] eqn:Er. cbn [plift pbind fst snd].
    destruct r as [|r]; cbn [is_root root Nat.eqb].
    + rewrite Er. reflexivity.
    + reflexivity.
  - reflexivity.
  - reflexivity.
  - reflexivity.
  - eapply ev_ext; [| reflexivity | reflexivity | apply ev_ret].
    intros r Hr. cbv beta. rewrite HS by auto.
    destruct r as [|r]; cbn [is_root root Nat.eqb at0]; auto.
    do 2 f_equal. unfold ranks, ar. rewrite <- (map_map (fun i => nth i rs (nof 0, 0)) fst).
    rewrite <- HL, <- list_as_map. auto.
Qed.

Definition blank (ars : list row) : list row := map (fun _ => []) ars.

Lemma ev_tune_parm : forall D rk al x lp jp G ars G' ars', wf G ->
  seq_tune_parm C U n D rk al x lp jp (G, ars) = OK (G', ars') ->
  ev (fun r => tune_parm C U n D r rk (at0 al [] r) x lp jp (st_of G r, at0 ars (blank ars) r))
     (fun r => (st_of G' r, at0 ars' (blank ars') r)) (fun _ => []).
Proof.
  intros D rk al x lp jp G ars G' ars' W H. unfold seq_tune_parm in H.
  apply rbind_ok in H. destruct H as [mat [Em H]].
  apply rbind_ok in H. destruct H as [rs [Er H]]. injection H as <- <-.
  destruct (tune_matrix_shape C n Hn n _ _ _ _ _ (wf_sigrow _ _ _ W) Em) as [M1 M2].
  pose proof (seq_distribute_wf C n Hn G mat W M1 M2) as W1.
  unfold tune_parm.
  eapply (ev_bind0 n _ _ (at0 mat [])).
  - eapply ev_ext; [| reflexivity | reflexivity | apply ev_ret].
    intros r Hr. destruct r as [|r]; cbn [is_root root Nat.eqb at0]; auto.
    cbn [st_of ro at0 is_root root Nat.eqb]. rewrite Em. reflexivity.
  - eapply (ev_bind0 n _ _ (fun r => nth r mat [])); [apply ev_distribute; auto|].
    apply ev_barrier; [lia|].
    eapply (ev_bind0 n _ _ (fun r => (st_of (mkG (map2 loc_g (g_locs (seq_distribute G mat)) (map snd rs))
                                              (g_ro (seq_distribute G mat))) r, at0 (map fst rs) [] r))).
    + eapply ev_ext; [| reflexivity | reflexivity | apply (ev_tune_iparmNrank D (seq_distribute G mat) x lp rk rs); auto].
      intros r Hr. cbv beta; rewrite st_of_distribute; auto.
    + cbv beta iota. apply ev_barrier; [lia|].
      eapply ev_ext; [| reflexivity | reflexivity | apply ev_ret].
      intros r Hr. unfold at0, blank. destruct (is_root r); auto. rewrite map_app. reflexivity.
Qed.

Lemma ev_tune_parms : forall D rk al x lp l G ars G' ars', wf G ->
  foldM l (seq_tune_parm C U n D rk al x lp) (G, ars) = OK (G', ars') ->
  ev (fun r => pfor l (tune_parm C U n D r rk (at0 al [] r) x lp) (st_of G r, at0 ars (blank ars) r))
     (fun r => (st_of G' r, at0 ars' (blank ars') r)) (fun _ => []).
Proof.
  induction l as [|jp l IH]; intros G ars G' ars' W H; cbn [foldM pfor] in *.
  - injection H as <- <-. apply ev_ret.
  - apply rbind_ok in H. destruct H as [[G1 ars1] [E1 H]].
    eapply (ev_bind0 n _ _ (fun r => (st_of G1 r, at0 ars1 (blank ars1) r))).
    + eapply ev_tune_parm; eauto.
    + apply IH; auto. eapply seq_tune_parm_wf; eauto.
Qed.

Lemma ev_tune_irank : forall D G rk G', wf G -> seq_tune_irank C U n D G rk = OK G' ->
  ev (fun r => mpi_tune_irank C U n D r (st_of G r) rk) (st_of G') (fun _ => []).
Proof.
  intros D G rk G' W H. unfold seq_tune_irank in H.
  apply rbind_ok in H. destruct H as [al [Eal H]].
  apply rbind_ok in H. destruct H as [lp [Elp H]].
  apply rbind_ok in H. destruct H as [x [Ex H]].
  apply rbind_ok in H. destruct H as [[G1 ars] [E1 H]].
  destruct (seq_tune_parms_wf C U n Hn _ _ _ _ _ _ _ _ _ _ W E1) as [W1 _].
  pose proof (wf_locs _ _ _ W1) as Llo1.
  unfold getloc in H. change (zr root) with (zr 0) in H.
  rewrite (zget_nat _ 0 dloc) in H by lia. cbn [rbind] in H.
  apply rbind_ok in H. destruct H as [[[ip ir] g] [Ed H]].
  apply rbind_ok in H. destruct H as [t [Et H]].
  apply rbind_ok in H. destruct H as [G2 [EG2 H]].
  rewrite (with_g0_ok C n Hn) in EG2 by auto. injection EG2 as <-. injection H as <-.
  cbn [g_locs g_ro].
  assert (Hx : hl x). { apply (wf_trrow _ _ _ W). eapply zget_in; eauto. }
  unfold mpi_tune_irank.
  eapply (ev_bind0 n _ _ (fun r => (at0 al [] r, at0 x [] r, at0 lp (nof 0) r))).
  - eapply ev_ext; [| reflexivity | reflexivity | apply ev_ret].
    intros r Hr. destruct r as [|r]; cbn [is_root root Nat.eqb at0]; auto.
    cbn [st_of ro at0 is_root root Nat.eqb]. rewrite Eal. cbn [plift pbind]. rewrite Elp. cbn [plift pbind].
    rewrite Ex. reflexivity.
  - cbv beta iota.
    apply (ev_bcast n (fun r => MD (at0 x [] r))); [lia|].
    unfold at0 at 1. cbn [is_root root Nat.eqb]. rewrite as_dbls_ok by auto. cbn [plift pbind].
    apply (ev_bcast n (fun r => MD [at0 lp (nof 0) r])); [lia|].
    unfold at0 at 1. cbn [is_root root Nat.eqb as_dbl plift pbind].
    apply ev_barrier; [lia|].
    eapply (ev_bind0 n _ _ (fun r => (st_of G1 r, at0 ars (blank ars) r))).
    + eapply ev_ext; [| reflexivity | reflexivity | apply (ev_tune_parms D rk al x lp (zseq (N_parm C)) G []); eauto].
      intros r Hr. destruct r; reflexivity.
    + cbv beta iota.
      match goal with |- Spmd.ev _ _ (st_of ?GG) _ => eapply (ev_bind0 n _ _ (st_of GG)) end.
      * eapply ev_ext; [| reflexivity | reflexivity | apply ev_ret].
        intros r Hr. destruct r as [|r]; cbn [is_root root Nat.eqb at0].
        -- cbn [st_of lo ro at0 is_root root Nat.eqb]. rewrite Ed. cbn [plift pbind].
           rewrite Et. cbn [plift pbind]. unfold st_of. cbn [g_locs g_ro at0 is_root root Nat.eqb].
           rewrite nth_lset_eq by lia. reflexivity.
        -- unfold st_of. cbn [g_locs g_ro at0 is_root root Nat.eqb].
           rewrite nth_lset_ne by lia. reflexivity.
      * apply ev_barrier; [lia|]. apply ev_ret.
Qed.

Lemma ev_tune_all : forall D flags G G', wf G -> seq_tune_all C U n D flags G = OK G' ->
  ev (fun r => tune_all C U n D r flags (st_of G r)) (st_of G') (fun _ => []).
Proof.
  intros D flags G G' W H. unfold seq_tune_all, tune_all in *. revert G W H.
  induction (zseq (zn n)) as [|k l IH]; intros G W H; cbn [foldM pfor] in *.
  - injection H as <-. apply ev_ret.
  - apply rbind_ok in H. destruct H as [G1 [E1 H]].
    apply rbind_ok in E1. destruct E1 as [f [Ef E1]].
    assert (W1 : wf G1). { destruct (f =? 1); [eapply seq_tune_irank_wf; eauto|injection E1 as <-; auto]. }
    eapply (ev_bind0 n _ _ (st_of G1)).
    + rewrite Ef. cbn [plift pbind].
      eapply (ev_bind0 n _ _ (st_of G1)).
      * destruct (f =? 1); [apply ev_tune_irank; auto|]. injection E1 as <-. apply ev_ret.
      * apply ev_barrier; [lia|]. apply ev_ret.
    + apply IH; auto.
Qed.

(** *** mpi_entire_flow *)
Lemma ev_flow : forall D fuel G len it ix G' lg, wf G ->
  seq_flow_loop C U n D fuel G len it ix = OK (G', lg) ->
  ev (fun r => flow_loop C U n D r fuel (st_of G r) len it ix) (st_of G') (fun r => proj r lg).
Proof.
  induction fuel as [|fuel IH]; intros G len it ix G' lg W H;
    cbn [seq_flow_loop flow_loop] in *; destruct (ix <? N_iter C).
  - discriminate.
  - injection H as <- <-. apply ev_ret.
  - apply rbind_ok in H. destruct H as [nx0 [Enx H]]. rewrite Enx. cbn [plift pbind].
    set (len' := if N_iter C <? nx0 then N_iter C - it else len) in *.
    set (nx := if N_iter C <? nx0 then N_iter C else nx0) in *.
    set (G1 := seq_distribute G (sigt (g_ro G))) in *.
    assert (W1 : wf G1).
    { apply seq_distribute_wf; auto; [apply (wf_sigt _ _ _ W)|apply (wf_sigrow _ _ _ W)]. }
    apply rbind_ok in H. destruct H as [[G2 lg1] [E2 H]].
    apply rbind_ok in H. destruct H as [G3 [E3 H]].
    apply rbind_ok in H. destruct H as [[G4 lg2] [E4 H]]. injection H as <- <-.
    pose proof (seq_stack_wf C U n UO Hn _ _ _ _ _ W1 E2) as W2.
    assert (W3 : wf G3).
    { destruct ((N_begintune C <? nx) && (nx <? N_stoptune C) && (nx <? N_iter C));
        [eapply seq_tune_all_wf; eauto|injection E3 as <-; auto]. }
    pose proof (wf_sigt _ _ _ W) as Lsg. pose proof (wf_locs _ _ _ W1) as Ll1.
    pose proof (wf_locs _ _ _ W2) as Ll2.
    eapply (ev_bind0 n _ _ (fun r => nth r (sigt (g_ro G)) [])).
    + eapply ev_ext; [| reflexivity | reflexivity | apply (ev_distribute (sigt (g_ro G)))]; auto.
      * intros r Hr. destruct r; reflexivity.
      * apply (wf_sigrow _ _ _ W).
    + eapply ev_ext with
        (f := fun r => Barrier
         (Out (EvSigma r (l_sig (lo (st_of G1 r))))
         (s2 <- mpi_static_sigma_stack C U n D r (st_of G1 r) len';;
          Barrier
           (s3 <- (if (N_begintune C <? nx) && (nx <? N_stoptune C) && (nx <? N_iter C) then
                     flags <- mpi_find_ranks2tune C n r (ndiv (nof (u32 (l_acc (lo s2) - l_acc (lo (st_of G1 r))))) (nof len'));;
                     Barrier (tune_all C U n D r flags s2)
                   else Ret s2);;
            flow_loop C U n D r fuel s3 len' nx nx))))
        (x := st_of G4)
        (es := fun r => [EvSigma r (l_sig (nth r (g_locs G1) dloc))] ++ proj r lg1 ++ proj r lg2);
        [| reflexivity | |].
      * intros r Hr. cbv beta. unfold G1. rewrite st_of_distribute; auto.
      * intros r Hr. cbv beta. rewrite !proj_app. f_equal.
        rewrite (map2_seq _ _ _ 0%nat dloc n) by (unfold ranks; rewrite ?seq_length; auto).
        rewrite <- (proj_map_ranks (fun r => EvSigma r (l_sig (nth r (g_locs G1) dloc))) n r Hr).
        f_equal. unfold ranks. apply map_ext_in. intros q Hq. apply in_seq in Hq.
        rewrite nth_seq0 by lia. reflexivity.
      * apply ev_barrier; [lia|].
        apply (ev_pouts n (fun r => [EvSigma r (l_sig (lo (st_of G1 r)))])).
        eapply (ev_bind n _ _ (st_of G2)); [apply ev_stack; auto|].
        apply ev_barrier; [lia|].
        eapply (ev_bind0 n _ _ (st_of G3)).
        -- destruct ((N_begintune C <? nx) && (nx <? N_stoptune C) && (nx <? N_iter C)).
           ++ eapply (ev_bind0 n _ _ (fun _ => map (fun r => tune_flag C (ndiv (nof (u32 (l_acc (lo (st_of G2 r)) - l_acc (lo (st_of G1 r))))) (nof len'))) (ranks n)));
                [apply ev_find|].
              apply ev_barrier; [lia|]. apply ev_tune_all; auto.
              rewrite <- E3. f_equal. rewrite (map2_seq _ _ _ dloc dloc n) by auto. reflexivity.
           ++ injection E3 as <-. apply ev_ret.
        -- apply IH; auto.
  - injection H as <- <-. apply ev_ret.
Qed.

(** *** main *)
Lemma seeds_send : forall k a s (body := fun i sd => Send i 100 (MI [N_parm C])
         (let sd' := u32 (sd + 1) in Send i 101 (MU sd') (Ret sd')) : proc Z),
  0 <= s < UINT_MOD ->
  pfor (seq (S a) k) body (u32 (s + Z.of_nat a)) =
  send_list (concat (map (fun i => tagged i [(100%nat, MI [N_parm C]); (101%nat, MU (u32 (s + zr i)))]) (seq (S a) k)))
    (Ret (u32 (s + Z.of_nat (a + k)))).
Proof.
  intros k. induction k as [|k IH]; intros a s body Hs; cbn [seq pfor map concat].
  - rewrite Nat.add_0_r. reflexivity.
  - unfold body at 1. cbn [pbind]. cbv zeta.
    assert (Hu : u32 (u32 (s + Z.of_nat a) + 1) = u32 (s + Z.of_nat (S a))).
    { unfold u32. rewrite Zplus_mod_idemp_l. f_equal. lia. }
    rewrite !Hu. cbn [tagged map app send_list].
    unfold body. rewrite IH by auto. replace (S a + k)%nat with (a + S k)%nat by lia. reflexivity.
Qed.

Lemma first_seed_range : 0 <= init_rand_seed C < UINT_MOD -> 0 <= first_seed C E < UINT_MOD.
Proof.
  intros H. unfold first_seed. destruct (init_rand_seed C <=? 0); auto.
  unfold u32. apply Z.mod_pos_bound. reflexivity.
Qed.

Definition tr0 : list row := map (fun r => fst (u_init U (seed_of C n E r))) (ranks n).

Lemma ev_gen_init : 0 <= init_rand_seed C < UINT_MOD ->
  ev (fun r => mpi_gen_init_parm C U n r (first_seed C E))
     (fun r => (at0 tr0 [] r, snd (u_init U (seed_of C n E r))))
     (fun r => [EvSeed r (u2i (seed_of C n E r))] ++ at0 [EvInit tr0] [] r).
Proof.
  intros Hseed. pose proof (first_seed_range Hseed) as Hfs.
  set (s0 := first_seed C E) in *.
  set (x := fun r => fst (u_init U (seed_of C n E r))).
  set (g := fun r => snd (u_init U (seed_of C n E r))).
  apply (ev_scatter n (fun i => [(100%nat, MI [N_parm C]); (101%nat, MU (u32 (s0 + zr i)))]) (slaves n) _
    (fun r => if is_root r then
        Out (EvSeed 0%nat (u2i (seed_of C n E 0)))
         (t0 <- plift (zset (fresh (zn n)) (zr root) (Some (x 0%nat)));;
          t <- pfor (slaves n) (fun i t => Recv i 200 (fun m => x <- plift (as_dbls (N_parm C) m);;
                 plift (zset t (zr i) (Some x)))) t0;;
          tr <- plift (all_cells t);; Out (EvInit tr) (Ret (tr, g 0%nat)))
      else Out (EvSeed r (u2i (seed_of C n E r))) (Send root 200 (MD (x r)) (Ret ([], g r))))).
  - apply slaves_nodup.
  - apply slaves_in.
  - unfold mpi_gen_init_parm. cbn [is_root root Nat.eqb].
    rewrite slaves_seq by lia.
    pose proof (seeds_send (n - 1) 0 s0 Hfs) as P. cbv zeta in P.
    replace (u32 (s0 + Z.of_nat 0)) with s0 in P by (rewrite u32_small; lia).
    cbv zeta. rewrite P. rewrite pbind_send_list. f_equal. cbn [pbind].
    assert (Hs : u32 (u32 (s0 + Z.of_nat (0 + (n - 1))) + 1) = seed_of C n E 0).
    { unfold seed_of. cbn [is_root root Nat.eqb]. fold s0. unfold u32. rewrite Zplus_mod_idemp_l.
      f_equal. unfold zn. lia. }
    rewrite Hs. rewrite <- slaves_seq by lia. unfold x, g.
    destruct (u_init U (seed_of C n E 0)) as [x0 gg]. reflexivity.
  - intros r Hr. unfold mpi_gen_init_parm. rewrite (root_slave r Hr).
    constructor. cbn [as_int plift pbind]. constructor. cbn [as_uns plift pbind].
    replace (u32 (s0 + zr r)) with (seed_of C n E r)
      by (unfold seed_of; rewrite (root_slave r Hr); reflexivity).
    unfold x, g. destruct (u_init U (seed_of C n E r)). constructor.
  - eapply ev_ext; [| reflexivity | |
      apply (ev_pouts n (fun r => [EvSeed r (u2i (seed_of C n E r))])
        (fun r => if is_root r then 
          t0 <- plift (zset (fresh (zn n)) (zr root) (Some (x 0%nat)));;
          t <- pfor (slaves n) (fun i t => Recv i 200 (fun m => x <- plift (as_dbls (N_parm C) m);;
                 plift (zset t (zr i) (Some x)))) t0;;
          tr <- plift (all_cells t);; Out (EvInit tr) (Ret (tr, g 0%nat))
        else Send root 200 (MD (x r)) (Ret ([], g r))))].
    + intros r Hr. destruct r; reflexivity.
    + reflexivity.
    + apply (ev_collect 200 (as_dbls (N_parm C)) (fun x => MD x) x (fun tr => Out (EvInit tr) (Ret (tr, g 0%nat))) (fun r => Ret ([], g r))).
      * intros i Hi. apply as_dbls_ok. apply UO.
      * eapply ev_ext; [| reflexivity | | apply (ev_pouts n (at0 [EvInit tr0] []) (fun r => Ret (at0 tr0 [] r, g r)))].
        -- intros r Hr. destruct r; reflexivity.
        -- intros r Hr. cbv beta. apply app_nil_r.
        -- apply ev_ret.
Qed.

Lemma ev_init_logpost : forall D tr lp, length tr = n -> (forall x, In x tr -> hl x) ->
  tab n (fun r => let* x := zget tr (zr r) in let* beta := zget (Beta_Values C) (zr r) in
                  OK (logpost_at U D x beta)) = OK lp ->
  ev (fun r => mpi_init_calc_logllpp C U n r D (at0 tr [] r)) (at0 lp [])
     (fun r => [EvRow r (mkRow (nth r tr []) (nth r lp (nof 0)) 0 0)]).
Proof.
  intros D tr lp Ltr Htr H. apply (tab_ok n _ _ (nof 0)) in H. destruct H as [HL H].
  set (v := fun r => nth r lp (nof 0)).
  assert (Hb : forall r, (r < n)%nat -> exists beta, zget (Beta_Values C) (zr r) = OK beta /\
             logpost_at U D (nth r tr []) beta = v r).
  { intros r Hr. specialize (H r Hr). rewrite (zget_nat tr r []) in H by lia. cbn [rbind] in H.
    apply rbind_ok in H. destruct H as [beta [Eb H]]. exists beta. split; auto. injection H as H. auto. }
  set (row0 := fun r => EvRow r (mkRow (nth r tr []) (v r) 0 0)).
  set (rest := fun t0 => l <- pfor (slaves n) (fun i l =>
           Recv i 200 (fun m => v <- plift (as_dbl m);; plift (zset l (zr i) (Some v)))) t0;;
       plift (all_cells l) : proc row).
  eapply ev_ext; [| reflexivity | |
    apply (ev_send_each (fun i => [(100%nat, MD (nth i tr []))])
      (fun i _ => x <- plift (zget tr (zr i));; Send i 100 (MD x) (Ret tt))
      (t0 <- plift (zset (fresh (zn n)) (zr root) (Some (v 0%nat)));; Out (row0 0%nat) (rest t0))
      (fun r => Recv root 100 (fun m =>
         x <- plift (as_dbls (N_parm C) m);;
         beta <- plift (zget (Beta_Values C) (zr r));;
         let lp := logpost_at U D x beta in
         Out (EvRow r (mkRow x lp 0 0)) (Send root 200 (MD [lp]) (Ret []))))
      (fun r => Out (row0 r) (Send root 200 (MD [v r]) (Ret [])))
      (at0 lp []) (fun r => [row0 r] ++ []))].
  - intros r Hr. unfold mpi_init_calc_logllpp. destruct r as [|r]; cbn [is_root root Nat.eqb at0]; auto.
    f_equal. apply functional_extensionality; intros _. change (zr root) with (zr 0).
    rewrite (zget_nat tr 0 []) by lia. cbn [plift pbind].
    destruct (Hb 0%nat Hr) as [beta [-> Hv]]. cbn [plift pbind]. cbv zeta. unfold logpost_at in Hv. rewrite Hv. reflexivity.
  - reflexivity.
  - intros i Hi. rewrite (zget_nat tr i []) by lia. reflexivity.
  - intros r Hr. constructor. rewrite as_dbls_ok by (apply Htr, nth_In; lia). cbn [plift pbind].
    destruct (Hb r ltac:(lia)) as [beta [-> Hv]]. cbn [plift pbind]. cbv zeta. rewrite Hv. constructor.
  - eapply ev_ext; [| reflexivity | reflexivity |
      apply (ev_pouts n (fun r => [row0 r]) (fun r => if is_root r then
          t0 <- plift (zset (fresh (zn n)) (zr root) (Some (v 0%nat)));;
          l <- pfor (slaves n) (fun i l =>
            Recv i 200 (fun m => v <- plift (as_dbl m);; plift (zset l (zr i) (Some v)))) t0;;
          l' <- plift (all_cells l);; Ret l'
        else Send root 200 (MD [v r]) (Ret [])))].
    + intros r Hr. destruct r as [|r]; cbn [is_root root Nat.eqb pouts]; auto.
      change (zr root) with (zr 0). rewrite zset_nat by (unfold fresh, zn; rewrite repeat_length; lia).
      cbn [plift pbind]. f_equal. unfold rest. f_equal. apply functional_extensionality; intros t.
      rewrite pbind_ret. reflexivity.
    + apply (ev_collect 200 as_dbl (fun v => MD [v]) v Ret (fun _ => Ret [])).
      * reflexivity.
      * eapply ev_ext; [| reflexivity | reflexivity | apply ev_ret].
        intros r Hr. destruct r as [|r]; cbn [is_root root Nat.eqb at0]; auto.
        f_equal. unfold v, ranks. rewrite <- HL. apply list_as_map.
Qed.

Definition DataOK (ndim : Z) : Prop :=
  forall nl arr, e_data E nl = OK arr -> Z.of_nat (length arr) = nl * ndim.

Lemma ev_main : forall ndim G lg, 0 <= init_rand_seed C < UINT_MOD -> DataOK ndim ->
  seq_main C U n E ndim = OK (G, lg) ->
  ev (fun r => main C U n E ndim r) (st_of G) (fun r => proj r lg).
Proof.
  intros ndim G lg Hseed HD H. unfold seq_main in H.
  apply rbind_ok in H. destruct H as [nl [Enl H]].
  apply rbind_ok in H. destruct H as [sz [Esz H]].
  apply rbind_ok in H. destruct H as [arr [Earr H]].
  apply rbind_ok in H. destruct H as [[G0 lg1] [E0 H]].
  apply rbind_ok in H. destruct H as [[G1 lg2] [E1 H]]. injection H as <- <-.
  set (D := mkData nl arr) in *.
  pose proof (seq_init_wf C U n UO Hn _ _ _ _ E0) as W0.
  unfold seq_init in E0.
  apply rbind_ok in E0. destruct E0 as [lp [Elp E0]].
  apply rbind_ok in E0. destruct E0 as [betas [Ebe E0]]. injection E0 as HG0 Hlg1.
  rewrite map_map in Elp, Hlg1. rewrite !map_map in HG0. fold tr0 in Elp, HG0, Hlg1.
  assert (Ltr : length tr0 = n) by (unfold tr0, ranks; rewrite map_length, seq_length; auto).
  assert (Htr : forall x, In x tr0 -> hl x).
  { intros x Hx. unfold tr0 in Hx. apply in_map_iff in Hx. destruct Hx as [r [<- _]]. apply UO. }
  pose proof (tab_ok n _ _ (nof 0) Elp) as [Llp _].
  unfold main.
  eapply ev_ext; [reflexivity | reflexivity | |
    apply (ev_root_out EvDir _ _ (fun r => ([EvSeed r (u2i (seed_of C n E r))] ++ at0 [EvInit tr0] [] r)
       ++ [EvRow r (mkRow (nth r tr0 []) (nth r lp (nof 0)) 0 0)] ++ [EvSigma r (u_gp U)] ++ proj r lg2))].
  - intros r Hr. cbv beta. change ((root, EvDir) :: lg1 ++ lg2) with ([(root, EvDir)] ++ lg1 ++ lg2).
    rewrite !proj_app. f_equal; [destruct r; reflexivity|].
    rewrite <- Hlg1. rewrite proj_app, proj_cons, proj_app.
    rewrite (proj_map_ranks (fun r => EvSeed r (u2i (seed_of C n E r))) n r Hr).
    rewrite (proj_map_ranks (fun r => EvSigma r (u_gp U)) n r Hr).
    rewrite <- !app_assoc. f_equal. f_equal; [destruct r; reflexivity|]. f_equal.
    rewrite (map2_seq _ _ _ 0%nat ([], nof 0) n)
      by (unfold ranks; rewrite ?seq_length, ?combine_length; auto; lia).
    rewrite <- (proj_map_ranks (fun r => EvRow r (mkRow (nth r tr0 []) (nth r lp (nof 0)) 0 0)) n r Hr).
    f_equal. unfold ranks. apply map_ext_in. intros q Hq. apply in_seq in Hq.
    rewrite nth_seq0 by lia. rewrite combine_nth by lia. reflexivity.
  - eapply (ev_bind0 n _ _ (fun _ => nl)).
    + unfold mpi_get_nlines. eapply (ev_bind0 n _ _ (at0 nl 0)).
      * eapply ev_ext; [| reflexivity | reflexivity | apply ev_ret].
        intros r Hr. unfold at0. destruct (is_root r); auto. rewrite Enl. reflexivity.
      * apply (ev_bcast n (fun r => MI [at0 nl 0 r])); [lia|]. apply ev_ret.
    + rewrite Esz. cbn [plift pbind].
      eapply (ev_bind0 n _ _ (fun _ => arr)).
      * unfold mpi_data_loader. eapply (ev_bind0 n _ _ (at0 arr [])).
        -- eapply ev_ext; [| reflexivity | reflexivity | apply ev_ret].
           intros r Hr. unfold at0. destruct (is_root r); auto. rewrite Earr. reflexivity.
        -- apply (ev_bcast n (fun r => MD (at0 arr [] r))); [lia|].
           unfold at0. cbn [is_root root Nat.eqb]. rewrite as_dbls_ok by (apply (HD _ _ Earr)).
           cbn [plift]. apply ev_ret.
      * fold D. eapply (ev_bind n _ _ _ _ _ _ (ev_gen_init Hseed)).
        cbv beta iota.
        eapply (ev_bind n _ _ _ _ _ _ (ev_init_logpost D tr0 lp Ltr Htr Elp)).
        apply ev_barrier; [lia|]. cbv zeta.
        apply (ev_pouts n (fun r => [EvSigma r (u_gp U)])).
        eapply (ev_bind0 n _ _ _ _ _ (ev_gather_sigma (fun _ => u_gp U) (fun _ => uo_gp _ _ UO))).
        rewrite Ebe. cbn [plift pbind].
        eapply ev_ext with (f := fun r => s' <- flow_loop C U n D r (Z.to_nat (N_iter C)) (st_of G0 r) (n_iter_a_stack C) 0 0;;
                                          Barrier (Ret s')) (x := st_of G1) (es := fun r => proj r lg2 ++ []);
          [| reflexivity | |].
        -- intros r Hr. unfold mpi_entire_flow. do 2 f_equal. rewrite <- HG0.
           unfold st_of. cbn [g_locs g_ro]. f_equal.
           ++ unfold ranks.
              rewrite (map_nth2 _ _ _ 0%nat) by (rewrite seq_length; auto).
              rewrite nth_seq0 by auto. reflexivity.
           ++ destruct r; reflexivity.
        -- intros r Hr. cbv beta. apply app_nil_r.
        -- eapply (ev_bind n _ _ (st_of G1)).
           ++ apply ev_flow; auto.
           ++ apply ev_barrier; [lia|]. apply ev_ret.
Qed.

End Refine.
