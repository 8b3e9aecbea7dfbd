(** A run started with a single rank. *)
From Coq Require Import ZArith Arith List Bool Reals Lia Lra.
From Flocq Require Import Core IEEE754.BinarySingleNaN.
From Verif Require Import Base Arith B64 Rand Mh Ladder Tune Mpi MpiMeta Spmd Prog Seq ListAux MhSpec SeqWf Refine
  SeqTotal System B64Facts RandRange Runs Views RunHist Failing FailRuns.
Import ListNotations.
Open Scope Z_scope.

Section Solo.
Context {msg event : Type}.
Notation proc := (proc msg event).

(** what one rank does alone *)
Inductive solo {X} : proc X -> proc X -> Prop :=
| solo_refl : forall p, solo p p
| solo_out : forall e k q, solo k q -> solo (Out e k) q
| solo_bar : forall k q, solo k q -> solo (Barrier k) q
| solo_bcast : forall m k q, solo (k m) q -> solo (Bcast 0 m k) q
| solo_send : forall d t m k, (1 <= d)%nat -> solo (Send d t m k) (Fail NoSuchRank).

Lemma solo_bind : forall {X Y} (p : proc X) x (f : X -> proc Y) q, solo p (Ret x) -> solo (f x) q -> solo (pbind p f) q.
Proof.
  intros X Y p x f q H. remember (Ret x) as r eqn:Er. revert Er. induction H; intros Er Hq; cbn [pbind]; try (constructor; auto; fail); try discriminate.
  subst. auto.
Qed.
Lemma solo_head : forall {X Y} (p : proc X) e (f : X -> proc Y), solo p (Fail e) -> solo (pbind p f) (Fail e).
Proof.
  intros X Y p e f H. remember (Fail e) as r eqn:E. revert E. induction H; intros E; cbn [pbind]; try (constructor; auto; fail).
  - subst. constructor.
  - injection E as <-. constructor. auto.
Qed.
Lemma solo_pouts : forall {X} es (k : proc X) q, solo k q -> solo (pouts es k) q.
Proof. induction es; intros; cbn [pouts]; auto. constructor. auto. Qed.

Lemma solo_brun : forall {F} (p q : proc F), solo p q -> forall c : cfg msg event F, pr c 0%nat = p ->
  exists l c', brun msg event F 1 l c = Some c' /\ pr c' 0%nat = q.
Proof.
  intros F p q H. induction H; intros c Hc.
  - exists [], c. auto.
  - destruct (IHsolo (Mpi.mkCfg (upd (pr c) 0 k) (ch c) (upd (lg c) 0 (lg c 0%nat ++ [e]))) ltac:(apply upd_eq)) as [l [c' [R E]]].
    exists (LRank 0 :: l), c'. split; auto. cbn [brun bstep Nat.ltb Nat.leb]. rewrite Hc. exact R.
  - destruct (IHsolo (Mpi.mkCfg (fun r => if Nat.ltb r 1 then past_barrier _ _ _ (pr c r) else pr c r) (ch c) (lg c))) as [l [c' [R E]]].
    { cbn [pr]. cbn [Nat.ltb Nat.leb]. rewrite Hc. reflexivity. }
    exists (LBar :: l), c'. split; auto. cbn [brun bstep]. unfold all_at_barrier. cbn [seq forallb]. rewrite Hc. cbn [at_barrier andb]. exact R.
  - destruct (IHsolo (Mpi.mkCfg (upd (pr c) 0 (k m)) (cbcast _ 1 (ch c) 0 m) (lg c)) ltac:(apply upd_eq)) as [l [c' [R E]]].
    exists (LRank 0 :: l), c'. split; auto. cbn [brun bstep Nat.ltb Nat.leb]. rewrite Hc. exact R.
  - exists [LRank 0], (Mpi.mkCfg (upd (pr c) 0 (Fail NoSuchRank)) (ch c) (lg c)). split; [|apply upd_eq].
    cbn [brun bstep Nat.ltb Nat.leb]. rewrite Hc. destruct d; [lia|]. reflexivity.
Qed.
End Solo.

(** the draw of an index below 0 gives 0 *)
Definition Draw0 (A : Arith) : Prop := forall g, i4_unif_0a (A := A) 0 g = OK (0, lcg g).

Lemma Draw0_R : Draw0 RArith.
Proof.
  intros g. unfold i4_unif_0a. rewrite (surjective_pairing (drand48 (A := RArith) g)).
  cbn [nfloor nmul nof RArith]. rewrite Rmult_0_r.
  replace (Rfloor 0) with 0 by (symmetry; apply (Int_part_IZR_eq 0)).
  rewrite n2i_R by (unfold INT_MIN, INT_MAX; lia). reflexivity.
Qed.

Lemma Draw0_b64 : forall L, Draw0 (B64 L).
Proof.
  intros L g. unfold i4_unif_0a. rewrite (surjective_pairing (drand48 (A := B64 L) g)).
  destruct (scaled_ok L g 0) as [F [V [RR _]]]; [lia|]. cbn zeta in *.
  set (p := Bmult mode_NE (fst (drand48 (A := B64 L) g)) (bof 0)) in *.
  destruct (bint_ok mode_DN p F) as [F2 V2].
  assert (E : B2R p = 0%R) by lra. rewrite E in V2. cbn [round_mode] in V2. rewrite (Zfloor_IZR 0) in V2.
  unfold n2i. cbn [ntrunc nfloor nmul nof B64]. fold p. rewrite (btrunc_int _ _ F2 V2). reflexivity.
Qed.

Lemma zget1 : forall {X} (x : X), zget [x] 0 = OK x.
Proof. reflexivity. Qed.
Lemma zset1 : forall {X} (x y : X), zset [x] 0 y = OK [y].
Proof. reflexivity. Qed.

Section One.
Context {A : Arith}.
Variable S : Setup A.
Hypothesis HL : Legal S.
Hypothesis H0 : Draw0 A.
Notation C := (s_cfg S).
Notation U := (s_user S).
Notation E := (s_env S).

Definition with_ranks (n : nat) : Setup A := mkSetup C U n E (s_ndim S).

Lemma solo_fails : forall e, solo (main C U 1 E (s_ndim S) 0) (Fail e) -> fails (with_ranks 1) e.
Proof.
  intros e H. destruct (solo_brun _ _ H (initial (with_ranks 1))) as [l [c' [R Ef]]]; [reflexivity|].
  split.
  - destruct (mstar_mrun _ _ _ _ (brun_mstar _ _ _ _ R)) as [tr HR].
    exists (length l), tr, c', 0%nat. auto.
  - intros k tr X HE. eapply (fail_no_complete 1 (initial (with_ranks 1)) l); eauto. eapply mrun_mstar. exact HE.
Qed.

Lemma solo_plift : forall {X} (r : res X) x, r = OK x -> solo (msg := msg A) (event := event A) (plift r) (Ret x).
Proof. intros X r x ->. constructor. Qed.

(** a swap attempt has no partner *)
Lemma one_round : forall D s isw nsw npr, 
  length (transit (ro s)) = 1%nat -> length (lps (ro s)) = 1%nat -> l_beta (lo s) <> [] ->
  exists e, (e = OutOfBounds \/ e = NoSuchRank) /\ ((Swapmode C = 0 \/ Swapmode C = 1) -> e = OutOfBounds) /\
  solo (swap_round C U 1 D 0 isw (s, 0, nsw, npr)) (Fail e).
Proof.
  intros D s isw nsw npr Ht Hl Hb. unfold swap_round. cbn [is_root Nat.eqb root].
  change (zn 1 - 1) with 0. rewrite H0. cbn [plift pbind]. unfold mpi_judge_and_swap. cbn [is_root Nat.eqb root].
  assert (Ht0 : exists x0, transit (ro s) = [x0]).
  { destruct (transit (ro s)) as [|x0 [|]]; try discriminate. eauto. }
  destruct Ht0 as [x0 Ht0].
  assert (Hl0 : exists x0, lps (ro s) = [x0]).
  { destruct (lps (ro s)) as [|y0 [|]]; try discriminate. eauto. }
  destruct Hl0 as [y0 Hl0].
  unfold choose_j. cbn [set_g lo ro l_g]. 
  assert (Q : forall (M : Z) (m01 : M = 0 \/ M = 1), exists g',
     (if M =? 1 then let* (j, g') := i4_unif_0a (A := A) (zn 1 - 1) (lcg (l_g (lo s))) in OK (if 0 <=? j then j + 1 else j, g')
      else OK ((if M =? 0 then 0 + 1 else 0), lcg (l_g (lo s)))) = OK (1, g')).
  { intros M [->| ->]; cbn [Z.eqb]; [eexists; reflexivity|]. change (zn 1 - 1) with 0. rewrite H0. eexists; reflexivity. }
  destruct (Z.eq_dec (Swapmode C) 0) as [M0|M0]; [|destruct (Z.eq_dec (Swapmode C) 1) as [M1|M1]].
  - exists OutOfBounds. split; [auto|]. split; [auto|]. destruct (Q (Swapmode C) ltac:(auto)) as [g' Eq].
    rewrite Eq. cbn [plift pbind]. rewrite Ht0. cbn [plift zget Z.ltb Z.compare nth_error Z.to_nat Pos.to_nat Pos.iter_op pbind]. constructor.
  - exists OutOfBounds. split; [auto|]. split; [auto|]. destruct (Q (Swapmode C) ltac:(auto)) as [g' Eq].
    rewrite Eq. cbn [plift pbind]. rewrite Ht0. cbn [plift zget Z.ltb Z.compare nth_error Z.to_nat Pos.to_nat Pos.iter_op pbind]. constructor.
  - exists NoSuchRank. split; [auto|]. split; [intros [?|?]; contradiction|].
    rewrite (proj2 (Z.eqb_neq _ _) M0), (proj2 (Z.eqb_neq _ _) M1). cbn [plift pbind]. rewrite Ht0, Hl0.
    cbn [plift zget Z.ltb Z.compare nth_error Z.to_nat pbind]. apply solo_send. unfold slave_rank. lia.
Qed.

Theorem one_rank_fails : 0 < N_iter C -> 0 < N_swap C ->
  exists e, (e = OutOfBounds \/ e = NoSuchRank) /\ ((Swapmode C = 0 \/ Swapmode C = 1) -> e = OutOfBounds) /\
  fails (with_ranks 1) e.
Proof.
  intros HN HS. pose proof HL as [RK [VC [VU VE]]].
  destruct (ve_lines _ _ VE) as [nl [arr [E1 [E2 E3]]]]. pose proof (ve_data _ _ VE _ _ E3) as E4.
  pose proof (vu_ok _ _ VU) as UO.
  assert (Hb : exists b0 bt, Beta_Values C = b0 :: bt).
  { pose proof (vc_betas _ _ VC). pose proof (vc_n _ _ VC). destruct (Beta_Values C) as [|b0 bt]; [cbn in *; lia|eauto]. }
  destruct Hb as [b0 [bt Hb]].
  set (D := mkData nl arr).
  set (seed := u32 (first_seed C E + 1)).
  set (x0 := fst (u_init U seed)). set (g0 := snd (u_init U seed)).
  set (lp0 := logpost_at U D x0 b0).
  assert (Hx0 : haslen (N_parm C) x0) by apply UO.
  (* the first batch *)
  pose proof (vc_stack _ _ VC) as Hst. pose proof (vc_sum _ _ VC) as Hsum.
  set (len := if N_iter C <? n_iter_a_stack C then N_iter C - 0 else n_iter_a_stack C).
  assert (Hlen : 0 < len <= n_iter_a_stack C). { unfold len. destruct (Z.ltb_spec (N_iter C) (n_iter_a_stack C)); lia. }
  destruct (next_batch_total C (s_n S) RK VC len 0 g0) as [nx [nb [En [Hnb [Hnx Hle]]]]]; [lia|lia|].
  set (g1 := lcg g0) in *.
  set (s1 := mkSt (mkLoc g1 (u_gp U) 0 0 [b0]) (mkRoot [x0] [lp0] [u_gp U])).
  assert (Hgp : haslen (N_parm C) (u_gp U)) by apply UO.
  assert (BL : BoundLen U (N_parm C)) by apply UO.
  pose proof (iter_batch_mh_spec U D (N_parm C) x0 (u_gp U) nb b0 g1 0 0 (i_save_begin C) lp0 BL Hgp Hx0 ltac:(lia)) as EB.
  set (b := batch_spec U D x0 (u_gp U) nb b0 g1 0 0 (i_save_begin C) lp0) in *.
  set (s2 := mkSt (mkLoc (b_g b) (u_gp U) (b_it b) (b_acc b) [b0]) (mkRoot [b_last b] [b_lp b] [u_gp U])).
  set (cnt := if (0 <? Tune_Ladder C) && true then [nof 0 : num A] else []).
  destruct (one_round D s2 0 cnt cnt) as [e [He [He2 HH]]]; try reflexivity; [cbn; discriminate|].
  exists e. split; [exact He|]. split; [exact He2|]. apply solo_fails.
  (* from the beginning of main *)
  unfold main. cbn [is_root Nat.eqb root pbind]. apply solo_out.
  eapply solo_bind. { unfold mpi_get_nlines. cbn [is_root Nat.eqb root]. rewrite E1. cbn [plift pbind]. apply solo_bcast. apply solo_plift. reflexivity. }
  rewrite i32_ok by exact E2. cbn [plift pbind].
  eapply solo_bind. { unfold mpi_data_loader. cbn [is_root Nat.eqb root]. rewrite E3. cbn [plift pbind]. apply solo_bcast. apply solo_plift.
    unfold as_dbls. rewrite E4, Z.eqb_refl. reflexivity. }
  cbn zeta. fold D.
  eapply solo_bind. { unfold mpi_gen_init_parm. cbn [is_root Nat.eqb root]. change (slaves 1) with (@nil nat). cbn [pfor pbind].
    apply solo_out. fold seed. rewrite (surjective_pairing (u_init U seed)). fold x0 g0.
    cbn [plift zset fresh zn zr Z.of_nat Z.to_nat Pos.to_nat Pos.iter_op repeat Z.ltb Z.compare length Z.leb orb lset root pbind pfor all_cells rbind cell].
    apply solo_out. apply solo_refl. }
  cbn beta iota.
  eapply solo_bind. { unfold mpi_init_calc_logllpp. cbn [is_root Nat.eqb root]. change (slaves 1) with (@nil nat). cbn [pfor pbind].
    rewrite Hb. cbn [plift zset zget fresh zn zr Z.of_nat Z.to_nat Pos.to_nat Pos.iter_op repeat nth_error Z.ltb Z.compare length Z.leb orb lset root pbind pfor all_cells rbind cell].
    apply solo_out. apply solo_refl. }
  change (nadd (u_logll U x0 (d_nline D) (d_arr D) b0) (u_logprior U x0)) with lp0. apply solo_bar. apply solo_out.
  eapply solo_bind. { unfold mpi_gather_sigma. cbn [is_root Nat.eqb root]. change (slaves 1) with (@nil nat).
    cbn [plift zset zget fresh zn zr Z.of_nat Z.to_nat Pos.to_nat Pos.iter_op repeat nth_error Z.ltb Z.compare length Z.leb orb lset root pbind pfor all_cells rbind cell].
    apply solo_refl. }
  assert (EC : copy_betas C 1 = OK [b0]) by (unfold copy_betas; cbn [for_from]; rewrite Hb; reflexivity).
  rewrite EC. cbn [plift pbind is_root Nat.eqb root].
  unfold mpi_entire_flow. apply solo_head.
  (* the first stack *)
  destruct (Z.to_nat (N_iter C)) as [|fuel] eqn:Ef; [lia|]. cbn [flow_loop].
  rewrite (proj2 (Z.ltb_lt 0 (N_iter C))) by lia. rewrite Z.add_0_l. rewrite i32_ok by (unfold INT_MIN, INT_MAX in *; lia). cbn [plift pbind].
  fold len.
  eapply solo_bind. { unfold mpi_distribute_sigma. cbn [is_root Nat.eqb root ro sigt]. change (slaves 1) with (@nil nat).
    cbn [plift zget zr Z.of_nat root Z.ltb Z.compare nth_error Z.to_nat pbind pfor]. apply solo_refl. }
  apply solo_bar. apply solo_out. cbn [set_sig lo ro l_g l_it l_acc l_beta l_sig].
  apply solo_head. unfold mpi_static_sigma_stack. cbn [is_root Nat.eqb root pbind lo l_beta repeat]. apply solo_out.
  apply solo_head. destruct (Z.to_nat len) as [|fl] eqn:El; [lia|].
  cbn [stack_loop]. rewrite (proj2 (Z.ltb_lt 0 len)) by lia. cbn [is_root Nat.eqb root lo l_g].
  assert (Hnb2 : exists lo_r adj g nb0 nx0, i32 (- n_iter_a_batch_rand C) = OK lo_r /\
     i4_unif_ab (A := A) lo_r (n_iter_a_batch_rand C) g0 = OK (adj, g) /\
     i32 (n_iter_a_batch_base C + adj) = OK nb0 /\ i32 (0 + nb0) = OK nx0 /\
     nb = (if len <? nx0 then len - 0 else nb0) /\ nx = (if len <? nx0 then len else nx0) /\ g = g1).
  { unfold next_batch in En. rinv. repeat eexists; eauto. }
  destruct Hnb2 as [lo_r [adj [g [nb0 [nx0 [N1 [N2 [N3 [N4 [N5 [N6 N7]]]]]]]]]]].
  eapply solo_bind. { rewrite N1. cbn [plift pbind set_sig lo l_g]. rewrite N2. cbn [plift pbind]. rewrite N3. cbn [plift pbind]. rewrite N4. cbn [plift pbind].
    change (slaves 1) with (@nil nat). cbn [pfor pbind]. rewrite <- N5, <- N6. apply solo_refl. }
  cbn beta iota. rewrite N7. apply solo_bar.
  eapply solo_bind. { unfold mpi_run_a_batch. change (slaves 1) with (@nil nat). cbn [is_root Nat.eqb root pfor pbind set_g set_sig lo ro transit lps l_beta l_sig l_g l_it l_acc plift zget zset zr Z.of_nat Z.ltb Z.compare nth_error Z.to_nat].
    rewrite !zget1. cbn [plift pbind]. rewrite EB. cbn [plift pbind]. apply solo_pouts. 
    rewrite !zset1. cbn [plift pbind]. apply solo_refl. }
  apply solo_bar. apply solo_head.
  unfold zseq. destruct (Z.to_nat (N_swap C)) as [|sw] eqn:Esw; [lia|]. cbn [seq map pfor]. apply solo_head. exact HH.
Qed.
End One.
