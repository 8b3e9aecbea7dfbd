(** C77: when saving begins after the tuning is over, averages over the saved rows of a chain file converge to posterior means. *)
From Coq Require Import ZArith List Bool Reals Lia Lra.
From Coquelicot Require Import Coquelicot.
From Verif Require Import Base Arith Rand Mh Ladder Tune Mpi Prog Seq MhSpec SeqWf UserModels Boundary BounceDensity SwapReal SeqTotal System Demo Runs History RunHist FailRuns
  Views HistCount HistRows CountLemmas SwapLemmas SwapMore ChainInv Stale LadderRuns TuneRuns Metro Nice Invariance Tempering Converge Average
  PropCount PropMetro PropSwap PropLadder PropTune PropInvar PropTemper PropConverge PropAverage.
From Verif Require Import Uniform CacheTail PropTuned.
Import ListNotations.
Open Scope Z_scope.

Lemma split_once : forall A thr (b1 b2 c1 c2 : list (brec (A := A))) a, b1 ++ b2 = c1 ++ c2 ->
  List.Forall (fun e => e < thr) (ends a b1) -> List.Forall (fun e => thr <= e) (ends (a + zsum (map br_len b1)) b2) ->
  List.Forall (fun e => e < thr) (ends a c1) -> List.Forall (fun e => thr <= e) (ends (a + zsum (map br_len c1)) c2) -> b1 = c1 /\ b2 = c2.
Proof.
  intros A thr. induction b1 as [|x b1 IH]; intros b2 [|y c1] c2 a E B1 B2 C1 C2; cbn [app] in E.
  - auto.
  - subst b2. cbn [map zsum] in B2. rewrite Z.add_0_r in B2. inversion B2 as [|? ? Q _]; subst. inversion C1 as [|? ? P _]; subst. lia.
  - subst c2. cbn [map zsum] in C2. rewrite Z.add_0_r in C2. inversion C2 as [|? ? Q _]; subst. inversion B1 as [|? ? P _]; subst. lia.
  - injection E as -> E. cbn [map zsum ends] in *. inversion B1; subst. inversion C1; subst. rewrite Z.add_assoc in B2, C2.
    destruct (IH b2 c1 c2 (a + br_len y) E) as [-> ->]; auto.
Qed.

Lemma split_stack : forall A (h : list (srec (A := A))) c1 b c2, hbatches h = c1 ++ b :: c2 ->
  exists h1 s h2 d1 d2, h = h1 ++ s :: h2 /\ sr_batches s = d1 ++ b :: d2 /\ c1 = hbatches h1 ++ d1 /\ c2 = d2 ++ hbatches h2.
Proof.
  intros A. induction h as [|s h IH]; intros c1 b c2 E; unfold hbatches in E; cbn [map concat] in E; [destruct c1; discriminate|].
  fold (hbatches h) in E. apply app_eq_app in E. destruct E as [l [[E1 E2]|[E1 E2]]].
  - destruct l as [|x l].
    + cbn [app] in E2. destruct (IH [] b c2) as [h1 [s' [h2 [d1 [d2 [F1 [F2 [F3 F4]]]]]]]]; [rewrite <- E2; reflexivity|].
      exists (s :: h1), s', h2, d1, d2. subst h. split; [reflexivity|]. split; auto. split; auto. rewrite app_nil_r in E1. unfold hbatches. cbn [map concat]. fold (hbatches h1).
      rewrite <- app_assoc, <- F3, app_nil_r. auto.
    + cbn [app] in E2. injection E2 as -> E2. exists [], s, h, c1, l. split; [reflexivity|]. split; auto.
  - destruct (IH l b c2) as [h1 [s' [h2 [d1 [d2 [F1 [F2 [F3 F4]]]]]]]]; [auto|].
    exists (s :: h1), s', h2, d1, d2. subst h. split; [reflexivity|]. split; auto. split; auto.
    subst c1. unfold hbatches. cbn [map concat]. fold (hbatches h1). rewrite F3, app_assoc. reflexivity.
Qed.

(** There are a stack s after which nothing is tuned and batches bl2 at its end and in the later stacks such that the chain file of every rank
    of every completed execution has the initial row and then the rows of bl2, T in number, and no others. *)
Definition saved_part {A} (S : Setup A) (D : Data A) G0 h (h1 : list (srec (A := A))) s h2 (bl1 bl2 : list (brec (A := A))) : Prop :=
  h = h1 ++ s :: h2 /\ settled S s /\ hbatches (s :: h2) = bl1 ++ bl2 /\
  Z.min (N_iter (s_cfg S)) (N_iter (s_cfg S) - i_save_begin (s_cfg S) + 1) <= zsum (map br_len bl2) <= N_iter (s_cfg S) /\
  forall k tr X, execution S k tr X -> complete S X -> forall r, (r < s_n S)%nat ->
    exists xs, Forall2 (fun b x => batch_walk S D r b (fst x) (snd x)) bl2 xs /\
      file (FChain r) tr = EvRow r (mkRow (x_at G0 r) (lp_at G0 r) 0 0) :: map (EvRow r) (rows_in xs) /\
      Z.of_nat (length (rows_in xs)) = zsum (map br_len bl2).

Theorem C77_where : forall A (S : Setup A), Legal S -> 0 < N_iter (s_cfg S) -> i_save_begin (s_cfg S) <= N_iter (s_cfg S) ->
  N_stoptune (s_cfg S) <= i_save_begin (s_cfg S) -> Tune_Ladder (s_cfg S) <= 0 \/ N_stopTuneLadder (s_cfg S) <= i_save_begin (s_cfg S) ->
  forall D G0 h Gf, history S D G0 h Gf -> exists h1 s h2 bl1 bl2, saved_part S D G0 h h1 s h2 bl1 bl2.
Proof.
  intros A S HL HN HI H1 H2 D G0 h Gf HH. pose proof HL as [_ [VC _]]. pose proof (vc_n _ _ VC) as Hn.
  destruct (legal_completes A S HL) as [k0 [tr0 [X0 [E0 C0]]]].
  destruct (C18_saved_batches A S HL D G0 h Gf HH k0 tr0 X0 E0 C0 0%nat ltac:(lia)) as [b1 [b2 [_ [_ [EB [_ [_ [F1 [F2 _]]]]]]]]].
  destruct (C17_lengths _ S HL D G0 h Gf HH) as [SN FL]. rewrite List.Forall_forall in FL.
  assert (ZH : zsum (map br_len (hbatches h)) = N_iter (s_cfg S)).
  { destruct h as [|s h']; [cbn in SN; lia|]. destruct (tail_sum A S HL D G0 (s :: h') Gf HH [] s h' eq_refl) as [Q _].
    destruct (history_count S HL _ _ _ _ HH) as [_ [_ [HF _]]]. cbn [sfollow] in HF. lia. }
  destruct b2 as [|b b2].
  { exfalso. rewrite app_nil_r in EB. subst b1.
    assert (K : forall (l : list (brec (A := A))) a, l <> [] -> List.Forall (fun e => e < i_save_begin (s_cfg S)) (ends a l) -> a + zsum (map br_len l) < i_save_begin (s_cfg S)).
    { clear. induction l as [|x l IH]; intros a Hl F; [congruence|]. cbn [ends map zsum] in *. inversion F; subst. destruct l as [|y l]; [cbn [map zsum]; lia|].
      assert (a + br_len x + zsum (map br_len (y :: l)) < i_save_begin (s_cfg S)); [|lia]. apply IH; [discriminate|auto]. }
    specialize (K (hbatches h) 0). rewrite ZH in K. assert (hbatches h <> []) by (intros E; rewrite E in ZH; cbn in ZH; lia). specialize (K H F1). lia. }
  destruct (split_stack A h b1 b b2 EB) as [h1 [s [h2 [d1 [d2 [Eh [Es [Ec1 Ec2]]]]]]]].
  assert (Hs : In s h) by (rewrite Eh; apply in_or_app; right; left; auto).
  assert (SB : forall l : list (srec (A := A)), (forall t, In t l -> In t h) -> zsum (map br_len (hbatches l)) = zsum (map sr_len l)).
  { intros l Hl. unfold hbatches. induction l as [|t l IH]; cbn [map concat zsum]; [reflexivity|].
    rewrite map_app, zsum_app, IH; [|intros v Hv; apply Hl; right; auto]. destruct (FL t (Hl t (or_introl eq_refl))) as [_ [_ [-> _]]]. reflexivity. }
  assert (FR : sr_from s = zsum (map sr_len h1)).
  { destruct (history_count S HL _ _ _ _ HH) as [_ [_ [HF _]]]. rewrite Eh in HF. apply sfollow_from in HF. lia. }
  assert (PB : forall c, In c (hbatches h) -> 1 <= br_len c).
  { intros c Hc. unfold hbatches in Hc. apply in_concat in Hc. destruct Hc as [l [Hl Hc]]. apply in_map_iff in Hl. destruct Hl as [t [<- Ht]].
    destruct (FL t Ht) as [_ [_ [_ Q]]]. rewrite List.Forall_forall in Q. apply Q; auto. }
  assert (NN : forall l : list (brec (A := A)), (forall c, In c l -> 1 <= br_len c) -> 0 <= zsum (map br_len l)).
  { induction l as [|c l IH]; intros Q; cbn [map zsum]; [lia|]. pose proof (Q c (or_introl eq_refl)). assert (0 <= zsum (map br_len l)) by (apply IH; intros v Hv; apply Q; right; auto). lia. }
  assert (BE : zsum (map br_len b1) + br_len b <= sr_end s).
  { rewrite Ec1, map_app, zsum_app, SB by (intros t Ht; rewrite Eh; apply in_or_app; auto). unfold sr_end. rewrite FR.
    destruct (FL s Hs) as [_ [_ [Q _]]]. rewrite <- Q, Es, map_app, zsum_app. cbn [map zsum].
    assert (0 <= zsum (map br_len d2)); [|lia]. apply NN. intros c Hc. apply PB. unfold hbatches. apply in_concat. exists (sr_batches s). split; [apply in_map; auto|].
    rewrite Es. apply in_or_app. right. right. auto. }
  cbn [ends] in F2. assert (F2' := F2). inversion F2' as [|? ? Q0 _]; subst x l.
  exists h1, s, h2, d1, (b :: b2). unfold saved_part. split; [exact Eh|]. split.
  { unfold settled. split; [lia|]. destruct H2 as [H2|H2]; [left; auto|right; lia]. }
  split. { unfold hbatches. cbn [map concat]. fold (hbatches h2). rewrite Es, Ec2, <- app_assoc. reflexivity. }
  split.
  { assert (E : zsum (map br_len b1) + zsum (map br_len (b :: b2)) = N_iter (s_cfg S)) by (rewrite <- zsum_app, <- map_app, <- EB; auto).
    assert (0 <= zsum (map br_len b1)) by (apply NN; intros c Hc; apply PB; rewrite EB; apply in_or_app; auto).
    destruct (Z.lt_ge_cases (zsum (map br_len b1)) (i_save_begin (s_cfg S))) as [Q|Q]; [lia|].
    destruct b1 as [|y b1].
    - change (zsum (map br_len [])) with 0 in E. lia.
    - assert (K : forall (l : list (brec (A := A))) a, l <> [] -> List.Forall (fun e => e < i_save_begin (s_cfg S)) (ends a l) -> a + zsum (map br_len l) < i_save_begin (s_cfg S)).
      { clear. induction l as [|x l IH]; intros a Hl F; [congruence|]. cbn [ends map zsum] in *. inversion F; subst. destruct l as [|z l]; [cbn [map zsum]; lia|].
        assert (a + br_len x + zsum (map br_len (z :: l)) < i_save_begin (s_cfg S)); [|lia]. apply IH; [discriminate|auto]. }
      specialize (K (y :: b1) 0 ltac:(discriminate) F1). lia. }
  intros k tr X HE HC r Hr.
  destruct (C18_saved_batches A S HL D G0 h Gf HH k tr X HE HC r Hr) as [c1 [c2 [x1 [x2 [EC [_ [W2 [G1 [G2 HF]]]]]]]]].
  destruct (split_once A (i_save_begin (s_cfg S)) b1 (b :: b2) c1 c2 0) as [-> ->]; auto; [congruence|].
  exists x2. split; [exact W2|]. split; [exact HF|].
  clear - W2. unfold rows_in. induction W2 as [|c x l xs [_ [Q _]] W IH]; [reflexivity|]. cbn [map concat zsum]. rewrite app_length. lia.
Qed.
Print Assumptions C77_where.

(** For every legal setup with the user model u and n ranks that begins to save after the tuning is over, every history of it has such a part,
    and if the log posteriors at the ladder of s are bounded by M on the box and the widths of s at least smin: for every rank r the mean square
    error of the average of g over the T saved rows of the chain file is at most K (range of g)^2 / T, where T is at least the number of
    iterations from i_save_begin on, and the mean of a function of the last rows is within (1 - delta)^batches of its posterior mean.  delta and K
    are chosen before the setup, the history and the execution. *)
Theorem C77_saved : forall (u : User RArith) (n : nat) D (box : list (R * R)) (smin M : R) (LM : nat),
  (forall p, In p box -> (fst p < snd p)%R) -> (0 < smin)%R ->
  exists delta K, (0 < delta <= 1)%R /\ (0 <= K)%R /\
  forall S : Setup RArith, Legal S -> Swapmode (s_cfg S) = 0 \/ Swapmode (s_cfg S) = 1 -> s_user S = u -> s_n S = n ->
  n_iter_a_batch_base (s_cfg S) + n_iter_a_batch_rand (s_cfg S) <= Z.of_nat LM ->
  0 < N_iter (s_cfg S) -> i_save_begin (s_cfg S) <= N_iter (s_cfg S) ->
  N_stoptune (s_cfg S) <= i_save_begin (s_cfg S) -> Tune_Ladder (s_cfg S) <= 0 \/ N_stopTuneLadder (s_cfg S) <= i_save_begin (s_cfg S) ->
  forall G0 h Gf, history S D G0 h Gf -> exists h1 s h2 bl1 bl2 wss, saved_part S D G0 h h1 s h2 bl1 bl2 /\
  Forall2 (attempts_of S D) bl2 wss /\
  let Ls : list (list R -> R) := map (fun (beta : R) (x : list R) => logpost_at u D x beta) (l_beta (loc_at (sr_in s) 0)) in
  let sigs : list (list R) := map (fun r => l_sig (loc_at (sr_pre s) r)) (seq 0 n) in
  let T := zsum (map br_len bl2) in let os := concat (map (fun bw => batch_ops n (fst bw) (snd bw)) (combine bl2 wss)) in
  bounded_by M box Ls -> wide_steps smin box sigs -> let phis := map (map npdf) sigs in
  T <= Z.of_nat (length bl2) * (n_iter_a_batch_base (s_cfg S) + n_iter_a_batch_rand (s_cfg S)) /\
  (forall (g : list (list R) -> R) lo hi, nice (stD box n) g -> (forall Y, inD (stD box n) Y -> lo <= g Y <= hi)%R ->
   forall X, inD (stD box n) X ->
   (Rabs (means box Ls phis os g X - nint box n (fun Y => joint Ls Y * g Y) / nint box n (joint Ls)) <= (1 - delta) ^ length bl2 * (hi - lo))%R) /\
  forall r, (r < n)%nat -> rows r os = Z.to_nat T /\
   forall (g : list R -> R) lo hi, nice (boxD box) g -> (forall y, inside box y -> lo <= g y <= hi)%R ->
   forall X, inD (stD box n) X ->
   let m := (bint box (fun x => exp (nth r Ls nol x) * g x) / bint box (fun x => exp (nth r Ls nol x)))%R in
   (paths box Ls phis os (fun p => (rowsum r g os p / IZR T - m) ^ 2) X <= K * (hi - lo) ^ 2 / IZR T)%R.
Proof.
  intros u n D box smin M LM HW Hs. destruct (part_run n D box smin M LM HW Hs) as [delta [K [D1 [K0 KK]]]].
  exists delta, K. split; auto. split; auto. intros S HL HM EU En HLM HN HI H1 H2 G0 h Gf HH.
  destruct (C77_where _ S HL HN HI H1 H2 D G0 h Gf HH) as [h1 [s [h2 [bl1 [bl2 SP]]]]]. assert (SP' := SP). destruct SP' as [Eh [HSt [Eb [HT _]]]].
  assert (SUB : forall b, In b bl2 -> In b (hbatches h)).
  { intros b Hb. assert (In b (hbatches (s :: h2))) as Q by (rewrite Eb; apply in_or_app; auto).
    rewrite Eh. unfold hbatches in *. rewrite map_app, concat_app. apply in_or_app. right; auto. }
  destruct (KK S HL HM En HLM G0 h Gf HH bl2 SUB) as [wss [F1 PB]]. exists h1, s, h2, bl1, bl2, wss. split; [exact SP|]. split; [exact F1|].
  intros Ls sigs T os HB HWS phis. unfold part_bounds in PB. fold T os in PB. cbv zeta in PB. destruct PB as [P1 P2]. split; [exact P1|].
  assert (LB : length (l_beta (loc_at (sr_in s) 0)) = n).
  { assert (HS : In (sr_in s) (states G0 h Gf)).
    { right. apply in_or_app. left. apply in_concat. exists (sstates s). split; [apply in_map; rewrite Eh; apply in_or_app; right; left; auto|left; auto]. }
    destruct (C26_ends _ S HL D G0 h Gf HH _ HS) as [b [Lb [Hb _]]]. pose proof HL as [_ [VC _]]. pose proof (vc_n _ _ VC). rewrite (Hb 0%nat) by lia. congruence. }
  assert (LL : length Ls = n) by (unfold Ls; rewrite map_length; auto).
  assert (LS : length sigs = n) by (unfold sigs; rewrite map_length, seq_length; auto).
  destruct (P2 Ls sigs LL LS HB HWS) as [P3 P4]. fold phis in P3, P4. split; [exact P3|].
  intros r Hr. destruct (P4 r Hr) as [P5 P6]. split; [exact P5|]. intros g lo hi NG RG X HX m. apply P6; auto. unfold T. lia.
Qed.
Print Assumptions C77_saved.

(** a case: the shipped regression input with four ranks that ends the tuning of the widths and of the ladder when it begins to save *)
Definition set_tune {A} (C : Cfg A) (b e l : Z) : Cfg A :=
  mkCfgP A (N_parm C) (N_iter C) (n_iter_a_stack C) (n_iter_a_batch_base C) (n_iter_a_batch_rand C) (N_swap C)
    (Swapmode C) b e (n_iter_in_tune C) (Tune_Ladder C) l (i_save_begin C)
    (init_rand_seed C) (ar_ok_lower C) (ar_ok_upper C) (ar_best C) (ar_accept_diff C) (sigma_scale_half_ratio C)
    (sigma_jumpin_ratio C) (scale_tune_ladder C) (zero_stretch C) (Beta_Values C).
Example C77_case : let S := with_cfg demoR (set_tune (s_cfg demoR) 20000 100000 100000) in
  let box := [(-20, 20)%R; (-50, 50)%R; (/ 100, 30)%R] in
  Legal S /\ Swapmode (s_cfg S) = 0 /\ 0 < N_iter (s_cfg S) /\ i_save_begin (s_cfg S) = 100000 /\ N_stoptune (s_cfg S) <= i_save_begin (s_cfg S) /\
  0 < Tune_Ladder (s_cfg S) /\ N_stopTuneLadder (s_cfg S) <= i_save_begin (s_cfg S) /\
  exists D G0 h Gf h1 s h2 bl1 bl2, history S D G0 h Gf /\ saved_part S D G0 h h1 s h2 bl1 bl2 /\ 300001 <= zsum (map br_len bl2) /\
  exists smin M, (0 < smin)%R /\ bounded_by M box (map (fun (beta : R) (x : list R) => logpost_at (s_user S) D x beta) (l_beta (loc_at (sr_in s) 0))) /\
    wide_steps smin box (map (fun r => l_sig (loc_at (sr_pre s) r)) (seq 0 (s_n S))).
Proof.
  intros S box.
  assert (HL : Legal S).
  { destruct demoR_legal as [RK [V [VU VE]]]. split; [exact RK|]. split; [|split].
    - destruct V. constructor; try assumption; cbn; try lia.
    - destruct VU as [[? ? ?] ? ?]. constructor; [constructor|..]; assumption.
    - exact VE. }
  split; [exact HL|]. split; [reflexivity|]. split; [reflexivity|]. split; [reflexivity|].
  split; [discriminate|]. split; [reflexivity|]. split; [discriminate|].
  destruct (history_exists S HL) as [D [G0 [h [Gf HH]]]]. 
  destruct (C77_where _ S HL ltac:(reflexivity) ltac:(discriminate) ltac:(discriminate) ltac:(right; discriminate) D G0 h Gf HH) as [h1 [s [h2 [bl1 [bl2 SP]]]]].
  exists D, G0, h, Gf, h1, s, h2, bl1, bl2. split; [exact HH|]. split; [exact SP|]. destruct SP as [Eh [_ [_ [HT _]]]].
  split; [change (N_iter (s_cfg S)) with 400000 in HT; change (i_save_begin (s_cfg S)) with 100000 in HT; lia|].
  apply (reg_bounds S HL eq_refl eq_refl eq_refl eq_refl D G0 h Gf HH s). rewrite Eh. apply in_or_app. right; left; auto.
Qed.

(** The shipped regression input begins to save at iteration 100000 and tunes the widths until its last iteration, 400000: in every run of
    it every stack after which nothing is tuned begins at or after iteration 395000, and every chain file has the rows of the 295000
    iterations from 100000 on before that, whose widths are still subject to tuning. *)
Theorem C77_shipped_refuted : Legal demoR /\ ~ N_stoptune (s_cfg demoR) <= i_save_begin (s_cfg demoR) /\
  (forall D G0 h Gf, history demoR D G0 h Gf -> forall s, In s h -> settled demoR s -> 395000 <= sr_from s) /\
  forall k tr X, execution demoR k tr X -> complete demoR X -> forall r, (r < s_n demoR)%nat ->
  exists r0 rows, file (FChain r) tr = map (EvRow r) (r0 :: rows) /\ forall i, 100000 <= i < 395000 -> exists q, In q rows /\ r_it q = i.
Proof.
  split; [exact demoR_legal|]. split; [intros H; compute in H; apply H; reflexivity|]. split.
  - intros D G0 h Gf HH s Hs [H1 _]. destruct (C17_lengths _ _ demoR_legal D G0 h Gf HH) as [_ FL]. rewrite List.Forall_forall in FL.
    destruct (FL s Hs) as [[_ Q] _]. unfold sr_end in H1. change (N_stoptune (s_cfg demoR)) with 400000 in H1.
    change (n_iter_a_stack (s_cfg demoR)) with 5000 in Q. lia.
  - intros k tr X HE HC r Hr. destruct (C18_slack _ _ demoR_legal k tr X HE HC r Hr) as [r0 [rows [E [_ [_ P]]]]].
    exists r0, rows. split; [exact E|]. intros i Hi. apply P; [change (i_save_begin (s_cfg demoR)) with 100000; lia|change (N_iter (s_cfg demoR)) with 400000; lia].
Qed.
Print Assumptions C77_shipped_refuted.
