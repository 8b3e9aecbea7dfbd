(** C79: the shipped models meet the conditions of the convergence theorems. *)
From Coq Require Import ZArith List Bool Reals Lia Lra.
From Coquelicot Require Import Coquelicot.
From Verif Require Import Base Arith Bytes Rand Mh Ladder Tune Mpi Prog Seq MhSpec SeqWf UserModels Boundary BounceDensity SwapReal SeqTotal System RandRange Demo Runs History RunHist FailRuns
  Views HistCount HistRows CountLemmas SwapLemmas SwapMore ChainInv Stale LadderRuns TuneRuns Metro Nice Invariance Tempering Converge Average
  PropCount PropMetro PropSwap PropLadder PropTune PropInvar PropTemper PropConverge PropAverage Uniform CacheTail PropTuned PropSaved
  Readin Loader LoadFacts Inputs Shipped PropData Whole PropWhole.
Import ListNotations.
Open Scope R_scope.
Open Scope list_scope.

(** a model of the repository on the box of its parameters, with init_gp_ratio gp, sigma_scale_min s1 and sigma_scale_max s2 *)
Inductive on_box (gp s1 s2 : R) : list (R * R) -> User RArith -> Prop :=
| ob_egg : forall ra rb, on_box gp s1 s2 [ra; rb] (@egg_user RArith ra rb gp s1 s2)
| ob_curved : forall ra rb, on_box gp s1 s2 [ra; rb] (@curved_user RArith ra rb gp s1 s2)
| ob_multi : forall ra rb, on_box gp s1 s2 [ra; rb] (@multi_user RArith ra rb gp s1 s2)
| ob_reg : forall nd ra rb rd, 0 < fst rd -> on_box gp s1 s2 [ra; rb; rd] (@reg_user RArith nd ra rb rd gp s1 s2).

Lemma on_box_nice : forall gp s1 s2 box u, on_box gp s1 s2 box u -> forall D beta, nice (boxD box) (fun x => logpost_at u D x beta).
Proof. intros gp s1 s2 box u H D beta. destruct H; [apply egg_nice|apply curved_nice|apply multi_nice|apply reg_nice; auto]. Qed.
Lemma on_box_parts : forall gp s1 s2 box u, on_box gp s1 s2 box u ->
  u_sigmin u = map (fun p => s1 * (snd p - fst p)) box /\ u_sigmax u = map (fun p => s2 * (snd p - fst p)) box /\
  u_gp u = map (fun p => (snd p - fst p) * gp) box.
Proof. intros gp s1 s2 box u H. destruct H; repeat split; reflexivity. Qed.
Lemma on_box_linear : forall gp s1 s2 box u, on_box gp s1 s2 box u -> forall D x beta,
  logpost_at u D x beta = logpost_at u D x 0 + beta * (logpost_at u D x 1 - logpost_at u D x 0) :> R.
Proof.
  intros gp s1 s2 box u H D x beta.
  assert (K : exists v w : R, forall b : R, logpost_at u D x b = v * b + w :> R).
  { destruct H; [exists (@egg_value RArith (nth 0 x 0) (nth 1 x 0)), 1|exists (@curved_value RArith (nth 0 x 0) (nth 1 x 0)), 0
    |exists (@multi_value RArith (nth 0 x 0) (nth 1 x 0)), 0|exists (@reg_sum RArith x nd (d_nline D) (d_arr D)), (@reg_log_prior RArith ra rb rd x)]; intros b; reflexivity. }
  destruct K as [v [w K]]. rewrite !K. ring.
Qed.

(** one bound for all ladders with entries of size at most B *)
Lemma on_box_bounded : forall gp s1 s2 box u, on_box gp s1 s2 box u -> forall D B, 0 <= B -> exists M, forall betas : list R,
  (forall b, In b betas -> Rabs b <= B) -> bounded_by M box (map (fun (beta : R) (x : list R) => logpost_at u D x beta) betas).
Proof.
  intros gp s1 s2 box u H D B HB. pose proof (on_box_nice _ _ _ _ _ H D 0) as [[M0 N0] _]. pose proof (on_box_nice _ _ _ _ _ H D 1) as [[M1 N1] _].
  exists (M0 + B * (M1 + M0)). intros betas HBe L HL. apply in_map_iff in HL. destruct HL as [beta [<- Hb]]. specialize (HBe beta Hb).
  split; [apply (on_box_nice _ _ _ _ _ H)|]. intros x Hx. specialize (N0 x Hx). specialize (N1 x Hx). rewrite (on_box_linear _ _ _ _ _ H D x beta).
  set (a := logpost_at u D x 0 : R) in *. set (c := logpost_at u D x 1 : R) in *. change (Rabs (a + beta * (c - a)) <= M0 + B * (M1 + M0)).
  change (Rabs a <= M0) in N0. change (Rabs c <= M1) in N1.
  eapply Rle_trans; [apply Rabs_triang|]. apply Rplus_le_compat; auto. rewrite Rabs_mult. apply Rmult_le_compat; auto using Rabs_pos.
  unfold Rminus. eapply Rle_trans; [apply Rabs_triang|]. rewrite Rabs_Ropp. lra.
Qed.

Lemma minw : forall box : list (R * R), (forall p, In p box -> fst p < snd p) -> exists d, 0 < d /\ forall p, In p box -> d <= snd p - fst p.
Proof.
  induction box as [|p b IH]; intros H; [exists 1; split; [lra|intros p []]|]. destruct IH as [d [H1 H2]]; [intros q Hq; apply H; right; auto|].
  exists (Rmin d (snd p - fst p)). pose proof (H p (or_introl eq_refl)).
  split; [apply Rmin_glb_lt; lra|]. intros q [<-|Hq]; [apply Rmin_r|eapply Rle_trans; [apply Rmin_l|apply H2; auto]].
Qed.
Lemma nth_map0 : forall (f : R * R -> R) (box : list (R * R)) p, (p < List.length box)%nat -> exists q, In q box /\ nth p (map f box) 0 = f q.
Proof.
  intros f. induction box as [|q b IH]; intros p Hp; cbn [List.length] in Hp; [lia|]. destruct p as [|p]; [exists q; split; [left; auto|reflexivity]|].
  destruct (IH p ltac:(lia)) as [q' [H1 H2]]. exists q'. split; [right; auto|exact H2].
Qed.

(** the widths of every stack of every run *)
Lemma on_box_steps : forall gp s1 s2 box u, on_box gp s1 s2 box u -> (forall p, In p box -> fst p < snd p) -> 0 < s1 -> s1 <= gp <= s2 ->
  exists smin, 0 < smin /\ forall S : Setup RArith, Legal S -> s_user S = u -> N_parm (s_cfg S) = Z.of_nat (List.length box) ->
  1 <= sigma_jumpin_ratio (s_cfg S) -> 1 <= sigma_scale_half_ratio (s_cfg S) -> s1 * sigma_jumpin_ratio (s_cfg S) <= s2 ->
  forall D G0 h Gf, history S D G0 h Gf -> forall s, In s h -> wide_steps smin box (map (fun r => l_sig (loc_at (sr_pre s) r)) (seq 0 (s_n S))).
Proof.
  intros gp s1 s2 box u H HW H1 H2. destruct (minw box HW) as [d [D0 HD]]. exists (s1 * d). split; [apply Rmult_lt_0_compat; auto|].
  intros S HL EU EN J1 J2 J3 D G0 h Gf HH s Hs. destruct (on_box_parts _ _ _ _ _ H) as [U1 [U2 U3]].
  assert (PP : forall p, (0 <= p < N_parm (s_cfg S))%Z -> exists q, In q box /\ nth (Z.to_nat p) (u_sigmin (s_user S)) 0 = s1 * (snd q - fst q) /\
     nth (Z.to_nat p) (u_sigmax (s_user S)) 0 = s2 * (snd q - fst q) /\ nth (Z.to_nat p) (u_gp (s_user S)) 0 = (snd q - fst q) * gp).
  { intros p Hp. rewrite EN in Hp. rewrite EU, U1, U2, U3. clear - Hp. assert (Hq : (Z.to_nat p < List.length box)%nat) by lia. clear Hp.
    revert Hq. generalize (Z.to_nat p). clear p. induction box as [|q b IH]; intros p Hp; cbn [List.length] in Hp; [lia|].
    destruct p as [|p]; [exists q; split; [left; auto|repeat split; reflexivity]|]. destruct (IH p ltac:(lia)) as [q' [A1 A2]]. exists q'. split; [right; auto|exact A2]. }
  assert (RG := C35_run S HL). cbv zeta in RG.
  destruct RG with (D := D) (G0 := G0) (h := h) (Gf := Gf) as [RG1 _]; auto.
  - intros p Hp. destruct (PP p Hp) as [q [Hq [-> _]]]. specialize (HW q Hq). apply Rmult_lt_0_compat; lra.
  - intros p Hp. destruct (PP p Hp) as [q [Hq [-> [-> _]]]]. specialize (HW q Hq). nra.
  - intros p Hp. destruct (PP p Hp) as [q [Hq [E1 [E2 E3]]]]. specialize (HW q Hq). rewrite E1, E2. 
    split; [apply Rle_trans with ((snd q - fst q) * gp); [nra|right; symmetry; exact E3]|apply Rle_trans with ((snd q - fst q) * gp); [right; exact E3|nra]].
  - clear RG. intros sig Hsig. apply in_map_iff in Hsig. destruct Hsig as [r [<- Hr]]. apply in_seq in Hr.
    assert (IN : In (sr_in s) (states G0 h Gf)).
    { right. apply in_or_app. left. apply in_concat. exists (sstates s). split; [apply in_map; auto|left; auto]. }
    destruct (stack_widths S HL D _ _ _ HH s Hs (sr_pre s) (or_introl eq_refl)) as [_ W2].
    assert (LG : haslen (A := RArith) (N_parm (s_cfg S)) (l_sig (loc_at (sr_pre s) r))).
    { apply sig_len with (S := S); [|lia]. destruct (history_count S HL _ _ _ _ HH) as [_ [F _]]. rewrite List.Forall_forall in F.
      destruct (F s Hs) as [_ [_ [_ [_ [_ [Wp _]]]]]]. exact Wp. }
    unfold haslen in LG. assert (LB : List.length (l_sig (loc_at (sr_pre s) r)) = List.length box) by lia. split; [exact LB|].
    intros sd Hsd. apply (In_nth _ _ (0 : R)) in Hsd. destruct Hsd as [p [Hp <-]].
    assert (Hp' : (p < List.length box)%nat) by (rewrite <- LB; exact Hp). assert (HZ : (0 <= Z.of_nat p < N_parm (s_cfg S))%Z) by lia.
    rewrite (W2 r) by lia. pose proof (RG1 _ IN r ltac:(lia) (Z.of_nat p) HZ) as [Q _].
    destruct (PP (Z.of_nat p) HZ) as [q [Hq [E _]]]. rewrite Nat2Z.id in *. rewrite E in Q. specialize (HD q Hq). eapply Rle_trans; [|exact Q]. nra.
Qed.

(** The conclusion of C77 for one run, with no condition left on the posteriors or the widths. *)
Definition saved_averages (n : nat) (u : User RArith) (D : Data RArith) (box : list (R * R)) (delta K : R) (S : Setup RArith) G0 h : Prop :=
  exists h1 s h2 bl1 bl2 wss, saved_part S D G0 h h1 s h2 bl1 bl2 /\ Forall2 (attempts_of S D) bl2 wss /\
  let betas : list R := l_beta (loc_at (sr_in s) 0) in
  let Ls : list (list R -> R) := map (fun (beta : R) (x : list R) => logpost_at u D x beta) betas in
  let phis := map (map npdf) (map (fun r => l_sig (loc_at (sr_pre s) r) : list R) (seq 0 n)) in
  let T := zsum (map br_len bl2) in let os := concat (map (fun bw => batch_ops n (fst bw) (snd bw)) (combine bl2 wss)) in
  (T <= Z.of_nat (List.length bl2) * (n_iter_a_batch_base (s_cfg S) + n_iter_a_batch_rand (s_cfg S)))%Z /\
  (forall (g : list (list R) -> R) lo hi, nice (stD box n) g -> (forall Y, inD (stD box n) Y -> lo <= g Y <= hi) ->
   forall X, inD (stD box n) X ->
   Rabs (means box Ls phis os g X - nint box n (fun Y => joint Ls Y * g Y) / nint box n (joint Ls)) <= (1 - delta) ^ List.length bl2 * (hi - lo)) /\
  forall r, (r < n)%nat -> rows r os = Z.to_nat T /\
   forall (g : list R -> R) lo hi, nice (boxD box) g -> (forall y, inside box y -> lo <= g y <= hi) ->
   forall X, inD (stD box n) X ->
   let post x := exp (logpost_at u D x (nth r betas 0)) in
   let m := bint box (fun x => post x * g x) / bint box post in
   paths box Ls phis os (fun p => (rowsum r g os p / IZR T - m) ^ 2) X <= K * (hi - lo) ^ 2 / IZR T.

(** Every shipped model but rastrigin, with any data, box, ranks, and any configuration whose tuning is over when the saving begins: if the
    betas of the runs are at most B in size, then the averages over the saved rows of every rank converge to the posterior means, with
    constants that depend on the model, the data, the box, n, B and the largest batch only. *)
Theorem C79_run : forall gp s1 s2 box u, on_box gp s1 s2 box u -> (forall p, In p box -> fst p < snd p) -> 0 < s1 -> s1 <= gp <= s2 ->
  forall (n : nat) D (B : R) (LM : nat), 0 <= B ->
  exists delta K, 0 < delta <= 1 /\ 0 <= K /\
  forall S : Setup RArith, Legal S -> s_user S = u -> s_n S = n -> N_parm (s_cfg S) = Z.of_nat (List.length box) ->
  (Swapmode (s_cfg S) = 0 \/ Swapmode (s_cfg S) = 1)%Z -> (n_iter_a_batch_base (s_cfg S) + n_iter_a_batch_rand (s_cfg S) <= Z.of_nat LM)%Z ->
  1 <= sigma_jumpin_ratio (s_cfg S) -> 1 <= sigma_scale_half_ratio (s_cfg S) -> s1 * sigma_jumpin_ratio (s_cfg S) <= s2 ->
  (0 < N_iter (s_cfg S) -> i_save_begin (s_cfg S) <= N_iter (s_cfg S) -> N_stoptune (s_cfg S) <= i_save_begin (s_cfg S) ->
   Tune_Ladder (s_cfg S) <= 0 \/ N_stopTuneLadder (s_cfg S) <= i_save_begin (s_cfg S) ->
  forall G0 h Gf, history S D G0 h Gf -> (forall s, In s h -> forall b : R, In b (l_beta (loc_at (sr_in s) 0)) -> Rabs b <= B)%R ->
  saved_averages n u D box delta K S G0 h)%Z.
Proof.
  intros gp s1 s2 box u HO HW H1 H2 n D B LM HB. destruct (on_box_bounded _ _ _ _ _ HO D B HB) as [M HM].
  destruct (on_box_steps _ _ _ _ _ HO HW H1 H2) as [smin [S0 HS]].
  destruct (C77_saved u n D box smin M LM HW S0) as [delta [K [D1 [K0 KK]]]]. exists delta, K. split; auto. split; auto.
  intros S HL EU En EP HM' HLM J1 J2 J3 N0 N1 T1 T2 G0 h Gf HH HBe.
  destruct (KK S HL HM' EU En HLM N0 N1 T1 T2 G0 h Gf HH) as [h1 [s [h2 [bl1 [bl2 [wss [SP [F Q]]]]]]]].
  assert (Hs : In s h) by (destruct SP as [-> _]; apply in_or_app; right; left; auto).
  exists h1, s, h2, bl1, bl2, wss. split; [exact SP|]. split; [exact F|].
  intros betas Ls phis T os. cbv zeta in Q. fold betas in Q. fold Ls in Q.
  destruct Q as [Q1 [Q2 Q3]].
  - apply HM. apply HBe. exact Hs.
  - pose proof (HS S HL EU EP J1 J2 J3 D G0 h Gf HH s Hs) as WS. rewrite En in WS. exact WS.
  - split; [exact Q1|]. split; [exact Q2|]. intros r Hr. destruct (Q3 r Hr) as [Q4 Q5]. split; [exact Q4|].
    intros g lo hi NG RG X HX post m. specialize (Q5 g lo hi NG RG X HX).
    assert (LB : List.length betas = n).
    { assert (IN : In (sr_in s) (states G0 h Gf)) by (right; apply in_or_app; left; apply in_concat; exists (sstates s); split; [apply in_map; auto|left; auto]).
      destruct (C26_ends _ S HL D G0 h Gf HH _ IN) as [b [Lb [Hb _]]]. pose proof HL as [_ [VC _]]. pose proof (vc_n _ _ VC). unfold betas. rewrite <- En, <- Lb. apply (f_equal (@List.length R)). apply Hb. lia. }
    assert (EN : nth r Ls nol = fun x => logpost_at u D x (nth r betas 0)).
    { unfold Ls. rewrite (nth_indep _ nol ((fun (beta : R) (x : list R) => logpost_at u D x beta) 0)) by (rewrite map_length; lia). exact (map_nth (fun (beta : R) (x : list R) => logpost_at u D x beta) betas 0 r). }
    rewrite EN in Q5. exact Q5.
Qed.
Print Assumptions C79_run.

(** ** the shipped curved_likelihood configuration, from the bytes of its input file *)

(** curved_likelihood/user_logll.c:35-41: the density whose logarithm is taken there *)
Definition curved_density (x : list R) : R :=
  let a := nth 0 x 0 in let b := nth 1 x 0 in
  exp (- (a * a) - (9 + 4 * (a * a) + 9 * b) * (9 + 4 * (a * a) + 9 * b)) + / 2 * exp (- 8 * (a * a) - 8 * ((b - 2) * (b - 2))).
Lemma curved_post : forall ra rb gp s1 s2 D x, exp (logpost_at (@curved_user RArith ra rb gp s1 s2) D x (1 : R)) = curved_density x.
Proof.
  intros. change (logpost_at (@curved_user RArith ra rb gp s1 s2) D x (1 : R)) with (@curved_value RArith (nth 0 x 0) (nth 1 x 0) * 1 + 0).
  rewrite Rmult_1_r, Rplus_0_r. unfold curved_value. rewrite !sqR. unfold half, nlit, two. cbn [ndiv nof nopp nsub nadd nmul nlog nexp RArith num].
  rewrite exp_ln.
  - unfold curved_density. cbv zeta. f_equal. change (10 ^ 1)%Z with 10%Z. f_equal. lra.
  - change (10 ^ 1)%Z with 10%Z. match goal with |- 0 < ?p + ?q * ?r => pose proof (exp_pos (- (nth 0 x 0 * nth 0 x 0) - (9 + 4 * (nth 0 x 0 * nth 0 x 0) + 9 * nth 1 x 0) * (9 + 4 * (nth 0 x 0 * nth 0 x 0) + 9 * nth 1 x 0)));
      assert (0 < q * r) by (apply Rmult_lt_0_compat; [lra|apply exp_pos]) end. apply Rplus_lt_0_compat; [apply exp_pos|auto].
Qed.

(** Every run of the shipped curved_likelihood configuration with four ranks, whatever the data file: each chain file has at least 990001 rows
    after its first, and in the file of rank 3, whose beta is 1, the average of any g over these T rows is in mean square within
    K (range of g)^2 / T of the mean of g under the density of the model; the constant K is chosen before the data file, the time and the run. *)
Theorem C79_curved : forall scan_lf atof, Decimals (A := RArith) scan_lf atof -> forall D,
  exists K, 0 <= K /\ forall ls tss, two_columns atof ls tss -> forall time S,
  launch scan_lf atof SCurved (ship_file SCurved) (unlines ls) 4 time = OK S ->
  forall G0 h Gf, history S D G0 h Gf ->
  let box := [(-10, 10); (-10, 10)] in
  exists h1 s h2 bl1 bl2 wss, saved_part S D G0 h h1 s h2 bl1 bl2 /\ Forall2 (attempts_of S D) bl2 wss /\
  l_beta (loc_at (sr_in s) 0) = [3 / 100; 1 / 10; 3 / 10; 1] /\
  let Ls : list (list R -> R) := map (fun (beta : R) (x : list R) => logpost_at (s_user S) D x beta) (l_beta (loc_at (sr_in s) 0)) in
  let phis := map (map npdf) (map (fun r => l_sig (loc_at (sr_pre s) r) : list R) (seq 0 4)) in
  let T := zsum (map br_len bl2) in let os := concat (map (fun bw => batch_ops 4 (fst bw) (snd bw)) (combine bl2 wss)) in
  (990001 <= T <= 1000000)%Z /\
  forall (g : list R -> R) lo hi, nice (boxD box) g -> (forall y, inside box y -> lo <= g y <= hi) ->
  forall X, inD (stD box 4) X ->
  let m := bint box (fun x => curved_density x * g x) / bint box curved_density in
  paths box Ls phis os (fun p => (rowsum 3 g os p / IZR T - m) ^ 2) X <= K * (hi - lo) ^ 2 / IZR T.
Proof.
  intros scan_lf atof HD D. set (u := ship_user RArith SCurved).
  destruct (ship_ratios SCurved) as [R1 [R2 [R3 [R4 R5]]]].
  assert (EB : ship_box RArith SCurved = [(-10, 10); (-10, 10)]) by apply ship_ranges.
  assert (HO : on_box (i_init_gp_ratio (ship_ini RArith SCurved)) (least SCurved) (/ 5) [(-10, 10); (-10, 10)] u).
  { unfold u, ship_user. rewrite EB. unfold model_user. rewrite R1, R2. apply ob_curved. }
  destruct (C79_run _ _ _ _ _ HO) with (n := 4%nat) (D := D) (B := 1) (LM := 25%nat) as [delta [K [D1 [K0 KK]]]]; [intros p [<-|[<-|[]]]; cbn; lra|cbn; lra|exact R3|lra|].
  exists K. split; auto. intros ls tss HT time S E G0 h Gf HH box.
  pose proof (launch_legal _ RandOK_R _ _ HD SCurved ls tss HT time S E) as HL.
  pose proof (C66_fixed_ladder _ RandOK_R _ _ HD SCurved ls tss HT (or_introl eq_refl) time S E D G0 h Gf HH) as LF.
  rewrite launch_eq in E by exact HD.
  assert (E' : exists env, S = mkSetup (ini_cfg (ship_ini RArith SCurved)) u 4 env 2) by (unfold u; eexists; injection E as E; symmetry; exact E).
  destruct E' as [env E'].
  assert (EF : file_ladder RArith SCurved = [3 / 100; 1 / 10; 3 / 10; 1]).
  { unfold file_ladder, nlit. cbn [ndiv nof RArith num]. change (10 ^ 2)%Z with 100%Z. change (10 ^ 1)%Z with 10%Z.
    repeat (apply (f_equal2 (@cons R)); [lra|]). reflexivity. }
  assert (EL : forall s, In s h -> l_beta (loc_at (sr_in s) 0) = [3 / 100; 1 / 10; 3 / 10; 1]).
  { intros s Hs. rewrite <- EF. apply LF; [|lia]. right; apply in_or_app; left; apply in_concat; exists (sstates s); split; [apply in_map; auto|left; auto]. }
  destruct (KK S HL) with (G0 := G0) (h := h) (Gf := Gf) as [h1 [s [h2 [bl1 [bl2 [wss [SP [F [_ [_ Q]]]]]]]]]]; try (subst S; cbn; lia || lra); try (subst S; reflexivity).
  all: try (subst S; exact R5).
  all: try (subst S; match goal with |- _ * _ <= _ => change (least SCurved * i_sigma_jumpin_ratio (ship_ini RArith SCurved) <= / 5); rewrite R4; cbn; lra end).
  - exact HH.
  - intros s Hs b Hb. rewrite (EL s Hs) in Hb. destruct Hb as [<-|[<-|[<-|[<-|[]]]]]; rewrite Rabs_pos_eq; lra.
  - exists h1, s, h2, bl1, bl2, wss. split; [exact SP|]. split; [exact F|]. 
    assert (Hs : In s h) by (destruct SP as [-> _]; apply in_or_app; right; left; auto).
    split; [apply EL; auto|]. intros Ls phis T os. split.
    { destruct SP as [_ [_ [_ [HT' _]]]]. subst S. exact HT'. }
    intros g lo hi NG RG X HX m. destruct (Q 3%nat ltac:(lia)) as [_ Q3]. specialize (Q3 g lo hi NG RG X HX). cbv zeta in Q3.
    rewrite (EL s Hs) in Q3. cbn [nth] in Q3.
    assert (WB : wide box) by (apply List.Forall_forall; intros p [<-|[<-|[]]]; cbn; lra).
    assert (EM : bint box (fun x => exp (logpost_at u D x 1) * g x) / bint box (fun x => exp (logpost_at u D x 1)) = m).
    { unfold m. apply f_equal2; (apply bint_eqb; [exact WB|]); intros x _; unfold u, ship_user, model_user; rewrite curved_post; reflexivity. }
    rewrite <- EM. unfold Ls. rewrite (EL s Hs). replace (s_user S) with u by (subst S; reflexivity). exact Q3.
Qed.
Print Assumptions C79_curved.

(** ** rastrigin *)

(** The shipped rastrigin model is not covered: near its origin the logarithm has no lower bound, whatever the ranges of the five parameters are,
    as long as 0 is inside them, and at every beta > 0. *)
Theorem C79_rastrigin_refuted : forall ra rb rc rd rf gp s1 s2 D beta, 0 < beta ->
  (forall p, In p [ra; rb; rc; rd; rf] -> fst p < 0 < snd p) ->
  forall M, exists x, inside [ra; rb; rc; rd; rf] x /\ logpost_at (@ras_user RArith ra rb rc rd rf gp s1 s2) D x beta < - M.
Proof.
  intros ra rb rc rd rf gp s1 s2 D beta Hb HR M.
  set (c := @ras_log_prior RArith ra rb rc rd rf []). set (k := 2 * @PI15 RArith : R).
  set (w := 1 + 5 * (k * k)). assert (Hw : 0 < w) by (unfold w; nra).
  set (q := exp ((- M - c - 1) / beta)). assert (Hq : 0 < q) by apply exp_pos.
  set (e := Rmin (Rmin 1 (snd ra / 2)) (q / w)). pose proof (HR ra (or_introl eq_refl)) as Ha.
  assert (He : 0 < e) by (unfold e; repeat apply Rmin_glb_lt; try lra; apply Rdiv_lt_0_compat; auto).
  assert (E1 : e <= 1) by (unfold e; eapply Rle_trans; [apply Rmin_l|apply Rmin_l]).
  assert (E2 : e <= snd ra / 2) by (unfold e; eapply Rle_trans; [apply Rmin_l|apply Rmin_r]).
  assert (E3 : e * w <= q). 
  { assert (e <= q / w) by (unfold e; apply Rmin_r). apply Rle_trans with (q / w * w); [apply Rmult_le_compat_r; lra|]. right. field. lra. }
  exists [e; 0; 0; 0; 0]. split.
  { pose proof (HR rb ltac:(cbn; auto)). pose proof (HR rc ltac:(cbn; auto)). pose proof (HR rd ltac:(cbn; auto)). pose proof (HR rf ltac:(cbn; auto 6)).
    repeat constructor; cbn; lra. }
  assert (EL : logpost_at (@ras_user RArith ra rb rc rd rf gp s1 s2) D [e; 0; 0; 0; 0] beta = ln (e * e - 10 * cos (k * e) + 10) * beta + c :> R).
  { change (logpost_at (@ras_user RArith ra rb rc rd rf gp s1 s2) D [e; 0; 0; 0; 0] beta) with (@ras_value RArith e 0 0 0 0 * beta + c).
    change (@ras_value RArith e 0 0 0 0) with (ln (@sq RArith e - 10 * cos (k * e) + @sq RArith 0 - 10 * cos (k * 0) + @sq RArith 0 - 10 * cos (k * 0) + @sq RArith 0 - 10 * cos (k * 0) + @sq RArith 0 - 10 * cos (k * 0) + 50)).
    rewrite !sqR, !Rmult_0_r, cos_0. f_equal. f_equal. f_equal. ring. }
  rewrite EL. clear EL.
  assert (C1 : 1 - cos (k * e) <= (k * e) * (k * e) / 2).
  { replace (k * e) with (2 * (k * e / 2)) by field. rewrite cos_2a_sin. set (t := k * e / 2).
    assert (S1 : Rsqr (sin t) <= Rsqr t).
    { apply Rsqr_le_abs_1. destruct (Rle_dec 0 t) as [P|P].
      - destruct P as [P|P]; [|rewrite <- P, sin_0; lra]. rewrite (Rabs_pos_eq t) by lra. apply Rabs_le. split; [|left; apply sin_lt_x; auto].
        destruct (Rle_dec t 1) as [Q|Q]; [|pose proof (SIN_bound t); lra]. pose proof (sin_ge_0 t ltac:(lra) ltac:(pose proof PI2_1; lra)). lra.
      - rewrite <- (Rabs_Ropp (sin t)), <- (Rabs_Ropp t), <- sin_neg. set (v := - t). assert (0 < v) by (unfold v; lra). rewrite (Rabs_pos_eq v) by lra.
        apply Rabs_le. split; [|left; apply sin_lt_x; auto].
        destruct (Rle_dec v 1) as [Q|Q]; [|pose proof (SIN_bound v); lra]. pose proof (sin_ge_0 v ltac:(lra) ltac:(pose proof PI2_1; lra)). lra. }
    unfold Rsqr in S1. nra. }
  assert (P0 : 0 < e * e - 10 * cos (k * e) + 10) by (pose proof (COS_bound (k * e)); nra).
  assert (P1 : e * e - 10 * cos (k * e) + 10 <= q).
  { apply Rle_trans with (e * e * w); [unfold w; nra|]. apply Rle_trans with (e * w); [|exact E3]. apply Rmult_le_compat_r; [lra|]. nra. }
  assert (P2 : ln (e * e - 10 * cos (k * e) + 10) <= (- M - c - 1) / beta).
  { rewrite <- (ln_exp ((- M - c - 1) / beta)). fold q. destruct P1 as [P1|P1]; [left; apply ln_increasing; auto|right; rewrite P1; reflexivity]. }
  apply Rle_lt_trans with ((- M - c - 1) / beta * beta + c); [apply Rplus_le_compat_r, Rmult_le_compat_r; lra|].
  unfold Rdiv. rewrite Rmult_assoc, Rinv_l by lra. lra.
Qed.
Print Assumptions C79_rastrigin_refuted.


(** cases: the shipped curved_likelihood input with a data file of two lines has runs, and the ranges of the shipped rastrigin inputs have 0 inside *)
Example C79_case : forall time, Decimals (A := RArith) dec_lf dec_atof /\ two_columns (A := RArith) dec_atof two_lines two_tokens /\
  exists S, launch (A := RArith) dec_lf dec_atof SCurved (ship_file SCurved) (unlines two_lines) 4 time = OK S /\
  exists D G0 h Gf, history S D G0 h Gf.
Proof.
  intros time. destruct (C66_case RArith SCurved time RandOK_R) as [H1 [H2 [S [H3 [_ H4]]]]]. split; [exact H1|]. split; [exact H2|].
  exists S. split; [exact H3|exact H4].
Qed.
Example C79_case_rastrigin : forall p, In p (ship_box RArith SRas4) -> fst p < 0 < snd p.
Proof. intros p Hp. rewrite ship_ranges in Hp. cbn [ranges repeat In] in Hp. repeat (destruct Hp as [<-|Hp]; [cbn; lra|]). destruct Hp. Qed.
(** the conditions of C79_run with tuning: the shipped regression input that ends its tuning of the widths when it begins to save and keeps its ladder *)
Example C79_case_tuned : let S := with_cfg demoR (set_ladder (set_tune (s_cfg demoR) 20000 100000 100000) 0) in
  Legal S /\ (exists gp s1 s2 box, on_box gp s1 s2 box (s_user S) /\ (forall p, In p box -> fst p < snd p) /\ 0 < s1 /\ s1 <= gp <= s2 /\
    N_parm (s_cfg S) = Z.of_nat (List.length box) /\ 1 <= sigma_jumpin_ratio (s_cfg S) /\ 1 <= sigma_scale_half_ratio (s_cfg S) /\ s1 * sigma_jumpin_ratio (s_cfg S) <= s2) /\
  (N_begintune (s_cfg S) < N_stoptune (s_cfg S) <= i_save_begin (s_cfg S))%Z /\ (i_save_begin (s_cfg S) <= N_iter (s_cfg S))%Z /\
  exists D G0 h Gf, history S D G0 h Gf /\ forall s, In s h -> forall b : R, In b (l_beta (loc_at (sr_in s) 0)) -> Rabs b <= 1.
Proof.
  intros S.
  assert (HL : Legal S).
  { destruct demoR_legal as [RK [V [VU VE]]]. split; [exact RK|]. split; [|split].
    - destruct V. constructor; try assumption; cbn; try lia.
    - destruct VU as [[? ? ?] ? ?]. constructor; [constructor|..]; assumption.
    - exact VE. }
  split; [exact HL|]. split.
  { exists (@nlit RArith 1 1), (@nlit RArith 5 10), (@nlit RArith 2 1), [demo_ra RArith; demo_rb RArith; demo_rd RArith].
    split; [apply ob_reg; cbn; lra|]. split; [intros p [<-|[<-|[<-|[]]]]; cbn; lra|]. split; [cbn; lra|]. split; [cbn; lra|]. split; [reflexivity|].
    split; [cbn; lra|]. split; cbn; lra. }
  split; [cbn; lia|]. split; [cbn; lia|].
  destruct (history_exists S HL) as [D [G0 [h [Gf HH]]]]. exists D, G0, h, Gf. split; [exact HH|]. intros s Hs b Hb.
  assert (HT : (Tune_Ladder (s_cfg S) <= 0)%Z) by (cbn; lia).
  rewrite (C30_off _ S HL HT D G0 h Gf HH (sr_in s)) in Hb; [|right; apply in_or_app; left; apply in_concat; exists (sstates s); split; [apply in_map; auto|left; auto]|cbn; lia].
  cbn in Hb. destruct Hb as [<-|[<-|[<-|[<-|[]]]]]; rewrite Rabs_pos_eq; lra.
Qed.
