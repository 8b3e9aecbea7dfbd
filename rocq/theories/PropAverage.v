(** C75: averages over the rows of a chain converge to posterior means. *)
From Coq Require Import ZArith List Bool Reals Lia Lra.
From Coquelicot Require Import Coquelicot.
From Verif Require Import Base Arith Rand Mh Ladder Tune Mpi Prog Seq MhSpec UserModels Boundary BounceDensity SwapReal SeqTotal System Runs History RunHist
  Views HistCount HistRows CountLemmas SwapLemmas SwapMore Nice Invariance Tempering Converge PropCount PropSwap PropInvar PropTemper PropConverge.
From Verif Require Import Average.
Import ListNotations.
Open Scope R_scope.

(** the constant, for a lower bound e of the densities of all steps *)
Definition avg_const (box : list (R * R)) (Ls : list (list R -> R)) (LM : nat) (e : R) : R := 1 + 2 * (INR LM + INR LM / gap box Ls e).
Lemma average_low : forall (box : list (R * R)) (Ls : list (list R -> R)) (phis : list (list (R -> R))) (LM : nat),
  (forall p, In p box -> fst p < snd p) -> (forall L, In L Ls -> nice (boxD box) L) -> length phis = length Ls ->
  (forall ps, In ps phis -> good_steps box ps) -> forall e, 0 < e -> steps_low box Ls phis e ->
  forall r, (r < length Ls)%nat ->
  forall bs, (forall b, In b bs -> sampler_batch (length Ls) b /\ (rows r b <= LM)%nat) ->
  forall (g : list R -> R) lo hi, nice (boxD box) g -> (forall y, inside box y -> lo <= g y <= hi) ->
  forall X, inD (stD box (length Ls)) X ->
  let os := concat bs in let T := INR (rows r os) in
  let m := bint box (fun x => exp (nth r Ls nol x) * g x) / bint box (fun x => exp (nth r Ls nol x)) in
  0 < T -> paths box Ls phis os (fun p => (rowsum r g os p / T - m) ^ 2) X <= avg_const box Ls LM e * (hi - lo) ^ 2 / T.
Proof.
  intros box Ls phis LM HW HN HP HE e He LOW.
  assert (W : wide box) by (apply List.Forall_forall; intros p Hp; left; apply HW; auto).
  assert (V : 0 < vol box).
  { clear - HW. induction box as [|[lo hi] b IH]; cbn; [lra|]. pose proof (HW (lo, hi) (or_introl eq_refl)) as K. cbn in K.
    apply Rmult_lt_0_compat; [lra|]. apply IH. intros p Hp. apply HW. right; auto. }
  assert (NL : List.Forall (nice (boxD box)) Ls) by (apply List.Forall_forall; auto).
  assert (EP : List.Forall (fun ps => List.Forall even_density ps /\ length ps = length box /\ bint (widths box) (dens ps) <> 0) phis).
  { apply List.Forall_forall. intros ps Hps. apply good_mass; auto. }
  assert (PP : forall ps, In ps phis -> forall phi, In phi ps -> forall s, 0 < phi s).
  { intros ps Hps phi Hp. destruct (HE ps Hps) as [_ K]. apply (K phi Hp). }
  set (q := Rmax 0 (1 - e ^ length Ls * total box Ls)).
  assert (Q01 : 0 <= q < 1).
  { split; [apply Rmax_l|]. assert (T : 0 < total box Ls) by (unfold total; rewrite (nint_c box W), Rmult_1_r; apply pow_lt; auto).
    assert (0 < e ^ length Ls * total box Ls) by (apply Rmult_lt_0_compat; auto; apply pow_lt; auto). apply Rmax_lub_lt; lra. }
  assert (QB : forall b, is_batch Ls b -> forall t h, nice (stD box (length Ls)) h -> ranged box Ls t h -> ranged box Ls (q * t) (means box Ls phis b h)).
  { intros b [len [rest [-> HR]]] t h N [lo [hi [A [B C]]]].
    destruct (batch_contract box W Ls phis NL HP EP PP e He LOW len rest h lo hi HR N C) as [lo' [hi' [_ [_ [D E]]]]].
    exists lo', hi'. destruct (st_inh box W Ls) as [X0 HX0]. split; [specialize (E X0 HX0); lra|]. split; auto. rewrite D.
    apply Rle_trans with (q * (hi - lo)); [apply Rmult_le_compat_r; [lra|apply Rmax_r]|apply Rmult_le_compat_l; lra]. }
  intros r Hr bs HB g lo hi NG RG X HX os T m HT.
  assert (NJ := nice_joint box Ls NL).
  set (z := nint box (length Ls - 1) (joint (del r Ls))). set (B := bint box (fun x => exp (nth r Ls nol x))) in *. set (A := bint box (fun x => exp (nth r Ls nol x) * g x)) in *.
  assert (NLr : nice (boxD box) (nth r Ls nol)) by (apply nice_L; auto).
  assert (B0 : 0 < B).
  { destruct (joint_low box [nth r Ls nol]) as [c [C1 C2]]; [constructor; [auto|constructor]|].
    apply Rlt_le_trans with (bint box (fun _ => c)); [rewrite bint_c by auto; apply Rmult_lt_0_compat; auto|].
    unfold B. apply bint_mono; [auto|apply nice_const|apply nice_exp; auto|]. intros x Hx. specialize (C2 [x]). cbn in C2. rewrite Rmult_1_r in C2. apply C2. repeat constructor; auto. }
  assert (MR : lo <= m <= hi).
  { assert (M1 : lo * B <= A).
    { unfold A, B. rewrite <- bint_scal by (auto; apply nice_exp; auto). apply bint_mono; [auto|apply nice_mult; [apply nice_const|apply nice_exp; auto]|apply nice_mult; auto; apply nice_exp; auto|].
      intros x Hx. rewrite Rmult_comm. apply Rmult_le_compat_l; [left; apply exp_pos|apply RG; auto]. }
    assert (M2 : A <= hi * B).
    { unfold A, B. rewrite <- bint_scal by (auto; apply nice_exp; auto). apply bint_mono; [auto|apply nice_mult; auto; apply nice_exp; auto|apply nice_mult; [apply nice_const|apply nice_exp; auto]|].
      intros x Hx. rewrite (Rmult_comm hi). apply Rmult_le_compat_l; [left; apply exp_pos|apply RG; auto]. }
    unfold m. split; (apply Rmult_le_reg_r with B; auto; unfold Rdiv; rewrite Rmult_assoc, Rinv_l, Rmult_1_r by lra; auto). }
  set (t := / T). assert (Ht : 0 < t) by (apply Rinv_0_lt_compat; auto).
  set (g' := fun x => (g x - m) * t). set (s := (hi - lo) * t).
  assert (NG' : nice (boxD box) g') by (apply nice_mult; [apply nice_minus; auto; apply nice_const|apply nice_const]).
  assert (SR : smooth (stD box (length Ls)) (boxD box) (fun X => nth r X [])) by (apply smooth_row; auto).
  assert (S0 : 0 <= s) by (apply Rmult_le_pos; lra).
  assert (GC : pmean box Ls (fun Y => g' (nth r Y [])) = 0).
  { unfold pmean. refine (eq_trans (one_rank box W Ls phis NL HP r g' Hr NG') _).
    assert (E : bint box (fun x => exp (nth r Ls nol x) * g' x) = t * (A + - m * B)).
    { unfold A, B. rewrite <- (bint_scal box (- m)) by (auto; apply nice_exp; auto). rewrite <- bint_plus; auto.
      - rewrite <- bint_scal; auto.
        + apply bint_eqb; auto. intros x _. unfold g'. ring.
        + apply nice_plus; [apply nice_mult; auto; apply nice_exp; auto|apply nice_mult; [apply nice_const|apply nice_exp; auto]].
      - apply nice_mult; auto; apply nice_exp; auto.
      - apply nice_mult; [apply nice_const|apply nice_exp; auto]. }
    rewrite E. unfold m. field. lra. }
  assert (GR : ranged box Ls s (fun Y => g' (nth r Y []))).
  { exists ((lo - m) * t), ((hi - m) * t). split; [apply Rmult_le_compat_r; lra|]. split; [unfold s; right; ring|].
    intros Y HY. pose proof (RG (nth r Y []) (proj1 SR Y HY)) as G. unfold g'. split; apply Rmult_le_compat_r; lra. }
  assert (SM : List.Forall (small Ls r LM) bs).
  { apply List.Forall_forall. intros b Hb. destruct (HB b Hb) as [[len [rest [E H]]] HR]. split; auto. exists len, rest. split; [exact E|]. apply List.Forall_forall. exact H. }
  pose proof (square_le box W Ls phis NL HP EP PP r Hr g' NG' V s S0 GC GR LM q Q01 QB bs SM X HX) as F. fold os T in F.
  rewrite (paths_len box Ls phis HP os (fun p => (rowsum r g os p / T - m) ^ 2) (fun p => rowsum r g' os p * rowsum r g' os p)).
  - eapply Rle_trans; [exact F|]. unfold Average.K, U, s, t, avg_const, gap. fold q. replace (1 - q) with (1 - q) by ring. right. field. split; lra.
  - intros p Hp. unfold g'. rewrite (rowsum_aff Ls phis HP) by auto. fold T. unfold t. field. lra.
Qed.

(** [paths os F X] is the mean of F over the states after each of the operations os, started at X; [rowsum r g os] adds g of the row of
    rank r after each of its steps, which are the rows appended to its chain file, [rows r os] counts them.

    The mean square of the difference between the average of g over the rows of a rank and the mean of g under the posterior of the rank
    is at most K (range of g)^2 / (number of rows).  K depends only on the box, the posteriors, the densities of the steps and the
    largest number LM of rows in a batch: not on g, the rank, the start or the number of batches. *)
Theorem C75_average : forall (box : list (R * R)) (Ls : list (list R -> R)) (phis : list (list (R -> R))) (LM : nat),
  (forall p, In p box -> fst p < snd p) -> (forall L, In L Ls -> nice (boxD box) L) -> length phis = length Ls ->
  (forall ps, In ps phis -> good_steps box ps) ->
  exists K, 0 <= K /\ forall r, (r < length Ls)%nat ->
  forall bs, (forall b, In b bs -> sampler_batch (length Ls) b /\ (rows r b <= LM)%nat) ->
  forall (g : list R -> R) lo hi, nice (boxD box) g -> (forall y, inside box y -> lo <= g y <= hi) ->
  forall X, inD (stD box (length Ls)) X ->
  let os := concat bs in let T := INR (rows r os) in
  let m := bint box (fun x => exp (nth r Ls nol x) * g x) / bint box (fun x => exp (nth r Ls nol x)) in
  0 < T -> paths box Ls phis os (fun p => (rowsum r g os p / T - m) ^ 2) X <= K * (hi - lo) ^ 2 / T.
Proof.
  intros box Ls phis LM HW HN HP HE.
  assert (W : wide box) by (apply List.Forall_forall; intros p Hp; left; apply HW; auto).
  assert (V : 0 < vol box).
  { clear - HW. induction box as [|[lo hi] b IH]; cbn; [lra|]. pose proof (HW (lo, hi) (or_introl eq_refl)) as K. cbn in K.
    apply Rmult_lt_0_compat; [lra|]. apply IH. intros p Hp. apply HW. right; auto. }
  assert (NL : List.Forall (nice (boxD box)) Ls) by (apply List.Forall_forall; auto).
  assert (EP : List.Forall (fun ps => List.Forall even_density ps /\ length ps = length box /\ bint (widths box) (dens ps) <> 0) phis).
  { apply List.Forall_forall. intros ps Hps. apply good_mass; auto. }
  assert (PP : forall ps, In ps phis -> forall phi, In phi ps -> forall s, 0 < phi s).
  { intros ps Hps phi Hp. destruct (HE ps Hps) as [_ K]. apply (K phi Hp). }
  destruct (all_low box W Ls phis NL HP EP PP (length Ls) (Nat.le_refl _)) as [e [He LOW]].
  exists (avg_const box Ls LM e). split.
  { unfold avg_const. pose proof (gap_in box W Ls V e He) as G. pose proof (pos_INR LM). assert (0 <= INR LM / gap box Ls e) by (apply Rmult_le_pos; auto; left; apply Rinv_0_lt_compat; lra). lra. }
  apply average_low; auto.
Qed.
Print Assumptions C75_average.

(** For the runs of the program: any rank, any legal setup with the given user model, number of ranks, ladder and data, with batches of at
    most LM iterations and swap mode 0 or 1, however many iterations; ladder and widths kept. *)
Theorem C75_run : forall (u : User RArith) n betas D box phis LM,
  let Ls : list (list R -> R) := map (fun (beta : R) (x : list R) => logpost_at u D x beta) betas in
  (forall p, In p box -> fst p < snd p) -> (forall L, In L Ls -> nice (boxD box) L) -> length phis = n ->
  (forall ps, In ps phis -> good_steps box ps) ->
  exists K, 0 <= K /\ forall S : Setup RArith, Legal S -> (Swapmode (s_cfg S) = 0 \/ Swapmode (s_cfg S) = 1)%Z ->
  s_user S = u -> s_n S = n -> firstn n (Beta_Values (s_cfg S)) = betas ->
  (n_iter_a_batch_base (s_cfg S) + n_iter_a_batch_rand (s_cfg S) <= Z.of_nat LM)%Z -> (0 < N_iter (s_cfg S))%Z ->
  forall G0 h Gf, history S D G0 h Gf -> exists wss,
    Forall2 (attempts_of S D) (hbatches h) wss /\
    let os := concat (map (fun bw => batch_ops n (fst bw) (snd bw)) (combine (hbatches h) wss)) in
    forall r, (r < n)%nat -> rows r os = Z.to_nat (N_iter (s_cfg S)) /\
    forall (g : list R -> R) lo hi, nice (boxD box) g -> (forall y, inside box y -> lo <= g y <= hi) ->
    forall X, inD (stD box n) X ->
    let m := bint box (fun x => exp (nth r Ls nol x) * g x) / bint box (fun x => exp (nth r Ls nol x)) in
    paths box Ls phis os (fun p => (rowsum r g os p / IZR (N_iter (s_cfg S)) - m) ^ 2) X <= K * (hi - lo) ^ 2 / IZR (N_iter (s_cfg S)).
Proof.
  intros u n betas D box phis LM Ls HW HN HP HE.
  destruct (Nat.eq_dec (length betas) n) as [LB|LB].
  2:{ exists 0. split; [lra|]. intros S HL HM EU En EB. exfalso. apply LB. rewrite <- EB, firstn_length.
      destruct HL as [_ [VC _]]. pose proof (vc_betas _ _ VC). lia. }
  assert (LL : length Ls = n) by (unfold Ls; rewrite map_length; auto).
  clearbody Ls. destruct (C75_average box Ls phis LM HW HN) as [K [K0 KK]]; [congruence|auto|]. rewrite LL in KK. clear LB.
  exists K. split; auto. intros S HL HM EU En EB HLM HNI G0 h Gf HH.
  pose proof (C25_partners _ S HL D G0 h Gf HH) as CP.
  assert (EX : exists wss, Forall2 (attempts_of S D) (hbatches h) wss /\
     List.Forall (List.Forall (fun w : swrec RArith => (sw_i w < s_n S)%nat /\ (sw_j w < s_n S)%nat /\ sw_i w <> sw_j w)) wss).
  { induction (hbatches h) as [|b bs IH]; [exists []; split; constructor|].
    destruct IH as [wss [F1 F2]]; [intros b' Hb'; apply CP; right; auto|].
    destruct (CP b (or_introl eq_refl)) as [ws [A1 A2]]. exists (ws :: wss). split; constructor; auto.
    apply List.Forall_forall. intros w Hw. rewrite List.Forall_forall in A2. destruct (A2 w Hw) as [B1 [B2 [B3 [B4 _]]]].
    split; [lia|]. split; [auto|]. destruct HM as [M|M]; [rewrite (B3 M); lia|intros E; apply (B4 M); auto]. }
  destruct EX as [wss [F1 F2]]. exists wss. split; [exact F1|]. intros os r Hr. rewrite En in F2.
  destruct (C17_lengths _ S HL D G0 h Gf HH) as [SN FL].
  assert (BL : List.Forall (fun b : brec (A := RArith) => (1 <= br_len b <= n_iter_a_batch_base (s_cfg S) + n_iter_a_batch_rand (s_cfg S))%Z) (hbatches h)).
  { unfold hbatches. apply List.Forall_concat. apply List.Forall_forall. intros l Hl. apply in_map_iff in Hl. destruct Hl as [s [<- Hs]].
    rewrite List.Forall_forall in FL. apply (FL s Hs). }
  assert (ZS : zsum (map br_len (hbatches h)) = N_iter (s_cfg S)).
  { rewrite <- SN. clear - FL. unfold hbatches. induction h as [|s h IH]; cbn [map concat zsum]; [reflexivity|].
    inversion FL as [|? ? F1 F2]; subst.
    assert (ZA : forall a b, zsum (a ++ b) = (zsum a + zsum b)%Z) by (induction a as [|x a IHa]; intros b; cbn [app zsum]; [lia|rewrite IHa; lia]).
    rewrite map_app, ZA. destruct F1 as [_ [_ [Z1 _]]]. rewrite Z1. f_equal. apply IH; auto. }
  assert (RA : forall a b, rows r (a ++ b) = (rows r a + rows r b)%nat) by (intros; unfold rows; rewrite filter_app, app_length; auto).
  assert (RR : forall i k, rows r (repeat (Move i) k) = if Nat.eqb i r then k else 0%nat).
  { intros i k. unfold rows. induction k as [|k IH]; cbn; [destruct (Nat.eqb i r); auto|]. destruct (Nat.eqb i r); cbn; auto. }
  assert (RS : forall k m a, rows r (concat (map (fun i => repeat (Move i) k) (seq a m))) = if (Nat.leb a r && Nat.ltb r (a + m))%bool then k else 0%nat).
  { intros k. induction m as [|m IH]; intros a; cbn [seq map concat].
    - destruct (Nat.leb_spec a r); destruct (Nat.ltb_spec r (a + 0)); cbn; auto; lia.
    - rewrite RA, RR, IH. destruct (Nat.eqb_spec a r); destruct (Nat.leb_spec a r); destruct (Nat.leb_spec (Datatypes.S a) r); destruct (Nat.ltb_spec r (Datatypes.S a + m)); destruct (Nat.ltb_spec r (a + Datatypes.S m)); cbn; lia. }
  assert (RB : forall (b : brec (A := RArith)) ws, rows r (batch_ops n b ws) = Z.to_nat (br_len b)).
  { intros b ws. unfold batch_ops. rewrite RA, RS. destruct (Nat.leb_spec 0 r); destruct (Nat.ltb_spec r (0 + n)); cbn [andb]; try lia.
    enough (Z : rows r (map (fun w : swrec RArith => Swap (sw_i w) (sw_j w)) ws) = 0%nat) by lia. unfold rows. induction ws as [|w ws IH]; cbn; auto. }
  assert (RT : rows r os = Z.to_nat (N_iter (s_cfg S))).
  { unfold os. rewrite <- ZS. clear - F1 BL RA RB. revert wss F1. induction BL as [|b bs Hb HBs IH]; intros wss F1; inversion F1 as [|? ws ? wss' A1 A2]; subst; [reflexivity|].
    cbn [combine map concat fst snd zsum]. rewrite RA, RB, (IH _ A2).
    assert (0 <= zsum (map br_len bs))%Z by (clear - HBs; induction HBs; cbn [map zsum]; lia). lia. }
  split; [exact RT|]. intros g lo hi NG RG X HX m.
  assert (ET : INR (rows r os) = IZR (N_iter (s_cfg S))) by (rewrite RT, INR_IZR_INZ, Z2Nat.id by lia; reflexivity).
  rewrite <- ET. apply KK; auto; [|unfold os in *; rewrite ET; apply IZR_lt; lia].
  intros os' Ho. apply in_map_iff in Ho. destruct Ho as [[b ws] [<- Hb]]. cbn [fst snd].
  pose proof (in_combine_l _ _ _ _ Hb) as Hb1. pose proof (in_combine_r _ _ _ _ Hb) as Hb2.
  rewrite List.Forall_forall in BL. specialize (BL b Hb1). rewrite List.Forall_forall in F2. specialize (F2 ws Hb2).
  split; [|rewrite RB; lia].
  exists (Z.to_nat (br_len b) - 1)%nat, (map (fun w => Swap (sw_i w) (sw_j w)) ws). split.
  - unfold batch_ops. replace (Datatypes.S (Z.to_nat (br_len b) - 1)) with (Z.to_nat (br_len b)) by lia. reflexivity.
  - intros o Ho. apply in_map_iff in Ho. destruct Ho as [w [<- Hw]]. rewrite List.Forall_forall in F2. apply (F2 w Hw).
Qed.
Print Assumptions C75_run.

(** a case: three ranks of the shipped eggbox model with normal steps, two steps of each rank and a swap in each batch *)
Example C75_case : forall D,
  let box := [(0, 10); (0, 31)] in let L beta x := logpost_at (@egg_user RArith (0, 10) (0, 31) 1 1 1) D x beta in
  let Ls := [L 1; L (1/2); L (1/4)] in let phis := [[npdf 1; npdf 3]; [npdf 2; npdf 5]; [npdf 4; npdf 9]] in
  let b := [Move 0; Move 0; Move 1; Move 1; Move 2; Move 2; Swap 0 2] in
  exists K, 0 <= K /\ forall k, (0 < k)%nat -> let os := concat (repeat b k) in
    paths box Ls phis os (fun p => (rowsum 0 (fun x => nth 0 x 0) os p / INR (2 * k) -
        bint box (fun x => exp (L 1 x) * nth 0 x 0) / bint box (fun x => exp (L 1 x))) ^ 2) [[0; 0]; [5; 5]; [10; 31]] <= K * (10 - 0) ^ 2 / INR (2 * k).
Proof.
  intros D box L Ls phis b.
  assert (HW : forall p, In p box -> fst p < snd p) by (intros p [<-|[<-|[]]]; cbn; lra).
  assert (GS : forall a c, 0 < a -> 0 < c -> good_steps box [npdf a; npdf c]).
  { intros a c Ha Hc. split; [reflexivity|]. intros phi [<-|[<-|[]]]; apply npdf_ok; lra. }
  destruct (C75_average box Ls phis 2 HW) as [K [K0 KK]].
  - intros f [<-|[<-|[<-|[]]]]; apply egg_nice.
  - reflexivity.
  - intros ps [<-|[<-|[<-|[]]]]; apply GS; lra.
  - exists K. split; auto. intros k Hk os.
    assert (RK : rows 0 os = (2 * k)%nat).
    { unfold os. clear. induction k as [|k IH]; [reflexivity|]. cbn [repeat concat]. unfold rows in *. rewrite filter_app, app_length, IH. cbn. lia. }
    rewrite <- RK. apply (KK 0%nat ltac:(cbn; lia) (repeat b k)).
    + intros b' Hb. apply repeat_spec in Hb. subst b'. split; [|cbn; lia]. exists 1%nat, [Swap 0 2]. split; [reflexivity|intros o [<-|[]]; cbn; lia].
    + apply nice_nth.
    + intros y Hy. inversion Hy as [|? v ? t Hv _]; subst. exact Hv.
    + split; [reflexivity|]. repeat constructor; cbn; lra.
    + fold os. rewrite RK. apply lt_0_INR. lia.
Qed.
