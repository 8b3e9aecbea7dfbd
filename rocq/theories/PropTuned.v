(** C76: once the tuning is over the rest of the run converges, with constants that do not depend on how the tuning ended. *)
From Coq Require Import ZArith List Bool Reals Lia Lra.
From Coquelicot Require Import Coquelicot.
From Verif Require Import Base Arith Rand Mh Ladder Tune Mpi Prog Seq MhSpec SeqWf UserModels Boundary BounceDensity SwapReal SeqTotal System Demo Runs History RunHist FailRuns
  Views HistCount HistRows CountLemmas SwapLemmas SwapMore ChainInv Stale LadderRuns TuneRuns Metro Nice Invariance Tempering Converge Average
  PropCount PropMetro PropSwap PropLadder PropTune PropInvar PropTemper PropConverge PropAverage.
From Verif Require Import Uniform CacheTail.
Import ListNotations.
Open Scope R_scope.

(** neither the widths (mpi_flow.c:101) nor the ladder (mpi_stack.c:202) are adapted at the end of s or later *)
Definition settled {A} (S : Setup A) (s : srec (A := A)) : Prop :=
  (N_stoptune (s_cfg S) <= sr_end s /\ (Tune_Ladder (s_cfg S) <= 0 \/ N_stopTuneLadder (s_cfg S) <= sr_end s))%Z.

Lemma settled_ladder : forall A (S : Setup A), Legal S -> forall D G0 h Gf, history S D G0 h Gf ->
  forall h1 s h2, h = h1 ++ s :: h2 -> settled S s -> forall G, In G (states (sr_in s) (s :: h2) Gf) -> forall r, (r < s_n S)%nat ->
  l_beta (loc_at G r) = l_beta (loc_at (sr_in s) 0).
Proof.
  intros A S HL D G0 h Gf HH h1 s h2 Eh [_ [HT|HT]] G HG r Hr; [|exact (C30_stop A S HL D G0 h Gf HH h1 s h2 Eh HT G HG r Hr)].
  assert (K : forall G, In G (states (sr_in s) (s :: h2) Gf) -> In G (states G0 h Gf)).
  { intros G' HG'. right. destruct HG' as [<-|HG'].
    - apply in_or_app. left. apply in_concat. exists (sstates s). split; [apply in_map; rewrite Eh; apply in_or_app; right; left; auto|left; auto].
    - apply in_app_or in HG'. apply in_or_app. destruct HG' as [HG'|HG']; [left|right; auto]. rewrite Eh, map_app, concat_app. apply in_or_app. right; auto. }
  pose proof HL as [_ [VC _]]. pose proof (vc_n _ _ VC).
  rewrite (C30_off A S HL HT D G0 h Gf HH G (K G HG) r Hr).
  rewrite (C30_off A S HL HT D G0 h Gf HH (sr_in s) (K _ (or_introl eq_refl)) 0%nat); [reflexivity|lia].
Qed.

Lemma in_tail : forall A (s : srec (A := A)) h2 Gf t, In t (s :: h2) -> forall b, In b (sr_batches t) -> In (br_pre b) (states (sr_in s) (s :: h2) Gf).
Proof.
  intros A s h2 Gf t Ht b Hb. right. apply in_or_app. left. apply in_concat. exists (sstates t). split; [apply in_map; auto|].
  unfold sstates. right. right. apply in_or_app. left. apply in_concat. exists (bstates b). split; [apply in_map; auto|left; auto].
Qed.

(** Every batch from s on makes Metropolis steps with the widths and the ladder that s began with. *)
Theorem C76_frozen : forall S : Setup RArith, Legal S -> forall D G0 h Gf, history S D G0 h Gf ->
  forall h1 s h2, h = h1 ++ s :: h2 -> settled S s -> forall b, In b (hbatches (s :: h2)) -> forall r, (r < s_n S)%nat ->
  exists rows bs, length rows = length bs /\ Z.of_nat (length rows) = br_len b /\
    metro (s_user S) D (N_parm (s_cfg S)) (l_sig (loc_at (sr_pre s) r)) (nth r (l_beta (loc_at (sr_in s) 0)) 0)
      (l_g (loc_at (br_pre b) r)) (row_at (br_pre b) r) rows bs (l_g (loc_at (br_mid b) r)).
Proof.
  intros S HL D G0 h Gf HH h1 s h2 Eh HS b Hb r Hr.
  assert (Hb' := Hb). unfold hbatches in Hb'. apply in_concat in Hb'. destruct Hb' as [l [Hl Hbl]]. apply in_map_iff in Hl. destruct Hl as [t [<- Ht]].
  assert (Hbh : In b (hbatches h)) by (rewrite Eh; unfold hbatches in *; rewrite map_app, concat_app; apply in_or_app; right; auto).
  destruct (C12_runs S HL D G0 h Gf HH r Hr b Hbh) as [rows [bs [E1 [E2 E3]]]]. exists rows, bs. split; auto. split; auto.
  destruct (C31_after RArith S HL D G0 h Gf HH h1 s h2 Eh (proj1 HS)) as [_ K]. rewrite (K t Ht b Hbl r Hr) in E3.
  unfold beta_at in E3. rewrite (settled_ladder _ S HL D G0 h Gf HH h1 s h2 Eh HS (br_pre b) (in_tail _ s h2 Gf t Ht b Hbl) r Hr) in E3. exact E3.
Qed.
Print Assumptions C76_frozen.

(** From there on, once the cached log posterior of a rank is right, or as soon as the rank accepts a step, it is right in all that
    follows: after a ladder adaptation it can be wrong until then (C24_adapting_refuted). *)
Theorem C76_cached : forall A (S : Setup A), Legal S -> forall D G0 h Gf, history S D G0 h Gf ->
  forall h1 s h2, h = h1 ++ s :: h2 -> settled S s -> forall k1 t k2, s :: h2 = k1 ++ t :: k2 ->
  forall b1 b b2, sr_batches t = b1 ++ b :: b2 -> forall r, (r < s_n S)%nat ->
  (cached_at S D (br_pre b) r \/ exists rows bs, batch_walk S D r b rows bs /\ In true bs) ->
  cached_at S D (br_mid b) r /\ cached_at S D (br_post b) r /\
  (forall y, In y (b2 ++ hbatches k2) -> cached_at S D (br_pre y) r /\ cached_at S D (br_mid y) r /\ cached_at S D (br_post y) r) /\
  cached_at S D Gf r.
Proof.
  intros A S HL D G0 h Gf HH h1 s h2 Eh HS k1 t k2 Ek b1 b b2 Eb r Hr HC.
  assert (Ht : In t (s :: h2)) by (rewrite Ek; apply in_or_app; right; left; auto).
  assert (Hb : In b (sr_batches t)) by (rewrite Eb; apply in_or_app; right; left; auto).
  assert (Hth : In t h) by (rewrite Eh; apply in_or_app; right; auto).
  assert (Hbh : In b (hbatches h)) by (unfold hbatches; apply in_concat; exists (sr_batches t); split; [apply in_map; auto|auto]).
  assert (EX : exists rows bs, batch_walk S D r b rows bs /\ (cached_at S D (br_pre b) r \/ In true bs)).
  { destruct HC as [HC|[rows [bs [HW HT]]]]; [|exists rows, bs; auto].
    destruct (history_walks S HL _ _ _ _ HH r Hr) as [xs [W _]].
    assert (K : exists x, batch_walk S D r b (fst x) (snd x)).
    { clear - W Hbh. induction W as [|b' x bl xs Hw W IH]; [destruct Hbh|]. destruct Hbh as [->|Hbh]; [exists x; exact Hw|auto]. }
    destruct K as [[rows bs] K]. exists rows, bs. auto. }
  destruct EX as [rows [bs [[W [_ [EL _]]] HCC]]].
  assert (HM : cached_at S D (br_mid b) r).
  { pose proof (walk_cached A _ _ _ _ _ _ _ _ _ _ W HCC) as K. rewrite <- EL in K. unfold row_at in K. cbn [r_lp r_parm] in K.
    unfold cached_at. rewrite K. f_equal. unfold beta_at.
    assert (In (br_mid b) (states (sr_in s) (s :: h2) Gf)) as IM.
    { right. apply in_or_app. left. apply in_concat. exists (sstates t). split; [apply in_map; auto|].
      unfold sstates. right. right. apply in_or_app. left. apply in_concat. exists (bstates b). split; [apply in_map; auto|right; left; auto]. }
    rewrite (settled_ladder _ S HL D G0 h Gf HH h1 s h2 Eh HS _ (in_tail _ s h2 Gf t Ht b Hb) r Hr).
    rewrite (settled_ladder _ S HL D G0 h Gf HH h1 s h2 Eh HS _ IM r Hr). reflexivity. }
  split; [exact HM|].
  apply (tail_cached S HL D r Hr G0 h Gf HH (h1 ++ k1) t k2) with (b1 := b1); auto.
  - rewrite Eh, Ek, <- app_assoc. reflexivity.
  - intros u Hu. assert (Hu' : In u (s :: h2)) by (rewrite Ek; apply in_or_app; right; auto). unfold beta_at.
    assert (IS : forall G, In G (sstates u) -> In G (states (sr_in s) (s :: h2) Gf)).
    { intros G HG. right. apply in_or_app. left. apply in_concat. exists (sstates u). split; [apply in_map; auto|auto]. }
    assert (I1 : In (sr_in u) (sstates u)) by (left; auto).
    assert (I2 : In (sr_post u) (sstates u)) by (unfold sstates; right; right; apply in_or_app; right; cbn; auto).
    rewrite (settled_ladder _ S HL D G0 h Gf HH h1 s h2 Eh HS _ (IS _ I2) r Hr).
    rewrite (settled_ladder _ S HL D G0 h Gf HH h1 s h2 Eh HS _ (IS _ I1) r Hr). reflexivity.
Qed.
Print Assumptions C76_cached.

(** *** constants *)
Lemma npdf_in : forall smin d, 0 < smin -> 0 <= d -> forall sd, smin <= sd -> dens_in (npdf smin d) d (npdf sd).
Proof.
  intros smin d Hs Hd sd H. unfold npdf. split.
  - intros s. rewrite <- exp_0. assert (0 <= (s / sd) ^ 2) by (apply pow2_ge_0). 
    destruct (Rle_lt_or_eq_dec (- (s / sd) ^ 2 / 2) 0) as [Q|Q]; [lra|left; apply exp_increasing; auto|rewrite Q; lra].
  - intros s Hsd. assert (E : (s / sd) ^ 2 <= (d / smin) ^ 2).
    { rewrite <- (pow2_abs (s / sd)), <- (pow2_abs (d / smin)). apply pow_incr. split; [apply Rabs_pos|].
      unfold Rdiv. rewrite !Rabs_mult, !Rabs_inv, (Rabs_pos_eq d), (Rabs_pos_eq sd), (Rabs_pos_eq smin) by lra.
      apply Rmult_le_compat; [apply Rabs_pos|left; apply Rinv_0_lt_compat; lra|auto|apply Rinv_le_contravar; lra]. }
    destruct (Rle_lt_or_eq_dec (- (d / smin) ^ 2 / 2) (- (s / sd) ^ 2 / 2)) as [Q|Q]; [lra|left; apply exp_increasing; auto|rewrite Q; lra].
Qed.
Lemma maxw : forall box : list (R * R), exists d, 0 <= d /\ forall p, In p box -> snd p - fst p <= d.
Proof.
  induction box as [|p b [d [H1 H2]]]; [exists 0; split; [lra|intros p []]|]. exists (Rmax d (snd p - fst p)).
  split; [eapply Rle_trans; [exact H1|apply Rmax_l]|]. intros q [<-|Hq]; [apply Rmax_r|eapply Rle_trans; [apply H2; auto|apply Rmax_l]].
Qed.

(** what the bounds ask of the posteriors and the widths *)
Definition bounded_by (M : R) (box : list (R * R)) (Ls : list (list R -> R)) : Prop :=
  forall L, In L Ls -> nice (boxD box) L /\ forall x, inside box x -> Rabs (L x) <= M.
Definition wide_steps (smin : R) (box : list (R * R)) (sigs : list (list R)) : Prop :=
  forall sig, In sig sigs -> length sig = length box /\ forall sd, In sd sig -> smin <= sd.

(** The sampler converges at a rate that depends only on the box, the number n of ranks, the smallest width and the largest absolute log
    posterior; so do the constants of the averages, with the largest number LM of rows in a batch. *)
Theorem C76_uniform : forall (n : nat) (box : list (R * R)) (smin M : R) (LM : nat), (forall p, In p box -> fst p < snd p) -> 0 < smin ->
  exists delta K, 0 < delta <= 1 /\ 0 <= K /\
  forall Ls sigs, length Ls = n -> length sigs = n -> bounded_by M box Ls -> wide_steps smin box sigs ->
  let phis := map (map npdf) sigs in
  forall bs, (forall b, In b bs -> sampler_batch n b) ->
  (forall (g : list (list R) -> R) lo hi, nice (stD box n) g -> (forall Y, inD (stD box n) Y -> lo <= g Y <= hi) ->
   forall X, inD (stD box n) X ->
   Rabs (means box Ls phis (concat bs) g X - nint box n (fun Y => joint Ls Y * g Y) / nint box n (joint Ls)) <= (1 - delta) ^ length bs * (hi - lo)) /\
  forall r, (r < n)%nat -> (forall b, In b bs -> (rows r b <= LM)%nat) ->
   forall (g : list R -> R) lo hi, nice (boxD box) g -> (forall y, inside box y -> lo <= g y <= hi) ->
   forall X, inD (stD box n) X -> let T := INR (rows r (concat bs)) in
   let m := bint box (fun x => exp (nth r Ls nol x) * g x) / bint box (fun x => exp (nth r Ls nol x)) in
   0 < T -> paths box Ls phis (concat bs) (fun p => (rowsum r g (concat bs) p / T - m) ^ 2) X <= K * (hi - lo) ^ 2 / T.
Proof.
  intros n box smin M LM HW Hs. destruct (maxw box) as [d [D0 HD]]. set (c := npdf smin d).
  assert (Hc : 0 < c) by (apply npdf_ok; auto).
  assert (W : wide box) by (apply List.Forall_forall; intros p Hp; left; apply HW; auto).
  assert (V : 0 < vol box).
  { clear - HW. induction box as [|[lo hi] b IH]; cbn; [lra|]. pose proof (HW (lo, hi) (or_introl eq_refl)) as K. cbn in K.
    apply Rmult_lt_0_compat; [lra|]. apply IH. intros p Hp. apply HW. right; auto. }
  set (e := low box c M). assert (He : 0 < e) by (apply low_pos; auto).
  set (L0 := repeat nol n). assert (LL0 : length L0 = n) by apply repeat_length.
  assert (GE : forall Ls, length Ls = n -> gap box Ls e = gap box L0 e) by (intros Ls E; unfold gap, total; rewrite E, LL0; reflexivity).
  exists (gap box L0 e), (avg_const box L0 LM e). pose proof (gap_in box W L0 V e He) as G1. split; [exact G1|]. split.
  { unfold avg_const. pose proof (pos_INR LM). assert (0 <= INR LM / gap box L0 e) by (apply Rmult_le_pos; auto; left; apply Rinv_0_lt_compat; lra). lra. }
  intros Ls sigs LL LS HB HWS phis bs HBS.
  assert (LP : length phis = length Ls) by (unfold phis; rewrite map_length; congruence).
  assert (NL : List.Forall (nice (boxD box)) Ls) by (apply List.Forall_forall; intros L HL; apply (HB L HL)).
  assert (GS : forall ps, In ps phis -> good_steps box ps /\ List.Forall (dens_in c d) ps).
  { intros ps Hps. unfold phis in Hps. apply in_map_iff in Hps. destruct Hps as [sig [<- Hsig]]. destruct (HWS sig Hsig) as [S1 S2]. split.
    - split; [rewrite map_length; auto|]. intros phi Hphi. apply in_map_iff in Hphi. destruct Hphi as [sd [<- Hsd]]. apply npdf_ok. specialize (S2 sd Hsd). lra.
    - apply List.Forall_forall. intros phi Hphi. apply in_map_iff in Hphi. destruct Hphi as [sd [<- Hsd]]. apply npdf_in; auto. }
  assert (LOW : steps_low box Ls phis e).
  { apply (steps_low_u box W V c d M Hc HD Ls phis NL LP); [intros L HL; apply (HB L HL)|].
    intros ps Hps. destruct (GS ps Hps) as [P1 P2]. destruct (good_mass box ps HW P1) as [Q1 [Q2 _]]. split; auto. split; auto. intros phi Hphi. apply (proj2 P1 phi Hphi). }
  assert (EP : List.Forall (fun ps => List.Forall even_density ps /\ length ps = length box /\ bint (widths box) (dens ps) <> 0) phis).
  { apply List.Forall_forall. intros ps Hps. apply good_mass; auto. apply GS; auto. }
  assert (PP : forall ps, In ps phis -> forall phi, In phi ps -> forall s, 0 < phi s).
  { intros ps Hps phi Hphi. destruct (GS ps Hps) as [[_ P] _]. apply (P phi Hphi). }
  split.
  - intros g lo hi NG RG X HX. rewrite <- (GE Ls LL). clearbody phis L0. clear LL0 GE LS. subst n.
    apply (converge_low box W Ls phis NL LP EP PP V e He LOW); auto.
    apply List.Forall_forall. intros b Hb. destruct (HBS b Hb) as [len [rest [E H]]]. exists len, rest. split; [exact E|]. apply List.Forall_forall. exact H.
  - intros r Hr HR g lo hi NG RG X HX T m HT.
    replace (avg_const box L0 LM e) with (avg_const box Ls LM e) by (unfold avg_const; rewrite (GE Ls LL); reflexivity).
    clearbody phis L0. clear LL0 GE LS. subst n. apply (average_low box Ls phis LM HW); auto.
    + intros L HL. apply (HB L HL).
    + intros ps Hps. apply (GS ps Hps).
Qed.
Print Assumptions C76_uniform.

(** *** runs *)
Lemma zsum_app : forall a b, (zsum (a ++ b) = zsum a + zsum b)%Z.
Proof. induction a as [|x a IH]; intros b; cbn [app zsum]; [lia|rewrite IH; lia]. Qed.
Lemma sfollow_from : forall A h1 i (G : gst (A := A)) s h2 Gf, sfollow i G (h1 ++ s :: h2) Gf -> (sr_from s = i + zsum (map sr_len h1))%Z.
Proof.
  intros A. induction h1 as [|a h1 IH]; intros i G s h2 Gf H; cbn [app sfollow map zsum] in *.
  - destruct H as [E _]. lia.
  - destruct H as [_ [_ H]]. apply IH in H. lia.
Qed.
Lemma rows_app : forall r a b, rows r (a ++ b) = (rows r a + rows r b)%nat.
Proof. intros. unfold rows. rewrite filter_app, app_length. auto. Qed.
Lemma rows_batch : forall A n r (b : brec (A := A)) ws, (r < n)%nat -> rows r (batch_ops n b ws) = Z.to_nat (br_len b).
Proof.
  intros A n r b ws Hr.
  assert (RR : forall i k, rows r (repeat (Move i) k) = if Nat.eqb i r then k else 0%nat).
  { intros i k. unfold rows. induction k as [|k IH]; cbn; [destruct (Nat.eqb i r); auto|]. destruct (Nat.eqb i r); cbn; auto. }
  assert (RS : forall k m a, rows r (concat (map (fun i => repeat (Move i) k) (seq a m))) = if (Nat.leb a r && Nat.ltb r (a + m))%bool then k else 0%nat).
  { intros k. induction m as [|m IH]; intros a; cbn [seq map concat].
    - destruct (Nat.leb_spec a r); destruct (Nat.ltb_spec r (a + 0)); cbn; auto; lia.
    - rewrite rows_app, RR, IH. destruct (Nat.eqb_spec a r); destruct (Nat.leb_spec a r); destruct (Nat.leb_spec (Datatypes.S a) r); destruct (Nat.ltb_spec r (Datatypes.S a + m)); destruct (Nat.ltb_spec r (a + Datatypes.S m)); cbn; lia. }
  unfold batch_ops. rewrite rows_app, RS. destruct (Nat.leb_spec 0 r); destruct (Nat.ltb_spec r (0 + n)); cbn [andb]; try lia.
  enough (Z : rows r (map (fun w : swrec A => Swap (sw_i w) (sw_j w)) ws) = 0%nat) by lia. unfold rows. induction ws as [|w ws IH]; cbn; auto.
Qed.

(** the bounds for any part of the batches of a run *)
Definition part_bounds (n : nat) (box : list (R * R)) (smin M delta K : R) (S : Setup RArith) (bl : list (brec (A := RArith))) (wss : list (list (swrec RArith))) : Prop :=
  let T := zsum (map br_len bl) in
  let os := concat (map (fun bw => batch_ops n (fst bw) (snd bw)) (combine bl wss)) in
  (T <= Z.of_nat (length bl) * (n_iter_a_batch_base (s_cfg S) + n_iter_a_batch_rand (s_cfg S)))%Z /\
  forall (Ls : list (list R -> R)) (sigs : list (list R)), length Ls = n -> length sigs = n -> bounded_by M box Ls -> wide_steps smin box sigs ->
  let phis := map (map npdf) sigs in
  (forall (g : list (list R) -> R) lo hi, nice (stD box n) g -> (forall Y, inD (stD box n) Y -> lo <= g Y <= hi) ->
   forall X, inD (stD box n) X ->
   Rabs (means box Ls phis os g X - nint box n (fun Y => joint Ls Y * g Y) / nint box n (joint Ls)) <= (1 - delta) ^ length bl * (hi - lo)) /\
  forall r, (r < n)%nat -> rows r os = Z.to_nat T /\
   forall (g : list R -> R) lo hi, nice (boxD box) g -> (forall y, inside box y -> lo <= g y <= hi) ->
   forall X, inD (stD box n) X ->
   let m := bint box (fun x => exp (nth r Ls nol x) * g x) / bint box (fun x => exp (nth r Ls nol x)) in
   (0 < T)%Z -> paths box Ls phis os (fun p => (rowsum r g os p / IZR T - m) ^ 2) X <= K * (hi - lo) ^ 2 / IZR T.
Lemma part_run : forall (n : nat) D (box : list (R * R)) (smin M : R) (LM : nat), (forall p, In p box -> fst p < snd p) -> 0 < smin ->
  exists delta K, 0 < delta <= 1 /\ 0 <= K /\
  forall S : Setup RArith, Legal S -> (Swapmode (s_cfg S) = 0 \/ Swapmode (s_cfg S) = 1)%Z -> s_n S = n ->
  (n_iter_a_batch_base (s_cfg S) + n_iter_a_batch_rand (s_cfg S) <= Z.of_nat LM)%Z ->
  forall G0 h Gf, history S D G0 h Gf -> forall bl, (forall b, In b bl -> In b (hbatches h)) ->
  exists wss, Forall2 (attempts_of S D) bl wss /\ part_bounds n box smin M delta K S bl wss.
Proof.
  intros n D box smin M LM HW Hs. destruct (C76_uniform n box smin M LM HW Hs) as [delta [K [D1 [K0 KK]]]].
  exists delta, K. split; auto. split; auto. intros S HL HM En HLM G0 h Gf HH bl SUB.
  pose proof (C25_partners _ S HL D G0 h Gf HH) as CP.
  assert (EX : exists wss, Forall2 (attempts_of S D) bl wss /\
     List.Forall (List.Forall (fun w : swrec RArith => (sw_i w < n)%nat /\ (sw_j w < n)%nat /\ sw_i w <> sw_j w)) wss).
  { clear - CP SUB HM En. induction bl as [|b bs IH]; [exists []; split; constructor|].
    destruct IH as [wss [F1 F2]]; [intros b' Hb'; apply SUB; right; auto|].
    destruct (CP b (SUB b (or_introl eq_refl))) as [ws [A1 A2]]. exists (ws :: wss). split; constructor; auto.
    apply List.Forall_forall. intros w Hw. rewrite List.Forall_forall in A2. destruct (A2 w Hw) as [B1 [B2 [B3 [B4 _]]]].
    split; [lia|]. split; [lia|]. destruct HM as [MM|MM]; [rewrite (B3 MM); lia|intros E; apply (B4 MM); auto]. }
  destruct EX as [wss [F1 F2]]. exists wss. split; [exact F1|]. unfold part_bounds. cbv zeta. set (T := zsum (map br_len bl)). set (os := concat (map (fun bw : brec (A := RArith) * list (swrec RArith) => batch_ops n (fst bw) (snd bw)) (combine bl wss))).
  destruct (C17_lengths _ S HL D G0 h Gf HH) as [SN FL]. rewrite List.Forall_forall in FL.
  assert (BL : List.Forall (fun b : brec (A := RArith) => (1 <= br_len b <= n_iter_a_batch_base (s_cfg S) + n_iter_a_batch_rand (s_cfg S))%Z) bl).
  { apply List.Forall_forall. intros b Hb. apply SUB in Hb. unfold hbatches in Hb. apply in_concat in Hb. destruct Hb as [l [Hl Hb]].
    apply in_map_iff in Hl. destruct Hl as [t [<- Ht]]. destruct (FL t Ht) as [_ [_ [_ Q]]]. rewrite List.Forall_forall in Q. apply Q; auto. }
  split.
  { unfold T. clear - BL. induction BL as [|b bs Hb _ IH]; cbn [map zsum length]; [lia|]. rewrite Nat2Z.inj_succ. lia. }
  intros Ls sigs LL LS HB HWS. set (phis := map (map npdf) sigs). specialize (KK Ls sigs LL LS HB HWS). cbv zeta in KK. fold phis in KK.
  set (bs := map (fun bw : brec (A := RArith) * list (swrec RArith) => batch_ops n (fst bw) (snd bw)) (combine bl wss)) in *.
  assert (LC : length bs = length bl).
  { unfold bs. rewrite map_length, combine_length. assert (E : length bl = length wss) by (clear - F1; induction F1; cbn; auto). lia. }
  assert (SB : forall b, In b bs -> sampler_batch n b).
  { intros o Ho. unfold bs in Ho. apply in_map_iff in Ho. destruct Ho as [[b ws] [<- Hb]]. cbn [fst snd].
    pose proof (in_combine_l _ _ _ _ Hb) as Hb1. pose proof (in_combine_r _ _ _ _ Hb) as Hb2.
    rewrite List.Forall_forall in BL. specialize (BL b Hb1). rewrite List.Forall_forall in F2. specialize (F2 ws Hb2).
    exists (Z.to_nat (br_len b) - 1)%nat, (map (fun w => Swap (sw_i w) (sw_j w)) ws). split.
    - unfold batch_ops. replace (Datatypes.S (Z.to_nat (br_len b) - 1)) with (Z.to_nat (br_len b)) by lia. reflexivity.
    - intros o Ho. apply in_map_iff in Ho. destruct Ho as [w [<- Hw]]. rewrite List.Forall_forall in F2. apply (F2 w Hw). }
  destruct (KK bs SB) as [K1 K2]. fold os in K1, K2. rewrite LC in K1. split; [exact K1|]. intros r Hr.
  assert (RT : rows r os = Z.to_nat T).
  { unfold os, bs, T. clear - F1 BL Hr. revert wss F1. induction BL as [|b l Hb HBs IH]; intros wss F1; inversion F1 as [|? ws ? wss' A1 A2]; subst; [reflexivity|].
    cbn [combine map concat fst snd zsum]. rewrite rows_app, rows_batch, (IH _ A2) by auto.
    assert (0 <= zsum (map br_len l))%Z by (clear - HBs; induction HBs; cbn [map zsum]; lia). lia. }
  split; [exact RT|]. intros g lo hi NG RG X HX T0.
  assert (ET : INR (rows r os) = IZR T) by (rewrite RT, INR_IZR_INZ, Z2Nat.id by lia; reflexivity).
  rewrite <- ET. apply K2; auto; [|rewrite ET; apply IZR_lt; lia].
  intros o Ho. unfold bs in Ho. apply in_map_iff in Ho. destruct Ho as [[b ws] [<- Hb]]. cbn [fst snd]. rewrite rows_batch by auto.
  pose proof (in_combine_l _ _ _ _ Hb) as Hb1. rewrite List.Forall_forall in BL. specialize (BL b Hb1). lia.
Qed.

Lemma tail_sum : forall A (S : Setup A), Legal S -> forall D G0 h Gf, history S D G0 h Gf -> forall h1 s h2, h = h1 ++ s :: h2 ->
  (zsum (map br_len (hbatches (s :: h2))) = N_iter (s_cfg S) - sr_from s /\ 0 < N_iter (s_cfg S) - sr_from s)%Z.
Proof.
  intros A S HL D G0 h Gf HH h1 s h2 Eh. destruct (C17_lengths _ S HL D G0 h Gf HH) as [SN FL]. rewrite List.Forall_forall in FL.
  assert (FR : sr_from s = zsum (map sr_len h1)).
  { destruct (history_count S HL _ _ _ _ HH) as [_ [_ [HF _]]]. rewrite Eh in HF. apply sfollow_from in HF. lia. }
  assert (FL' : forall t, In t (s :: h2) -> zsum (map br_len (sr_batches t)) = sr_len t /\ (1 <= sr_len t)%Z).
  { intros t Ht. assert (In t h) as Hth by (rewrite Eh; apply in_or_app; right; auto). destruct (FL t Hth) as [Q1 [_ [Q2 _]]]. split; [auto|lia]. }
  assert (E : zsum (map br_len (hbatches (s :: h2))) = zsum (map sr_len (s :: h2))).
  { unfold hbatches. clear - FL'. induction (s :: h2) as [|t l IH]; cbn [map concat zsum]; [reflexivity|].
    rewrite map_app, zsum_app, (proj1 (FL' t (or_introl eq_refl))), IH; [reflexivity|]. intros v Hv. apply FL'. right; auto. }
  rewrite E. rewrite <- SN, Eh, map_app, zsum_app, FR. split; [lia|]. cbn [map zsum].
  assert (1 <= sr_len s)%Z by (apply FL'; left; auto).
  assert (0 <= zsum (map sr_len h2))%Z; [|lia].
  assert (Q : forall t, In t h2 -> (1 <= sr_len t)%Z) by (intros t Ht; apply FL'; right; auto). clear - Q.
  induction h2 as [|t l IH]; cbn [map zsum]; [lia|]. pose proof (Q t (or_introl eq_refl)). assert (0 <= zsum (map sr_len l))%Z by (apply IH; intros v Hv; apply Q; right; auto). lia.
Qed.

(** For every legal setup with the user model u and n ranks, every run of it and every stack s of the run after which nothing is tuned: the
    T = N_iter - (iterations before s) iterations from s on are at least T / (largest batch) batches, the mean of any g after them is within
    (1 - delta)^batches (range of g) of its mean under the posteriors of the ladder at s, and the mean square error of the average over the T
    rows that each rank goes through is at most K (range of g)^2 / T.  delta and K are chosen before the setup, the run and the way the tuning
    went: they depend on the box, n, the smallest width, the bound M on the log posteriors and the largest batch. *)
Theorem C76_run : forall (u : User RArith) (n : nat) D (box : list (R * R)) (smin M : R) (LM : nat), (forall p, In p box -> fst p < snd p) -> 0 < smin ->
  exists delta K, 0 < delta <= 1 /\ 0 <= K /\
  forall S : Setup RArith, Legal S -> (Swapmode (s_cfg S) = 0 \/ Swapmode (s_cfg S) = 1)%Z -> s_user S = u -> s_n S = n ->
  (n_iter_a_batch_base (s_cfg S) + n_iter_a_batch_rand (s_cfg S) <= Z.of_nat LM)%Z ->
  forall G0 h Gf, history S D G0 h Gf -> forall h1 s h2, h = h1 ++ s :: h2 -> settled S s ->
  let Ls : list (list R -> R) := map (fun (beta : R) (x : list R) => logpost_at u D x beta) (l_beta (loc_at (sr_in s) 0)) in
  let sigs : list (list R) := map (fun r => l_sig (loc_at (sr_pre s) r)) (seq 0 n) in let phis := map (map npdf) sigs in
  bounded_by M box Ls -> wide_steps smin box sigs ->
  let bl := hbatches (s :: h2) in let T := (N_iter (s_cfg S) - sr_from s)%Z in
  exists wss, Forall2 (attempts_of S D) bl wss /\
  let os := concat (map (fun bw => batch_ops n (fst bw) (snd bw)) (combine bl wss)) in
  (0 < T <= Z.of_nat (length bl) * (n_iter_a_batch_base (s_cfg S) + n_iter_a_batch_rand (s_cfg S)))%Z /\
  (forall (g : list (list R) -> R) lo hi, nice (stD box n) g -> (forall Y, inD (stD box n) Y -> lo <= g Y <= hi) ->
   forall X, inD (stD box n) X ->
   Rabs (means box Ls phis os g X - nint box n (fun Y => joint Ls Y * g Y) / nint box n (joint Ls)) <= (1 - delta) ^ length bl * (hi - lo)) /\
  forall r, (r < n)%nat -> rows r os = Z.to_nat T /\
   forall (g : list R -> R) lo hi, nice (boxD box) g -> (forall y, inside box y -> lo <= g y <= hi) ->
   forall X, inD (stD box n) X ->
   let m := bint box (fun x => exp (nth r Ls nol x) * g x) / bint box (fun x => exp (nth r Ls nol x)) in
   paths box Ls phis os (fun p => (rowsum r g os p / IZR T - m) ^ 2) X <= K * (hi - lo) ^ 2 / IZR T.
Proof.
  intros u n D box smin M LM HW Hs. destruct (part_run n D box smin M LM HW Hs) as [delta [K [D1 [K0 KK]]]].
  exists delta, K. split; auto. split; auto. intros S HL HM EU En HLM G0 h Gf HH h1 s h2 Eh HSt Ls sigs phis HB HWS bl T.
  assert (LB : length (l_beta (loc_at (sr_in s) 0)) = n).
  { assert (HS : In (sr_in s) (states G0 h Gf)).
    { right. apply in_or_app. left. apply in_concat. exists (sstates s). split; [apply in_map; rewrite Eh; apply in_or_app; right; left; auto|left; auto]. }
    destruct (C26_ends _ S HL D G0 h Gf HH _ HS) as [b [Lb [Hb _]]]. pose proof HL as [_ [VC _]]. pose proof (vc_n _ _ VC). rewrite (Hb 0%nat) by lia. congruence. }
  assert (LL : length Ls = n) by (unfold Ls; rewrite map_length; auto).
  assert (LS : length sigs = n) by (unfold sigs; rewrite map_length, seq_length; auto).
  assert (SUB : forall b, In b bl -> In b (hbatches h)).
  { intros b Hb. rewrite Eh. unfold bl, hbatches in *. rewrite map_app, concat_app. apply in_or_app. right; auto. }
  destruct (KK S HL HM En HLM G0 h Gf HH bl SUB) as [wss [F1 PB]]. exists wss. split; [exact F1|]. intros os.
  destruct (tail_sum _ S HL D G0 h Gf HH h1 s h2 Eh) as [ZS T0]. fold bl T in ZS, T0. unfold part_bounds in PB. rewrite ZS in PB. fold os in PB.
  destruct PB as [P1 P2]. split; [split; auto|]. destruct (P2 Ls sigs LL LS HB HWS) as [P3 P4]. split; [exact P3|].
  intros r Hr. destruct (P4 r Hr) as [P5 P6]. split; [exact P5|]. intros g lo hi NG RG X HX m. apply P6; auto.
Qed.
Print Assumptions C76_run.

Lemma bounded_exists : forall box Ls, List.Forall (nice (boxD box)) Ls -> exists M, bounded_by M box Ls.
Proof.
  intros box Ls. induction 1 as [|L Ls N _ [M B]]; [exists 0; intros L []|]. assert (N' := N). destruct N' as [[M' B'] _].
  exists (Rmax M M'). intros L' [<-|HL']; split; auto.
  - intros x Hx. eapply Rle_trans; [apply B'; auto|apply Rmax_r].
  - apply (B L' HL').
  - intros x Hx. eapply Rle_trans; [apply (B L' HL'); auto|apply Rmax_l].
Qed.

(** the regression model of the repository with any legal configuration that has its tuning ratios: the log posteriors at every ladder are
    bounded on the box, and the widths of every stack are at least the smallest width the tuning allows *)
Lemma reg_bounds : forall S : Setup RArith, Legal S -> s_user S = s_user demoR -> N_parm (s_cfg S) = 3%Z ->
  sigma_jumpin_ratio (s_cfg S) = sigma_jumpin_ratio (s_cfg demoR) -> sigma_scale_half_ratio (s_cfg S) = sigma_scale_half_ratio (s_cfg demoR) ->
  forall D G0 h Gf, history S D G0 h Gf -> forall s, In s h ->
  let box := [(-20, 20); (-50, 50); (/ 100, 30)] in
  exists smin M, 0 < smin /\ bounded_by M box (map (fun (beta : R) (x : list R) => logpost_at (s_user S) D x beta) (l_beta (loc_at (sr_in s) 0))) /\
    wide_steps smin box (map (fun r => l_sig (loc_at (sr_pre s) r)) (seq 0 (s_n S))).
Proof.
  intros S HL EU EN EJ EH D G0 h Gf HH s Hs box.
  assert (IN : In (sr_in s) (states G0 h Gf)).
  { right. apply in_or_app. left. apply in_concat. exists (sstates s). split; [apply in_map; auto|left; auto]. }
  destruct C35_case as [_ [P1 [P2 [P3 [P4 P5]]]]]. cbv zeta in P1, P4, P5. change (N_parm (s_cfg demoR)) with 3%Z in P1, P4, P5. rewrite <- EU in P1, P4, P5. rewrite <- EJ in P2, P4. rewrite <- EH in P3. rewrite <- EN in P1, P4, P5.
  destruct (C35_run S HL P1 P2 P3 P4 P5 D G0 h Gf HH) as [RG _].
  destruct (bounded_exists box (map (fun (beta : R) (x : list R) => logpost_at (s_user S) D x beta) (l_beta (loc_at (sr_in s) 0)))) as [M HM].
  { apply List.Forall_forall. intros L HLn. apply in_map_iff in HLn. destruct HLn as [beta [<- _]].
    replace box with [demo_ra RArith; demo_rb RArith; demo_rd RArith]; [rewrite EU; apply reg_nice; cbn; lra|]. 
    unfold box, demo_ra, demo_rb, demo_rd. cbn. repeat (f_equal; try lra). }
  set (sm := fun p => nth (Z.to_nat p) (u_sigmin (s_user S)) 0).
  exists (Rmin (sm 0%Z) (Rmin (sm 1%Z) (sm 2%Z))), M.
  split; [repeat apply Rmin_glb_lt; apply P1; rewrite EN; lia|]. split; [exact HM|].
  intros sig Hsig. apply in_map_iff in Hsig. destruct Hsig as [r [<- Hr]]. apply in_seq in Hr.
  destruct (stack_widths S HL D _ _ _ HH s Hs (sr_pre s) (or_introl eq_refl)) as [_ W2].
  assert (LG : haslen (A := RArith) (N_parm (s_cfg S)) (l_sig (loc_at (sr_pre s) r))).
  { apply sig_len with (S := S); [|lia]. destruct (history_count S HL _ _ _ _ HH) as [_ [F _]]. rewrite List.Forall_forall in F.
    destruct (F s Hs) as [_ [_ [_ [_ [_ [Wp _]]]]]]. exact Wp. }
  unfold haslen in LG. rewrite EN in LG.
  assert (W3 : l_sig (loc_at (sr_pre s) r) = sigt_at (sr_in s) r) by (apply W2; lia).
  assert (Q : forall p, (0 <= p < 3)%Z -> sm p <= nth (Z.to_nat p) (l_sig (loc_at (sr_pre s) r)) 0).
  { intros p Hp. rewrite W3. apply (RG _ IN r); [lia|rewrite EN; exact Hp]. }
  pose proof (Q 0%Z ltac:(lia)) as Q0. pose proof (Q 1%Z ltac:(lia)) as Q1. pose proof (Q 2%Z ltac:(lia)) as Q2.
  clear W2 W3 Q. clearbody sm. destruct (l_sig (loc_at (sr_pre s) r)) as [|a [|b [|c [|]]]]; cbn [length] in LG; try lia.
  split; [reflexivity|]. change (Z.to_nat 0) with 0%nat in Q0. change (Z.to_nat 1) with 1%nat in Q1. change (Z.to_nat 2) with 2%nat in Q2. cbn [nth] in Q0, Q1, Q2.
  pose proof (Rmin_l (sm 0%Z) (Rmin (sm 1%Z) (sm 2%Z))). pose proof (Rmin_r (sm 0%Z) (Rmin (sm 1%Z) (sm 2%Z))).
  pose proof (Rmin_l (sm 1%Z) (sm 2%Z)). pose proof (Rmin_r (sm 1%Z) (sm 2%Z)).
  intros sd [<-|[<-|[<-|[]]]]; lra.
Qed.

(** a case: the shipped regression input with four ranks and a fixed ladder.  Its widths are tuned until its last stack, which is settled;
    the cached values are right there, and the bounds hold with some M and the smallest width the tuning allows. *)
Example C76_case : let S := with_cfg demoR (set_ladder (s_cfg demoR) 0) in let box := [(-20, 20); (-50, 50); (/ 100, 30)] in
  Legal S /\ exists D G0 h Gf h1 s h2, history S D G0 h Gf /\ h = h1 ++ s :: h2 /\ settled S s /\ (forall r, (r < s_n S)%nat -> cached_at S D (sr_in s) r) /\
  exists smin M, 0 < smin /\ bounded_by M box (map (fun (beta : R) (x : list R) => logpost_at (s_user S) D x beta) (l_beta (loc_at (sr_in s) 0))) /\
    wide_steps smin box (map (fun r => l_sig (loc_at (sr_pre s) r)) (seq 0 (s_n S))).
Proof.
  intros S box.
  assert (HL : Legal S).
  { destruct demoR_legal as [RK [V [VU VE]]]. split; [exact RK|]. split; [|split].
    - destruct V. constructor; assumption.
    - destruct VU as [[? ? ?] ? ?]. constructor; [constructor|..]; assumption.
    - exact VE. }
  split; auto. destruct (history_exists S HL) as [D [G0 [h [Gf HH]]]]. exists D, G0, h, Gf.
  destruct (C17_lengths _ S HL D G0 h Gf HH) as [SN FL]. destruct (history_count S HL _ _ _ _ HH) as [_ [_ [HF _]]].
  destruct (exists_last (l := h)) as [h1 [s E]]; [intros ->; cbn in SN; discriminate|].
  exists h1, s, []. assert (HT : (Tune_Ladder (s_cfg S) <= 0)%Z) by (cbn; lia).
  assert (ES : (sr_end s = N_iter (s_cfg S))%Z).
  { rewrite E in HF, SN. apply sfollow_from in HF. unfold sr_end. rewrite map_app, zsum_app in SN. cbn [map zsum] in SN. lia. }
  assert (Hs : In s h) by (rewrite E; apply in_or_app; right; left; auto).
  split; [exact HH|]. split; [exact E|]. split; [split; [rewrite ES; cbn; lia|left; exact HT]|].
  split.
  { intros r Hr. destruct (C24_states _ S HL HT D G0 h Gf HH) as [R0 [_ [RS _]]].
    assert (RA : right_at S D (sr_in s)).
    { rewrite E in HF. clear - HF RS E R0. assert (RS' : forall t, In t h1 -> right_at S D (sr_post t)) by (intros t Ht; apply (RS t); rewrite E; apply in_or_app; auto).
      clear RS E. revert HF R0 RS'. generalize 0%Z. revert G0. induction h1 as [|a l IH]; intros G0 i HF R0 RS; cbn [app sfollow] in HF.
      - destruct HF as [_ [-> _]]. exact R0.
      - destruct HF as [_ [_ HF]]. apply (IH _ _ HF); [apply RS; left; auto|intros t Ht; apply RS; right; auto]. }
    destruct (RA r Hr) as [Q1 Q2]. unfold cached_at. rewrite Q1, Q2. reflexivity. }
  apply (reg_bounds S HL eq_refl eq_refl eq_refl eq_refl D G0 h Gf HH s Hs).
Qed.
