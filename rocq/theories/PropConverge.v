(** C74: the sampler converges to the posterior, from any start. *)
From Coq Require Import ZArith List Bool Reals Lia Lra.
From Coquelicot Require Import Coquelicot.
From Verif Require Import Base Arith Rand Mh Ladder Tune Mpi Prog Seq MhSpec UserModels Boundary BounceDensity SwapReal SeqTotal System Runs History RunHist
  Views HistCount HistRows CountLemmas SwapLemmas SwapMore Nice Invariance Tempering PropCount PropSwap PropInvar PropTemper.
From Verif Require Import Converge.
Import ListNotations.
Open Scope R_scope.

(** In the notation of C73: [means os g X] is the mean of g after the operations os from the rows X.  A batch is: one or more Metropolis
    steps of rank 0, as many of rank 1 and so on, then any swaps (or steps).  The densities of the steps are positive (as the normal
    one), the ranges have positive widths. *)
Definition sampler_batch (n : nat) (os : list op) : Prop := exists len rest,
  os = concat (map (fun r => repeat (Move r) (Datatypes.S len)) (seq 0 n)) ++ rest /\
  forall o, In o rest -> match o with Move i => (i < n)%nat | Swap i j => (i < n)%nat /\ (j < n)%nat /\ i <> j end.

Definition good_steps (box : list (R * R)) (ps : list (R -> R)) : Prop :=
  length ps = length box /\ forall phi, In phi ps -> (forall s, continuous phi s) /\ (forall s, phi (- s) = phi s) /\ forall s, 0 < phi s.

Lemma good_mass : forall box ps, (forall p, In p box -> fst p < snd p) -> good_steps box ps ->
  List.Forall even_density ps /\ length ps = length box /\ bint (widths box) (dens ps) <> 0.
Proof.
  intros box ps HW [H1 H2]. assert (E : List.Forall even_density ps) by (apply List.Forall_forall; intros phi Hp; destruct (H2 phi Hp) as [A [B _]]; split; auto).
  split; auto. split; auto. apply Rgt_not_eq. apply mass_pos; auto. intros phi Hp. apply H2; auto.
Qed.

(** There is one factor 1 - delta < 1 for all starts, all sequences of batches and all functions: after B batches the mean of g differs
    from its mean under the product of the tempered posteriors by at most (1 - delta)^B times the range of g. *)
Theorem C74_converges : forall (box : list (R * R)) (Ls : list (list R -> R)) (phis : list (list (R -> R))),
  (forall p, In p box -> fst p < snd p) -> (forall L, In L Ls -> nice (boxD box) L) -> length phis = length Ls ->
  (forall ps, In ps phis -> good_steps box ps) ->
  exists delta, 0 < delta <= 1 /\ forall bs, (forall b, In b bs -> sampler_batch (length Ls) b) ->
  forall (g : list (list R) -> R) lo hi, nice (stD box (length Ls)) g -> (forall Y, inD (stD box (length Ls)) Y -> lo <= g Y <= hi) ->
  forall X, inD (stD box (length Ls)) X ->
  Rabs (means box Ls phis (concat bs) g X - nint box (length Ls) (fun Y => joint Ls Y * g Y) / nint box (length Ls) (joint Ls))
  <= (1 - delta) ^ length bs * (hi - lo).
Proof.
  intros box Ls phis HW HN HP HE.
  assert (W : wide box) by (apply List.Forall_forall; intros p Hp; left; apply HW; auto).
  assert (V : 0 < vol box).
  { clear - HW. induction box as [|[lo hi] b IH]; cbn; [lra|]. pose proof (HW (lo, hi) (or_introl eq_refl)) as K. cbn in K.
    apply Rmult_lt_0_compat; [lra|]. apply IH. intros p Hp. apply HW. right; auto. }
  assert (NL : List.Forall (nice (boxD box)) Ls) by (apply List.Forall_forall; auto).
  assert (EP : List.Forall (fun ps => List.Forall even_density ps /\ length ps = length box /\ bint (widths box) (dens ps) <> 0) phis).
  { apply List.Forall_forall. intros ps Hps. apply good_mass; auto. }
  assert (PP : forall ps, In ps phis -> forall phi, In phi ps -> forall s, 0 < phi s).
  { intros ps Hps phi Hp. destruct (HE ps Hps) as [_ K]. apply (K phi Hp). }
  destruct (converge box W Ls phis NL HP EP PP V) as [delta [D K]]. exists delta. split; auto.
  intros bs HB g lo hi NG R X HX. apply K; auto. apply List.Forall_forall. intros b Hb. destruct (HB b Hb) as [len [rest [E H]]].
  exists len, rest. split; [exact E|]. apply List.Forall_forall. exact H.
Qed.
Print Assumptions C74_converges.

(** In particular the row of rank 0 converges to its own posterior. *)
Theorem C74_cold : forall (box : list (R * R)) L0 (Ls : list (list R -> R)) (phis : list (list (R -> R))),
  (forall p, In p box -> fst p < snd p) -> (forall L, In L (L0 :: Ls) -> nice (boxD box) L) -> length phis = length (L0 :: Ls) ->
  (forall ps, In ps phis -> good_steps box ps) ->
  exists delta, 0 < delta <= 1 /\ forall bs, (forall b, In b bs -> sampler_batch (length (L0 :: Ls)) b) ->
  forall (g : list R -> R) lo hi, nice (boxD box) g -> (forall y, inside box y -> lo <= g y <= hi) ->
  forall X, length X = length (L0 :: Ls) -> (forall x, In x X -> inside box x) ->
  Rabs (means box (L0 :: Ls) phis (concat bs) (fun Y => g (nth 0 Y [])) X - bint box (fun x => exp (L0 x) * g x) / bint box (fun x => exp (L0 x)))
  <= (1 - delta) ^ length bs * (hi - lo).
Proof.
  intros box L0 Ls phis HW HN HP HE. destruct (C74_converges box (L0 :: Ls) phis HW HN HP HE) as [delta [D K]]. exists delta. split; auto.
  intros bs HB g lo hi NG R X HX1 HX2.
  assert (W : wide box) by (apply List.Forall_forall; intros p Hp; left; apply HW; auto).
  assert (SR : smooth (stD box (length (L0 :: Ls))) (boxD box) (fun X => nth 0 X [])) by (apply smooth_row; cbn; lia).
  assert (NC : nice (stD box (length (L0 :: Ls))) (fun Y => g (nth 0 Y []))) by (apply (nice_map (stD box (length (L0 :: Ls))) (boxD box) (fun X => nth 0 X []) g); auto).
  assert (HX : inD (stD box (length (L0 :: Ls))) X) by (split; auto; apply List.Forall_forall; auto).
  assert (RG : forall Y, inD (stD box (length (L0 :: Ls))) Y -> lo <= g (nth 0 Y []) <= hi) by (intros Y HY; apply R; apply (proj1 SR Y HY)).
  pose proof (K bs HB (fun Y => g (nth 0 Y [])) lo hi NC RG X HX) as Q.
  assert (HE' : forall ps, In ps phis -> length ps = length box /\ bint (map (fun p => (- (snd p - fst p), snd p - fst p)) box) (dens ps) <> 0 /\
     forall phi, In phi ps -> (forall s, continuous phi s) /\ forall s, phi (- s) = phi s).
  { intros ps Hps. destruct (HE ps Hps) as [E1 E2]. destruct (good_mass box ps HW (HE ps Hps)) as [_ [_ M]]. split; auto. split; auto.
    intros phi Hp. destruct (E2 phi Hp) as [A [B _]]. auto. }
  assert (HW' : forall p, In p box -> fst p <= snd p) by (intros p Hp; left; apply HW; auto).
  pose proof (C73_cold box L0 Ls phis [] g HW' HN HP HE' (fun o (Ho : In o []) => match Ho with end) NG) as F1. cbn [means] in F1.
  pose proof (C73_cold box L0 Ls phis [] (fun _ => 1) HW' HN HP HE' (fun o (Ho : In o []) => match Ho with end) (nice_const _ 1)) as F2. cbn [means] in F2.
  match type of F1 with ?l = _ => match type of Q with Rabs (_ - ?a / _) <= _ => change a with l in Q end end. rewrite F1 in Q.
  rewrite (nint_eqb box W (length (L0 :: Ls)) (joint (L0 :: Ls)) (fun Y => joint (L0 :: Ls) Y * 1)) in Q by (intros; ring). rewrite F2 in Q.
  rewrite (bint_eqb box (fun x => exp (L0 x) * 1) (fun x => exp (L0 x))) in Q by (auto; intros; ring).
  set (z := nint box (length Ls) (joint Ls)) in *.
  assert (Z0 : 0 < z).
  { assert (NLs : List.Forall (nice (boxD box)) Ls) by (apply List.Forall_forall; intros L HL; apply HN; right; auto).
    destruct (joint_low box Ls NLs) as [c [C1 C2]]. apply Rlt_le_trans with (nint box (length Ls) (fun _ => c)).
    - rewrite (nint_c box W). apply Rmult_lt_0_compat; auto. apply pow_lt.
      clear - HW. induction box as [|[lo hi] b IH]; cbn; [lra|]. pose proof (HW (lo, hi) (or_introl eq_refl)) as K. cbn in K.
      apply Rmult_lt_0_compat; [lra|]. apply IH. intros p Hp. apply HW. right; auto.
    - apply nint_mono; [auto|apply nice_const|apply nice_joint; auto|]. intros Y [_ HY]. apply C2; auto. }
  assert (B0 : bint box (fun x => exp (L0 x)) <> 0).
  { apply Rgt_not_eq. destruct (joint_low box [L0]) as [c [C1 C2]]; [constructor; [apply HN; left; auto|constructor]|].
    apply Rlt_le_trans with (bint box (fun _ => c)).
    - rewrite bint_c by auto. apply Rmult_lt_0_compat; auto.
      clear - HW. induction box as [|[lo hi] b IH]; cbn; [lra|]. pose proof (HW (lo, hi) (or_introl eq_refl)) as K. cbn in K.
      apply Rmult_lt_0_compat; [lra|]. apply IH. intros p Hp. apply HW. right; auto.
    - apply bint_mono; [auto|apply nice_const|apply nice_exp, HN; left; auto|]. intros x Hx. specialize (C2 [x]). cbn in C2. rewrite Rmult_1_r in C2. apply C2. repeat constructor; auto. }
  replace (bint box (fun x => exp (L0 x) * g x) / bint box (fun x => exp (L0 x)))
    with (bint box (fun x => exp (L0 x) * g x) * z / (bint box (fun x => exp (L0 x)) * z)); [exact Q|].
  set (a := bint box (fun x => exp (L0 x) * g x)). set (b := bint box (fun x => exp (L0 x))) in *. field. split; lra.
Qed.
Print Assumptions C74_cold.

(** For the runs of the program: with the ladder and the widths kept, swap mode 0 or 1, the operations of a run of N_iter iterations
    consist of at least N_iter / (n_iter_a_batch_base + n_iter_a_batch_rand) batches, and the bound holds with that number; delta does
    not depend on the run. *)
Theorem C74_run : forall S : Setup RArith, Legal S -> (Swapmode (s_cfg S) = 0 \/ Swapmode (s_cfg S) = 1)%Z ->
  forall D box phis,
  let Ls : list (list R -> R) := map (fun (beta : R) (x : list R) => logpost_at (s_user S) D x beta) (firstn (s_n S) (Beta_Values (s_cfg S))) in
  (forall p, In p box -> fst p < snd p) -> (forall L, In L Ls -> nice (boxD box) L) -> length phis = s_n S ->
  (forall ps, In ps phis -> good_steps box ps) ->
  exists delta, 0 < delta <= 1 /\ forall G0 h Gf, history S D G0 h Gf -> exists wss,
    Forall2 (attempts_of S D) (hbatches h) wss /\
    let os := concat (map (fun bw => batch_ops (s_n S) (fst bw) (snd bw)) (combine (hbatches h) wss)) in
    (N_iter (s_cfg S) <= Z.of_nat (length (hbatches h)) * (n_iter_a_batch_base (s_cfg S) + n_iter_a_batch_rand (s_cfg S)))%Z /\
    forall (g : list (list R) -> R) lo hi, nice (stD box (s_n S)) g -> (forall Y, inD (stD box (s_n S)) Y -> lo <= g Y <= hi) ->
    forall X, inD (stD box (s_n S)) X ->
    Rabs (means box Ls phis os g X - nint box (s_n S) (fun Y => joint Ls Y * g Y) / nint box (s_n S) (joint Ls))
    <= (1 - delta) ^ length (hbatches h) * (hi - lo).
Proof.
  intros S HL HM D box phis Ls HW HN HP HE.
  assert (LL : length Ls = s_n S).
  { unfold Ls. rewrite map_length, firstn_length. destruct HL as [_ [VC _]]. pose proof (vc_betas _ _ VC). lia. }
  clearbody Ls. rewrite <- LL in HP. destruct (C74_converges box Ls phis HW HN HP HE) as [delta [DD K]]. exists delta. split; auto.
  rewrite LL in K. intros G0 h Gf HH.
  pose proof (C25_partners _ S HL D G0 h Gf HH) as CP.
  assert (EX : exists wss, Forall2 (attempts_of S D) (hbatches h) wss /\
     List.Forall (List.Forall (fun w : swrec RArith => (sw_i w < s_n S)%nat /\ (sw_j w < s_n S)%nat /\ sw_i w <> sw_j w)) wss).
  { induction (hbatches h) as [|b bs IH]; [exists []; split; constructor|].
    destruct IH as [wss [F1 F2]]; [intros b' Hb'; apply CP; right; auto|].
    destruct (CP b (or_introl eq_refl)) as [ws [A1 A2]]. exists (ws :: wss). split; constructor; auto.
    apply List.Forall_forall. intros w Hw. rewrite List.Forall_forall in A2. destruct (A2 w Hw) as [B1 [B2 [B3 [B4 _]]]].
    split; [lia|]. split; [auto|]. destruct HM as [M|M]; [rewrite (B3 M); lia|intros E; apply (B4 M); auto]. }
  destruct EX as [wss [F1 F2]]. exists wss. split; [exact F1|]. intros os.
  destruct (C17_lengths _ S HL D G0 h Gf HH) as [SN FL].
  assert (BL : List.Forall (fun b : brec (A := RArith) => (1 <= br_len b <= n_iter_a_batch_base (s_cfg S) + n_iter_a_batch_rand (s_cfg S))%Z) (hbatches h)).
  { unfold hbatches. apply List.Forall_concat. apply List.Forall_forall. intros l Hl. apply in_map_iff in Hl. destruct Hl as [s [<- Hs]].
    rewrite List.Forall_forall in FL. apply (FL s Hs). }
  assert (ZS : zsum (map br_len (hbatches h)) = N_iter (s_cfg S)).
  { rewrite <- SN. clear - FL. unfold hbatches. induction h as [|s h IH]; cbn [map concat zsum]; [reflexivity|].
    inversion FL as [|? ? F1 F2]; subst.
    assert (ZA : forall a b, zsum (a ++ b) = (zsum a + zsum b)%Z) by (induction a as [|x a IHa]; intros b; cbn [app zsum]; [lia|rewrite IHa; lia]).
    rewrite map_app, ZA. destruct F1 as [_ [_ [Z1 _]]]. rewrite Z1. f_equal. apply IH; auto. }
  split.
  { rewrite <- ZS. clear - BL. induction BL as [|b bs Hb _ IH]; cbn [map zsum length]; [lia|]. rewrite Nat2Z.inj_succ. lia. }
  intros g lo hi NG RG X HX.
  assert (LC : length (map (fun bw : brec (A := RArith) * list (swrec RArith) => batch_ops (s_n S) (fst bw) (snd bw)) (combine (hbatches h) wss)) = length (hbatches h)).
  { rewrite map_length, combine_length. assert (E : length (hbatches h) = length wss) by (clear - F1; induction F1; cbn; auto). lia. }
  rewrite <- LC. apply K; auto.
  intros os' Ho. apply in_map_iff in Ho. destruct Ho as [[b ws] [<- Hb]]. cbn [fst snd].
  pose proof (in_combine_l _ _ _ _ Hb) as Hb1. pose proof (in_combine_r _ _ _ _ Hb) as Hb2.
  rewrite List.Forall_forall in BL. specialize (BL b Hb1). rewrite List.Forall_forall in F2. specialize (F2 ws Hb2).
  exists (Z.to_nat (br_len b) - 1)%nat, (map (fun w => Swap (sw_i w) (sw_j w)) ws). split.
  - unfold batch_ops. replace (Datatypes.S (Z.to_nat (br_len b) - 1)) with (Z.to_nat (br_len b)) by lia. reflexivity.
  - intros o Ho. apply in_map_iff in Ho. destruct Ho as [w [<- Hw]]. rewrite List.Forall_forall in F2. apply (F2 w Hw).
Qed.
Print Assumptions C74_run.

(** a case: three ranks of the shipped eggbox model with normal steps *)
Example C74_case : forall D,
  let box := [(0, 10); (0, 31)] in let L beta x := logpost_at (@egg_user RArith (0, 10) (0, 31) 1 1 1) D x beta in
  let Ls := [L 1; L (1/2); L (1/4)] in let phis := [[npdf 1; npdf 3]; [npdf 2; npdf 5]; [npdf 4; npdf 9]] in
  let b := [Move 0; Move 0; Move 1; Move 1; Move 2; Move 2; Swap 0 2] in
  exists delta, 0 < delta <= 1 /\ forall k, 
    Rabs (means box Ls phis (concat (repeat b k)) (fun Y => nth 0 (nth 0 Y []) 0) [[0; 0]; [5; 5]; [10; 31]]
          - bint box (fun x => exp (L 1 x) * nth 0 x 0) / bint box (fun x => exp (L 1 x))) <= (1 - delta) ^ k * (10 - 0).
Proof.
  intros D box L Ls phis b.
  assert (HW : forall p, In p box -> fst p < snd p) by (intros p [<-|[<-|[]]]; cbn; lra).
  assert (GS : forall a c, 0 < a -> 0 < c -> good_steps box [npdf a; npdf c]).
  { intros a c Ha Hc. split; [reflexivity|]. intros phi [<-|[<-|[]]]; apply npdf_ok; lra. }
  destruct (C74_cold box (L 1) [L (1/2); L (1/4)] phis HW) as [delta [D1 K]].
  - intros f [<-|[<-|[<-|[]]]]; apply egg_nice.
  - reflexivity.
  - intros ps [<-|[<-|[<-|[]]]]; apply GS; lra.
  - exists delta. split; auto. intros k.
    specialize (K (repeat b k)). rewrite repeat_length in K.
    apply (K (fun b Hb => ltac:(apply repeat_spec in Hb; subst b; exists 1%nat, [Swap 0 2]; split; [reflexivity|intros o [<-|[]]; cbn; lia])) (fun x => nth 0 x 0) 0 10).
    + apply nice_nth.
    + intros y Hy. inversion Hy as [|? v ? t Hv _]; subst. exact Hv.
    + reflexivity.
    + intros x [<-|[<-|[<-|[]]]]; repeat constructor; cbn; lra.
Qed.
