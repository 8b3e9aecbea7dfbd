(** Rows inside the prior box along whole runs, and a run whose first chain never moves. *)
From Coq Require Import ZArith Arith List Bool Reals Lia Lra.
From Flocq Require Import Core IEEE754.BinarySingleNaN.
From Verif Require Import Base Arith B64 Rand Mh Ladder Tune Mpi MpiMeta Spmd Prog Seq ListAux MhSpec SeqWf Refine
  SeqTotal System B64Facts RandRange Seeds UserModels Boundary Demo Runs SeqFiles History Views RunHist HistCount HistRows
  SwapLemmas SwapReal ChainInv Metro.
Import ListNotations.
Open Scope Z_scope.

Lemma run_exists : forall A (S : Setup A), Legal S -> exists k tr X, execution S k tr X /\ complete S X.
Proof.
  intros A S HL. destruct (legal_bound S HL) as [N HN]. destruct (HN 0%nat [] (initial S) ltac:(apply mr_refl)) as [_ [_ [_ [[k [tr [Y [R F]]]] _]]]].
  exists k, tr, Y. auto.
Qed.

Section Box.
Variable L : Libm.

Definition boxok (p : b64 * b64) : Prop :=
  is_finite (fst p) = true /\ is_finite (snd p) = true /\ (B2R (fst p) <= B2R (snd p))%R.
Definition inside (v : b64) (p : b64 * b64) : Prop :=
  is_finite v = true /\ (B2R (fst p) <= B2R v <= B2R (snd p))%R.
Definition inbox (box : list (b64 * b64)) (x : list b64) : Prop := Forall2 inside x box.
Definition hasnan (x : list b64) : Prop := Exists (fun v => is_nan v = true) x.

Lemma bound_cases : forall box x, Forall boxok box -> length x = length box ->
  inbox box (para_boundary (A := B64 L) box x) \/ hasnan (para_boundary (A := B64 L) box x).
Proof.
  induction box as [|[lo hi] box IH]; intros [|v x] HB HX; cbn in HX; try discriminate.
  - left. constructor.
  - cbn [para_boundary]. destruct (Forall_inv HB) as [H1 [H2 H3]]. cbn [fst snd] in *.
    destruct (is_nan v) eqn:Nv.
    + right. apply Exists_cons_hd. rewrite (nan_only _ Nv). rewrite bounce_nan. reflexivity.
    + destruct (IH x (Forall_inv_tail HB) (eq_add_S _ _ HX)) as [K|K].
      * left. constructor; auto. apply (bounce_in_box L v lo hi H1 H2 H3 Nv).
      * right. apply Exists_cons_tl. exact K.
Qed.

Variable S : Setup (B64 L).
Hypothesis HL : Legal S.
Variable D : Data (B64 L).
Variable box : list (b64 * b64).
Hypothesis HS : LibmSpecial L.
Hypothesis HBd : u_bound (s_user S) = para_boundary (A := B64 L) box.
Hypothesis HBl : Z.of_nat (length box) = N_parm (s_cfg S).
Hypothesis HBx : Forall boxok box.
(** NaN in, NaN out *)
Hypothesis HNan : forall x b, length x = length box -> hasnan x -> is_nan (logpost_at (s_user S) D x b : b64) = true.
Hypothesis HInit : forall r, (r < s_n S)%nat -> inbox box (fst (u_init (s_user S) (seed_of (s_cfg S) (s_n S) (s_env S) r))).

Definition boxP (_ : nat) (x : list b64) (lp b : b64) : Prop := inbox box x.

Lemma box_inv : ChainInv S D boxP.
Proof.
  constructor; [constructor| |].
  - intros r sigma b s _ Hs Hx H. unfold boxP in *.
    destruct (mhstep_cases (s_user S) D sigma b s) as [[Hok ->]|[_ ->]]; cbn [ms_x]; auto.
    set (new0 := fst (prop_list (ms_x s) sigma (ms_g s))) in *.
    assert (Ln : length new0 = length box).
    { unfold new0. unfold haslen in *. rewrite prop_list_length by lia. lia. }
    rewrite HBd in *. destruct (bound_cases box new0 HBx Ln) as [K|K]; [exact K|]. exfalso.
    pose proof (HNan (para_boundary (A := B64 L) box new0) b (eq_trans (para_boundary_length (A := B64 L) box new0) Ln) K) as N.
    apply nan_only in N. rewrite N in Hok. rewrite (refuse_nan L HS) in Hok. discriminate.
  - intros i j xi li bi xj lj bj g _ _ Hi Hj _ _. split; auto.
  - intros r Hr. apply HInit. exact Hr.
  - intros _ r x lp b b' _ H. exact H.
Qed.

Lemma box_rows : forall k tr X, execution S k tr X -> dataset S D -> forall r, (r < s_n S)%nat ->
  forall ev, In ev (file (FChain r) tr) -> exists q, ev = EvRow r q /\ inbox box (r_parm q).
Proof.
  intros k tr X HE HD r Hr ev He.
  destruct (rows_hold S HL D boxP box_inv k tr X HE HD r Hr ev He) as [q [b [E P]]]. exists q. auto.
Qed.
End Box.

(** uniform initial draws are inside *)
Definition spanok (p : b64 * b64) : Prop := boxok p /\ is_finite (Bminus mode_NE (snd p) (fst p)) = true.

Lemma init_unif_inside : forall L (box : list (b64 * b64)) g, Forall spanok box ->
  inbox box (fst (init_draws (A := B64 L) (repeat DUnif (length box)) box g)).
Proof.
  intros L. induction box as [|[lo hi] box IH]; intros g HB; cbn [length repeat init_draws]; [constructor|].
  destruct (Forall_inv HB) as [[H1 [H2 H3]] H4]. cbn [fst snd] in *.
  rewrite (surjective_pairing (r8_unif_ab (A := B64 L) lo hi g)).
  rewrite (surjective_pairing (init_draws (A := B64 L) (repeat DUnif (length box)) box _)).
  cbn [fst]. constructor; [|apply IH; exact (Forall_inv_tail HB)].
  apply (r8_unif_ab_b64 L lo hi g H1 H2 H3 H4).
Qed.

(** ** the shipped models return NaN on NaN, when the library functions do *)
Definition LibmNan (L : Libm) : Prop :=
  l_exp L B754_nan = B754_nan /\ l_log L B754_nan = B754_nan /\ l_cos L B754_nan = B754_nan /\ l_sin L B754_nan = B754_nan /\
  l_pow L B754_nan (bof 2) = B754_nan.

Section Nan.
Variable L : Libm.
Hypothesis HN : LibmNan L.
Notation A := (B64 L).

Lemma nadd_nan_l : forall x : b64, @nadd A B754_nan x = (B754_nan : b64). Proof. reflexivity. Qed.
Lemma nadd_nan_r : forall x : b64, @nadd A x B754_nan = (B754_nan : b64). Proof. intros [s|s| |s m e H]; reflexivity. Qed.
Lemma nsub_nan_l : forall x : b64, @nsub A B754_nan x = (B754_nan : b64). Proof. reflexivity. Qed.
Lemma nsub_nan_r : forall x : b64, @nsub A x B754_nan = (B754_nan : b64). Proof. intros [s|s| |s m e H]; reflexivity. Qed.
Lemma nmul_nan_l : forall x : b64, @nmul A B754_nan x = (B754_nan : b64). Proof. reflexivity. Qed.
Lemma nmul_nan_r : forall x : b64, @nmul A x B754_nan = (B754_nan : b64). Proof. intros [s|s| |s m e H]; reflexivity. Qed.
Lemma ndiv_nan_l : forall x : b64, @ndiv A B754_nan x = (B754_nan : b64). Proof. reflexivity. Qed.
Lemma ndiv_nan_r : forall x : b64, @ndiv A x B754_nan = (B754_nan : b64). Proof. intros [s|s| |s m e H]; reflexivity. Qed.
Lemma nopp_nan : @nopp A B754_nan = (B754_nan : b64). Proof. reflexivity. Qed.
Lemma nexp_nan : @nexp A B754_nan = (B754_nan : b64). Proof. apply HN. Qed.
Lemma nlog_nan : @nlog A B754_nan = (B754_nan : b64). Proof. apply HN. Qed.
Lemma ncos_nan : @ncos A B754_nan = (B754_nan : b64). Proof. apply HN. Qed.
Lemma nsin_nan : @nsin A B754_nan = (B754_nan : b64). Proof. apply HN. Qed.
Lemma sq_nan : sq (A := A) B754_nan = (B754_nan : b64). Proof. apply HN. Qed.
End Nan.
Global Opaque sq.

Ltac nanr L HN := 
  repeat first [rewrite (nadd_nan_l L)|rewrite (nadd_nan_r L)|rewrite (nsub_nan_l L)|rewrite (nsub_nan_r L)
    |rewrite (nmul_nan_l L)|rewrite (nmul_nan_r L)|rewrite (ndiv_nan_l L)|rewrite (ndiv_nan_r L)|rewrite (nopp_nan L)
    |rewrite (nexp_nan L HN)|rewrite (nlog_nan L HN)|rewrite (ncos_nan L HN)|rewrite (nsin_nan L HN)|rewrite (sq_nan L HN)].

Lemma hasnan_nth : forall x, hasnan x -> exists i, (i < length x)%nat /\ nth i x (bof 0) = B754_nan.
Proof.
  intros x H. induction H as [v x H|v x H [i [Hi Hn]]].
  - exists 0%nat. split; [cbn; lia|]. apply nan_only. exact H.
  - exists (S i). split; [cbn; lia|]. exact Hn.
Qed.

(** [nanout U D k]: the log-posterior of k coordinates, one of them NaN, is NaN *)
Definition nanout {L} (U : User (B64 L)) (D : Data (B64 L)) (k : nat) : Prop :=
  forall x b, length x = k -> hasnan x -> is_nan (logpost_at U D x b : b64) = true.

Lemma val_nan : forall L (v : b64 -> b64 -> b64) lp ra rb gp smin smax D,
  (forall y, v B754_nan y = B754_nan) -> (forall y, v y B754_nan = B754_nan) ->
  nanout (val_user (A := B64 L) v lp ra rb gp smin smax) D 2.
Proof.
  intros L v lp ra rb gp smin smax D H1 H2 x b Hl Hn. destruct (hasnan_nth _ Hn) as [i [Hi Ei]]. rewrite Hl in Hi.
  unfold logpost_at, val_user. cbn [u_logll u_logprior]. unfold val_logll, xi.
  change (@nof (B64 L)) with bof. change (num (B64 L)) with b64 in *.
  destruct i as [|[|i]]; [| |lia]; rewrite Ei, ?H1, ?H2; reflexivity.
Qed.

Lemma egg_nan : forall L ra rb gp smin smax D, LibmNan L -> nanout (egg_user (A := B64 L) ra rb gp smin smax) D 2.
Proof.
  intros L ra rb gp smin smax D HN. apply val_nan; intros y; unfold egg_value; nanr L HN; reflexivity.
Qed.
Lemma curved_nan : forall L ra rb gp smin smax D, LibmNan L -> nanout (curved_user (A := B64 L) ra rb gp smin smax) D 2.
Proof.
  intros L ra rb gp smin smax D HN. apply val_nan; intros y; unfold curved_value; nanr L HN; reflexivity.
Qed.
Lemma multi_nan : forall L ra rb gp smin smax D, LibmNan L -> nanout (multi_user (A := B64 L) ra rb gp smin smax) D 2.
Proof.
  intros L ra rb gp smin smax D HN. apply val_nan; intros y; unfold multi_value; cbn zeta; nanr L HN; reflexivity.
Qed.
Lemma ras_nan : forall L ra rb rc rd re gp smin smax D, LibmNan L ->
  nanout (ras_user (A := B64 L) ra rb rc rd re gp smin smax) D 5.
Proof.
  intros L ra rb rc rd re gp smin smax D HN x b Hl Hn. destruct (hasnan_nth _ Hn) as [i [Hi Ei]]. rewrite Hl in Hi.
  unfold logpost_at, ras_user. cbn [u_logll u_logprior]. unfold ras_logll, xi.
  change (@nof (B64 L) 0) with (bof 0). change (num (B64 L)) with b64 in *.
  do 5 (destruct i as [|i]; [rewrite Ei; unfold ras_value; cbn zeta; nanr L HN; reflexivity|]). lia.
Qed.

Lemma reg_nan : forall L nd ra rb rd gp smin smax D, LibmNan L -> 1 <= d_nline D ->
  nanout (reg_user (A := B64 L) nd ra rb rd gp smin smax) D 3.
Proof.
  intros L nd ra rb rd gp smin smax D HN HD x b Hl Hn. destruct (hasnan_nth _ Hn) as [i [Hi Ei]]. rewrite Hl in Hi.
  unfold logpost_at, reg_user. cbn [u_logll u_logprior]. unfold reg_logll, reg_sum.
  assert (HT : forall k, reg_term (A := B64 L) x nd (d_arr D) k = (B754_nan : b64)).
  { intros k. unfold reg_term, xi. change (@nof (B64 L) 0) with (bof 0). change (num (B64 L)) with b64 in *.
    do 3 (destruct i as [|i]; [rewrite Ei; cbn zeta; nanr L HN; reflexivity|]). lia. }
  destruct (Z.to_nat (d_nline D)) as [|m] eqn:Em; [lia|]. 
  assert (HF : forall l (s : b64), l <> [] -> fold_left (fun s i => @nadd (B64 L) s (reg_term (A := B64 L) x nd (d_arr D) (Z.of_nat i))) l s = (B754_nan : b64)).
  { induction l as [|j l IH]; intros s Hne; [congruence|]. cbn [fold_left]. rewrite HT, (nadd_nan_r L).
    destruct l; [reflexivity|]. apply IH. discriminate. }
  rewrite HF by (cbn; discriminate). reflexivity.
Qed.
Global Transparent sq.

(** ** the two-parameter models and rastrigin, from start to end *)
Section Shipped.
Variable L : Libm.
Hypothesis HS : LibmSpecial L.
Hypothesis HN : LibmNan L.
Variable S : Setup (B64 L).
Hypothesis HL : Legal S.

Lemma unif_model_rows : forall D (box : list (b64 * b64)),
  u_bound (s_user S) = para_boundary (A := B64 L) box ->
  u_init (s_user S) = init_parm_set (A := B64 L) (repeat DUnif (length box)) box ->
  Z.of_nat (length box) = N_parm (s_cfg S) -> Forall spanok box -> nanout (s_user S) D (length box) ->
  forall k tr X, execution S k tr X -> dataset S D -> forall r, (r < s_n S)%nat ->
  forall ev, In ev (file (FChain r) tr) -> exists q, ev = EvRow r q /\ inbox box (r_parm q).
Proof.
  intros D box H1 H2 H3 H4 H5. apply (box_rows L S HL D box HS H1 H3); auto.
  - eapply Forall_impl; [|exact H4]. intros p [K _]. exact K.
  - intros r _. rewrite H2. unfold init_parm_set. apply init_unif_inside. exact H4.
Qed.
End Shipped.

Lemma val_valid : forall A (C : Cfg A) v lp ra rb gp smin smax, N_parm C = 2 -> ValidUser C (val_user (A := A) v lp ra rb gp smin smax).
Proof.
  intros A C v lp ra rb gp smin smax HN. constructor; [constructor| |]; try (cbn; lia).
  - intros x Hx. unfold haslen in *. unfold val_user. cbn [u_bound]. rewrite para_boundary_length. auto.
  - intros s. unfold haslen. unfold val_user. cbn [u_init]. unfold init_parm_set.
    rewrite init_draws_length by reflexivity. cbn. lia.
  - unfold haslen. cbn. lia.
Qed.

(** a legal setup with the eggbox model: models/eggbox/input.ini has the ranges [0, 50]; here
    [0, 31], three ranks, 100 iterations *)
Section EggDemo.
Variable L : Libm.
Definition egg_ra : b64 * b64 := (bof 0, bof 31).
Definition egg_cfg : Cfg (B64 L) :=
  mkCfgP (B64 L) 2 100 20 5 2 1 1 40 60 10 1 60 0 7
    (nlit 10 2) (nlit 45 2) (nlit 23 2) (nlit 1 1) (nof 20) (nof 300) (nlit 2 1) (nlit 1 1)
    [nlit 1 2; nlit 1 1; nof 1].
Definition egg_demo : Setup (B64 L) :=
  mkSetup egg_cfg (egg_user (A := B64 L) egg_ra egg_ra (nlit 1 1) (nlit 5 10) (nlit 2 1)) 3 (demo_env (B64 L)) 2.
Lemma egg_legal : Legal egg_demo.
Proof.
  split; [apply RandOK_b64|]. split; [|split].
  - constructor; cbn; try (vm_compute; intuition discriminate); try lia.
  - apply val_valid. reflexivity.
  - apply demo_env_valid.
Qed.
Lemma egg_span : Forall spanok [egg_ra; egg_ra].
Proof.
  assert (K : spanok egg_ra); [|constructor; [exact K|constructor; [exact K|constructor]]].
  split; [split; [reflexivity|split; [reflexivity|]]|reflexivity].
  cbn [egg_ra fst snd]. destruct (bof_ok 0 ltac:(cbn; lia)) as [-> _]. destruct (bof_ok 31 ltac:(cbn; lia)) as [-> _]. lra.
Qed.
End EggDemo.

(** library functions with the required values: exp = 1 and log = sin = cos = pow = 0 elsewhere *)
Definition libm0 : Libm :=
  let f v x := if is_nan x then B754_nan else v in
  mkLibm (fun x => match x with B754_infinity true => B754_zero false | _ => f (bof 1) x end)
    (f (B754_zero false)) (f (B754_zero false)) (f (B754_zero false)) (fun x _ => f (B754_zero false) x).
Lemma libm0_special : LibmSpecial libm0.
Proof. split; [reflexivity|split; reflexivity]. Qed.
Lemma libm0_nan : LibmNan libm0.
Proof. repeat split. Qed.

(** ** a run whose second chain starts on a point without log-posterior *)
Section Hole.
Variable L : Libm.
Hypothesis HS : LibmSpecial L.
Definition hole_seed : Z := seed_of (s_cfg (egg_demo L)) 3 (demo_env (B64 L)) 1.
(** NaN at 0, 0 elsewhere, on the interval [0, 31] *)
Definition hole_user : User (B64 L) :=
  mkUser (B64 L) (fun x _ _ _ => if @neqb (B64 L) (nth 0 x (nof 0)) (nof 0) then (B754_nan : b64) else nof 0) (fun _ => nof 0)
    (para_boundary (A := B64 L) [egg_ra])
    (fun s => ([nof (if s =? hole_seed then 0 else 1)], Rand.srand48 s)) [nof 1] [nof 0] [nof 2].
Definition hole_cfg : Cfg (B64 L) :=
  mkCfgP (B64 L) 1 100 20 5 2 1 1 40 60 10 1 60 0 7
    (nlit 10 2) (nlit 45 2) (nlit 23 2) (nlit 1 1) (nof 20) (nof 300) (nlit 2 1) (nlit 1 1)
    [nlit 1 2; nlit 1 1; nof 1].
Definition hole : Setup (B64 L) := mkSetup hole_cfg hole_user 3 (demo_env (B64 L)) 2.
Lemma hole_legal : Legal hole.
Proof.
  split; [apply RandOK_b64|]. split; [|split].
  - constructor; cbn; try (vm_compute; intuition discriminate); try lia.
  - constructor; [constructor| |].
    + intros x Hx. unfold haslen in *. cbn [s_user hole hole_user u_bound]. rewrite (para_boundary_length (A := B64 L)). auto.
    + intros s. reflexivity.
    + reflexivity.
    + cbn. lia.
    + cbn. lia.
  - apply demo_env_valid.
Qed.
Lemma hole_start : fst (u_init hole_user (seed_of hole_cfg 3 (demo_env (B64 L)) 1)) = [bof 0].
Proof.
  unfold hole_user. cbn [u_init fst]. change (seed_of hole_cfg 3 (demo_env (B64 L)) 1) with hole_seed. rewrite Z.eqb_refl. reflexivity.
Qed.
Lemma hole_nan : forall D b, logpost_at hole_user D [bof 0] b = (B754_nan : b64).
Proof. intros. unfold logpost_at, hole_user. cbn [u_logll u_logprior nth]. replace (@neqb (B64 L) (bof 0) (nof 0)) with true by (vm_compute; reflexivity). reflexivity. Qed.
Lemma hole_elsewhere : forall D v b, Beqb v (bof 0) = false -> is_finite (logpost_at hole_user D [v] b : b64) = true.
Proof.
  intros D v b H. unfold logpost_at, hole_user. cbn [u_logll u_logprior nth]. change (@neqb (B64 L)) with (@Beqb prec emax).
  change (@nof (B64 L) 0) with (bof 0). rewrite H. reflexivity.
Qed.

Lemma hole_never : forall D,
  (forall k tr X, execution hole k tr X -> dataset hole D -> forall ev, In ev (file (FChain 1) tr) ->
     exists q, ev = EvRow 1 q /\ r_parm q = [bof 0] /\ r_lp q = (B754_nan : b64)) /\
  (forall G0 h Gf, history hole D G0 h Gf -> x_at Gf 1 = [bof 0]).
Proof.
  intros D. pose proof (stuck_rows L HS hole hole_legal D 1 ltac:(cbn; lia)) as K. cbn zeta in K.
  change (s_cfg hole) with hole_cfg in K. change (s_user hole) with hole_user in K. change (s_n hole) with 3%nat in K.
  change (s_env hole) with (demo_env (B64 L)) in K. rewrite hole_start, hole_nan in K.
  destruct (K (or_introl eq_refl)) as [K1 K2]. split; [exact K1|]. intros G0 h Gf HH. apply (K2 _ _ _ HH).
Qed.
End Hole.
