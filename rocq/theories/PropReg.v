(** Property C89: the regression model in binary64. *)
From Coq Require Import ZArith Arith List Bool Reals Lia Lra Psatz.
From Flocq Require Import Core Relative IEEE754.BinarySingleNaN.
From Verif Require Import Base Arith B64 Rand Mh Ladder Tune Mpi MpiMeta Spmd Prog Seq ListAux MhSpec SeqWf Refine
  SeqTotal System B64Facts RandRange Seeds UserModels Boundary Demo Runs SeqFiles History Views RunHist HistCount HistRows
  SwapLemmas SwapReal ChainInv Stale SwapMore Metro BoxRuns FailRuns Kepler Kepler64 Orb64 Decide64 PropKepler PropDecide PropSwap Reg64.
Import ListNotations.
Open Scope R_scope.

(** The log likelihood of the model y = a x + b + N(0, d) over the reals, with the values of the doubles of a parameter
    vector and of a data array of n lines with nd columns; the log prior, uniform on the ranges of a and b, Jeffreys on
    that of d; and the log posterior at power beta of the likelihood. *)
Definition reg_loglik (nd : Z) (data : list b64) (n : nat) (v : list b64) : R :=
  let a := B2R (nth 0 v (bof 0)) in let b := B2R (nth 1 v (bof 0)) in let d := B2R (nth 2 v (bof 0)) in
  let x i := B2R (nth (Z.to_nat (Z.of_nat i * nd)) data (bof 0)) in
  let y i := B2R (nth (Z.to_nat (Z.of_nat i * nd + 1)) data (bof 0)) in
  fold_left (fun s i => s + (- ln (2 * PI) / 2 - ln (d * d) / 2 - (x i * a + b - y i) * (x i * a + b - y i) / 2 / (d * d))) (seq 0 n) 0.
Definition reg_logpri (ra rb rd : b64 * b64) (v : list b64) : R :=
  - ln (B2R (snd ra) - B2R (fst ra)) - ln (B2R (snd rb) - B2R (fst rb)) - ln (B2R (nth 2 v (bof 0)) * ln (B2R (snd rd) / B2R (fst rd))).
Definition reg_exact (nd : Z) (ra rb rd : b64 * b64) (data : list b64) (n : nat) (beta : R) (v : list b64) : R :=
  beta * reg_loglik nd data n v + reg_logpri ra rb rd v.

(** what is asked of the input: finite ranges, neither very narrow nor very wide *)
Definition reg_ranges (ra rb rd : b64 * b64) : Prop :=
  (forall p, In p [ra; rb; rd] -> is_finite (fst p) = true /\ is_finite (snd p) = true) /\
  / 2 ^ 40 <= B2R (snd ra) - B2R (fst ra) <= 2 ^ 40 /\ / 2 ^ 40 <= B2R (snd rb) - B2R (fst rb) <= 2 ^ 40 /\
  / 2 ^ 40 <= B2R (fst rd) /\ 2 * B2R (fst rd) <= B2R (snd rd) <= 2 ^ 40.
(** at most 2^20 lines of finite data, with values up to X and Y *)
Definition reg_data (nd : Z) (data : list b64) (n : nat) (X Y : R) : Prop :=
  INR n <= 2 ^ 20 /\ forall i, (i < n)%nat ->
    let x := nth (Z.to_nat (Z.of_nat i * nd)) data (bof 0) in let y := nth (Z.to_nat (Z.of_nat i * nd + 1)) data (bof 0) in
    is_finite x = true /\ is_finite y = true /\ Rabs (B2R x) <= X /\ Rabs (B2R y) <= Y.
(** the size of a residual at a parameter vector, before anything cancels *)
Definition reg_size (X Y : R) (v : list b64) : R := 1 + X * Rabs (B2R (nth 0 v (bof 0))) + Rabs (B2R (nth 1 v (bof 0))) + Y.
Definition reg_good (X Y : R) (v : list b64) : Prop :=
  (forall i, (i < 3)%nat -> is_finite (nth i v (bof 0)) = true) /\ / 2 ^ 40 <= B2R (nth 2 v (bof 0)) <= 2 ^ 40 /\ reg_size X Y v <= 2 ^ 100.
(** the bound *)
Definition reg_err (n : nat) (X Y : R) (v : list b64) : R :=
  let d := B2R (nth 2 v (bof 0)) in
  (INR n + 37) * (INR n + 37) * (1 + Rabs (ln (d * d)) + reg_size X Y v * reg_size X Y v / (d * d)) / 2 ^ 53.

Lemma bp_pow : forall k, bp (Z.of_nat k) = 2 ^ k /\ bp (- Z.of_nat k) = / 2 ^ k.
Proof.
  intros k. assert (E : bp (Z.of_nat k) = 2 ^ k).
  { rewrite <- IZR_Zpower by lia. change (Zpower radix2 (Z.of_nat k)) with (Z.pow 2 (Z.of_nat k)). rewrite <- pow_IZR. reflexivity. }
  split; [exact E|]. rewrite bpow_opp, E. reflexivity.
Qed.

Lemma line_alt : forall a b d x y, line_R a b d x y = - ln (2 * PI) / 2 - ln (d * d) / 2 - (x * a + b - y) * (x * a + b - y) / 2 / (d * d).
Proof. intros. unfold line_R, Rdiv. ring. Qed.

Lemma reg_post_64 : forall L, log_near L -> sq_near L ->
  forall nd ra rb rd gp smin smax (D : Data (B64 L)) n X Y, reg_ranges ra rb rd -> d_nline D = Z.of_nat n -> reg_data nd (d_arr D) n X Y ->
  0 <= X -> 0 <= Y -> forall (beta : b64), is_finite beta = true -> 0 <= B2R beta <= 1 ->
  forall v, reg_good X Y v ->
  let l := logpost_at (@reg_user (B64 L) nd ra rb rd gp smin smax) D v beta : b64 in
  is_finite l = true /\ Rabs (B2R l - reg_exact nd ra rb rd (d_arr D) n (B2R beta) v) <= reg_err n X Y v /\
  Rabs (B2R l) <= (2 * INR n + 212) * line_size (B2R (nth 2 v (bof 0))) (reg_size X Y v) /\
  1 <= line_size (B2R (nth 2 v (bof 0))) (reg_size X Y v) <= bp 500.
Proof.
  intros L HL HQ nd ra rb rd gp smin smax D n X Y HR Hn HD X0 Y0 beta Fb Hb v HG. cbv zeta.
  destruct HR as [R1 [R2 [R3 [R4 [R5 R6]]]]]. destruct HD as [D1 D2]. destruct HG as [G1 [G2 G3]].
  destruct (bp_pow 40) as [P1 P2]. destruct (bp_pow 100) as [P3 _]. change (Z.of_nat 40) with 40%Z in *. change (- (40))%Z with (-40)%Z in *. change (Z.of_nat 100) with 100%Z in *.
  rewrite <- P2, <- P1 in *. rewrite <- P3 in *.
  assert (Fa := G1 0%nat ltac:(lia)). assert (Fbb := G1 1%nat ltac:(lia)). assert (Fd := G1 2%nat ltac:(lia)).
  assert (S1 : 1 <= reg_size X Y v).
  { unfold reg_size. pose proof (Rmult_le_pos _ _ X0 (Rabs_pos (B2R (nth 0 v (bof 0))))). pose proof (Rabs_pos (B2R (nth 1 v (bof 0)))). lra. }
  destruct (reg_64 L HL HQ nd ra rb rd gp smin smax D n v beta (reg_size X Y v) R1 R2 R3 R4 R6 R5 Hn D1 Fb Hb Fa Fbb Fd G2 (conj S1 G3)) as [F [E B]].
  - intros i Hi. destruct (D2 i Hi) as [Fx [Fy [Bx By]]]. cbv zeta in *. rewrite Z.add_0_r. split; [exact Fx|]. split; [exact Fy|].
    unfold reg_size. rewrite Rabs_mult. pose proof (Rabs_pos (B2R (nth 0 v (bof 0)))) as A0.
    match goal with |- ?p + ?q + _ <= 1 + ?s + _ + _ => apply Rle_trans with (s + q + Y); [|lra] end.
    apply Rplus_le_compat; [apply Rplus_le_compat_r; exact (Rmult_le_compat_r _ _ _ A0 Bx)|exact By].
  - cbv zeta in F, E, B. split; [exact F|]. split; [|split; [exact B|]].
    2:{ pose proof (bpow_gt_0 radix2 (-40)) as PP. assert (bp (-100) <= bp (-40)) by (apply bpow_le; lia). assert (bp 40 <= bp 100) by (apply bpow_le; lia).
        split; [apply size_ge; lra|apply size_le; lra]. }
    replace (reg_exact nd ra rb rd (d_arr D) n (B2R beta) v) with
      (post_R (B2R beta) (B2R (nth 0 v (bof 0))) (B2R (nth 1 v (bof 0))) (B2R (nth 2 v (bof 0)))
        (fun i => B2R (nth (Z.to_nat (Z.of_nat i * nd + 0)) (d_arr D) (bof 0) : b64)) (fun i => B2R (nth (Z.to_nat (Z.of_nat i * nd + 1)) (d_arr D) (bof 0) : b64)) n
        (B2R (snd ra) - B2R (fst ra)) (B2R (snd rb) - B2R (fst rb)) (B2R (fst rd)) (B2R (snd rd))).
    + unfold reg_err, Rdiv. exact E.
    + unfold reg_exact, reg_loglik, reg_logpri, post_R, lines_R. f_equal. f_equal. generalize (seq 0 n) 0. induction l as [|i l IH]; intros z; [reflexivity|].
      cbn [fold_left]. rewrite IH. f_equal. rewrite line_alt, Z.add_0_r. reflexivity.
Qed.

(** C89.  [log_near], [sq_near]: the library's log is off by at most 2^-52 of its value (and 2^-100), its square by at most
    2^-52 of its value (and 2^-1000).  Then the log posterior the code computes is finite and as near to the exact one
    as [reg_err] says, for every input, every data and every parameter vector. *)
Theorem C89_posterior : forall L, log_near L -> sq_near L ->
  forall nd ra rb rd gp smin smax (D : Data (B64 L)) n X Y, reg_ranges ra rb rd -> d_nline D = Z.of_nat n -> reg_data nd (d_arr D) n X Y ->
  0 <= X -> 0 <= Y -> forall (beta : b64), is_finite beta = true -> 0 <= B2R beta <= 1 ->
  forall v, reg_good X Y v ->
  let l := logpost_at (@reg_user (B64 L) nd ra rb rd gp smin smax) D v beta : b64 in
  is_finite l = true /\ Rabs (B2R l - reg_exact nd ra rb rd (d_arr D) n (B2R beta) v) <= reg_err n X Y v.
Proof.
  intros L HL HQ nd ra rb rd gp smin smax D n X Y HR Hn HD X0 Y0 beta Fb Hb v HG. cbv zeta.
  destruct (reg_post_64 L HL HQ nd ra rb rd gp smin smax D n X Y HR Hn HD X0 Y0 beta Fb Hb v HG) as [F [E _]]. split; [exact F|exact E].
Qed.
Print Assumptions C89_posterior.

(** So in every run without ladder adaptation the chain of every rank takes the decisions of the Metropolis rule
    for the exact posterior, but for draws within [reg_err x + reg_err x' + 2^-49] of the exact probability.  In
    [metro_real] of the doubles only the parameter vectors occur. *)
Theorem C89_runs : forall L, LibmSpecial L -> exp_near L -> log_near L -> sq_near L ->
  forall (S : Setup (B64 L)) nd ra rb rd gp smin smax, Legal S -> s_user S = @reg_user (B64 L) nd ra rb rd gp smin smax ->
  (Tune_Ladder (s_cfg S) <= 0)%Z -> reg_ranges ra rb rd ->
  forall (D : Data (B64 L)) n X Y, d_nline D = Z.of_nat n -> reg_data nd (d_arr D) n X Y -> 0 <= X -> 0 <= Y ->
  forall G0 h Gf, history S D G0 h Gf ->
  forall r, (r < s_n S)%nat -> let beta := nth r (Beta_Values (s_cfg S)) (bof 0) : b64 in is_finite beta = true -> 0 <= B2R beta <= 1 ->
  forall b, In b (hbatches h) ->
  exists rows bs, length rows = length bs /\ Z.of_nat (length rows) = br_len b /\
    metro_real (reg_exact nd ra rb rd (d_arr D) n (B2R beta)) (reg_err n X Y) (reg_good X Y)
      (s_user S) (N_parm (s_cfg S)) (l_sig (loc_at (br_pre b) r)) (l_g (loc_at (br_pre b) r)) (row_at (br_pre b) r)
      rows bs (l_g (loc_at (br_mid b) r)).
Proof.
  intros L HS HE HL HQ S nd ra rb rd gp smin smax LG HU HT HR D n X Y Hn HD X0 Y0 G0 h Gf HH r Hr beta Fb Hb b Hb2.
  destruct (history_walks S LG _ _ _ _ HH r Hr) as [xs [W _]].
  assert (Z : exists x, batch_walk S D r b (fst x) (snd x)).
  { clear - W Hb2. induction W as [|b' x bl xs Hw W IH]; [destruct Hb2|]. destruct Hb2 as [->|Hb2]; [exists x; exact Hw|auto]. }
  destruct Z as [[rows bs] [K1 [K2 _]]]. cbn [fst snd] in *. exists rows, bs.
  split; [apply (walk_numbered _ _ _ _ _ _ _ _ _ _ K1)|]. split; [exact K2|].
  destruct (cached_states _ S LG HT D G0 h Gf HH) as [_ [_ [_ C]]]. destruct (C b Hb2) as [C1 _]. destruct (C1 r Hr) as [C2 C3].
  rewrite C3 in K1. 
  apply (walk_real L _ _ _ (s_user S) D (N_parm (s_cfg S)) _ beta HS HE).
  - intros v HG. rewrite HU. apply (C89_posterior L HL HQ); auto.
  - exact K1.
  - exact C2.
Qed.
Print Assumptions C89_runs.

(** The exchanges of such a run: with the exact log likelihood, the pair (x_i, x_j) is exchanged exactly when the uniform number
    is below min(1, exp((beta_i - beta_j)(Lk x_j - Lk x_i))), but for draws within 4 (reg_err x_i + reg_err x_j) + 2^-50 of it. *)
Theorem C89_swaps : forall L, exp_near L -> log_near L -> sq_near L ->
  forall (S : Setup (B64 L)) nd ra rb rd gp smin smax, Legal S -> s_user S = @reg_user (B64 L) nd ra rb rd gp smin smax ->
  (Tune_Ladder (s_cfg S) <= 0)%Z -> reg_ranges ra rb rd ->
  forall (D : Data (B64 L)) n X Y, d_nline D = Z.of_nat n -> reg_data nd (d_arr D) n X Y -> 0 <= X -> 0 <= Y ->
  (forall r, (r < s_n S)%nat -> let beta := nth r (Beta_Values (s_cfg S)) (bof 0) : b64 in is_finite beta = true /\ 0 <= B2R beta <= 1) ->
  forall G0 h Gf, history S D G0 h Gf -> forall b, In b (hbatches h) ->
  exists ws, attempts_of S D b ws /\
    Forall (fun w : swrec (B64 L) =>
      let i := sw_i w in let j := sw_j w in let x := x_at (sw_pre w) i in let x' := x_at (sw_pre w) j in
      let beta := fun r => B2R (nth r (Beta_Values (s_cfg S)) (bof 0) : b64) in
      let m := Rmin 1 (exp ((beta i - beta j) * (reg_loglik nd (d_arr D) n x' - reg_loglik nd (d_arr D) n x))) in
      reg_good X Y x -> reg_good X Y x' -> 4 * (reg_err n X Y x + reg_err n X Y x') + / 2 ^ 50 < Rabs (unif (sw_g w) - m) ->
      (sw_done w = true <-> unif (sw_g w) < m)) ws.
Proof.
  intros L HE HL HQ S nd ra rb rd gp smin smax LG HU HT HR D n X Y Hn HD X0 Y0 HB G0 h Gf HH b Hb2.
  destruct (batch_attempts S LG _ _ _ _ HH b Hb2) as [ws Hw]. exists ws. split; auto.
  destruct (holds_always S LG D _ (fixed_inv S D HT) _ _ _ HH) as [_ [F _]].
  destruct (hb_all S _ _ F b Hb2) as [_ [[_ Hm] _]]. destruct Hw as [_ [Hs Fw]].
  destruct (swaps_hold S D _ (fixed_inv S D HT) _ _ _ Hs Fw Hm) as [FH _].
  rewrite Forall_forall in *. intros w Hin. destruct (FH w Hin) as [Hp _]. pose proof (Fw w Hin) as Hw.
  assert (Hi : (sw_i w < s_n S)%nat) by (destruct Hw as [_ [? _]]; lia).
  assert (Hj : (sw_j w < s_n S)%nat) by apply Hw.
  destruct (Hp _ Hi) as [Ci Bi]. destruct (Hp _ Hj) as [Cj Bj]. cbv zeta. set (i := sw_i w) in *. set (j := sw_j w) in *.
  set (x := x_at (sw_pre w) i : list b64). set (x' := x_at (sw_pre w) j : list b64). intros Gx Gx'.
  destruct (HB i Hi) as [Fi Ri]. destruct (HB j Hj) as [Fj Rj]. cbv zeta in Fi, Ri, Fj, Rj.
  set (bi := nth i (Beta_Values (s_cfg S)) (bof 0) : b64) in *. set (bj := nth j (Beta_Values (s_cfg S)) (bof 0) : b64) in *.
  pose proof (reg_post_64 L HL HQ nd ra rb rd gp smin smax D n X Y HR Hn HD X0 Y0) as RP. rewrite <- HU in RP.
  destruct (RP bj Fj Rj x Gx) as [F1 [E1 [B1 T1]]]. destruct (RP bi Fi Ri x' Gx') as [F2 [E2 [B2 T2]]].
  destruct (RP bi Fi Ri x Gx) as [F3 [E3 [B3 _]]]. destruct (RP bj Fj Rj x' Gx') as [F4 [E4 [B4 _]]]. cbv zeta in *.
  unfold cached_at in Ci, Cj. destruct Hw as [_ [_ [_ [Hd _]]]]. rewrite Hd. unfold swap_sum. fold i j.
  change (x_at (sw_pre w) i) with x. change (x_at (sw_pre w) j) with x'.
  change (x_at (sw_pre w) i) with x in Ci. change (x_at (sw_pre w) j) with x' in Cj. rewrite Bi in *. rewrite Bj in *. rewrite Ci, Cj.
  change (nth i (Beta_Values (s_cfg S)) (nof 0)) with bi. change (nth j (Beta_Values (s_cfg S)) (nof 0)) with bj.
  set (N := INR n) in *. pose proof (pos_INR n) as N0. fold N in N0. destruct HD as [HN _]. fold N in HN.
  assert (EX : reg_err n X Y x = (N + 37) * (N + 37) * line_size (B2R (nth 2 x (bof 0))) (reg_size X Y x) * / 2 ^ 53) by reflexivity.
  assert (EX' : reg_err n X Y x' = (N + 37) * (N + 37) * line_size (B2R (nth 2 x' (bof 0))) (reg_size X Y x') * / 2 ^ 53) by reflexivity.
  set (T := line_size (B2R (nth 2 x (bof 0))) (reg_size X Y x)) in *. set (T' := line_size (B2R (nth 2 x' (bof 0))) (reg_size X Y x')) in *.
  set (e := reg_err n X Y x) in *. set (e' := reg_err n X Y x') in *.
  set (B := (2 * N + 212) * (T + T')).
  assert (HBB : 1 <= B <= bpow radix2 990).
  { unfold B. split; [nra|]. apply Rle_trans with (bp 22 * bp 501); [|rewrite <- bpow_plus; apply bpow_le; lia].
    apply Rmult_le_compat; try lra; [change (bp 22) with 4194304; lra|]. change 501%Z with (1 + 500)%Z. rewrite bpow_plus. change (bp 1) with 2. lra. }
  assert (TT : (2 * N + 212) * T <= B /\ (2 * N + 212) * T' <= B) by (unfold B; split; nra).
  assert (TB : 10 * B * / 2 ^ 53 <= 2 * (e + e')).
  { rewrite EX, EX'. unfold B. replace (2 * ((N + 37) * (N + 37) * T * / 2 ^ 53 + (N + 37) * (N + 37) * T' * / 2 ^ 53)) with (2 * ((N + 37) * (N + 37)) * (T + T') * / 2 ^ 53) by ring.
    apply Rmult_le_compat_r; [left; apply Rinv_0_lt_compat, pow_lt; lra|]. rewrite <- Rmult_assoc. apply Rmult_le_compat_r; [lra|]. nra. }
  set (Lx := reg_loglik nd (d_arr D) n x) in *. set (Lx' := reg_loglik nd (d_arr D) n x') in *.
  replace ((B2R bi - B2R bj) * (Lx' - Lx)) with
    (reg_exact nd ra rb rd (d_arr D) n (B2R bj) x + reg_exact nd ra rb rd (d_arr D) n (B2R bi) x' - reg_exact nd ra rb rd (d_arr D) n (B2R bi) x - reg_exact nd ra rb rd (d_arr D) n (B2R bj) x')
    by (unfold reg_exact; fold Lx Lx'; ring).
  intros Hg. apply (swap_near L HE _ _ _ _ B _ _ _ _ (2 * (e + e')) F1 F2 F3 F4 HBB); try lra; try (eapply Rle_trans; [eassumption|tauto]).
  apply Rabs_le_inv in E1. apply Rabs_le_inv in E2. apply Rabs_le_inv in E3. apply Rabs_le_inv in E4. apply Rabs_le. lra.
Qed.
Print Assumptions C89_swaps.

(** On the shipped input (1000 lines with 0 < x < 10 and 0 < y < 45), at the vectors of its posterior the bound is
    below two millionths. *)
Theorem C89_shipped : forall v, Rabs (B2R (nth 0 v (bof 0))) <= 5 -> Rabs (B2R (nth 1 v (bof 0))) <= 20 -> 1 <= B2R (nth 2 v (bof 0)) <= 30 ->
  reg_err 1000 10 45 v <= 2 / 1000000.
Proof.
  intros v Ha Hb Hd. unfold reg_err. set (d := B2R (nth 2 v (bof 0))) in *.
  assert (S : 1 <= reg_size 10 45 v <= 116).
  { unfold reg_size. pose proof (Rabs_pos (B2R (nth 0 v (bof 0)))). pose proof (Rabs_pos (B2R (nth 1 v (bof 0)))). lra. }
  assert (LD : Rabs (ln (d * d)) <= 900).
  { assert (1 <= d * d <= 900) by nra. rewrite Rabs_pos_eq.
    - pose proof (exp_ineq1_le (ln (d * d))) as E. rewrite exp_ln in E by lra. lra.
    - rewrite <- ln_1. destruct (Req_dec 1 (d * d)) as [<-|]; [lra|left; apply ln_increasing; lra]. }
  assert (Q : reg_size 10 45 v * reg_size 10 45 v / (d * d) <= 13456).
  { apply Rle_trans with (reg_size 10 45 v * reg_size 10 45 v * / 1); [|rewrite Rinv_1, Rmult_1_r; nra]. unfold Rdiv. apply Rmult_le_compat_l; [nra|]. apply Rinv_le_contravar; [lra|nra]. }
  replace (INR 1000) with 1000 by (rewrite INR_IZR_INZ; reflexivity).
  apply Rle_trans with ((1000 + 37) * (1000 + 37) * (1 + 900 + 13456) / 2 ^ 53); [|lra].
  unfold Rdiv. apply Rmult_le_compat_r; [left; apply Rinv_0_lt_compat, pow_lt; lra|]. nra.
Qed.
Print Assumptions C89_shipped.

(** The bound cannot do without the square of the residual's size over d: on one line of data, at two vectors
    inside ranges that are allowed, the code finds the same log posterior, so that it always takes the step, and the
    exact ones differ by 8, so that it is to be taken with a probability of exp(-8). *)
Theorem C89_cancel_refuted : exists ra rb rd x y v v', reg_ranges ra rb rd /\ reg_data 2 [x; y] 1 1 (2 ^ 20) /\ reg_good 1 (2 ^ 20) v /\ reg_good 1 (2 ^ 20) v' /\
  Forall2 (fun (c : b64) p => B2R (fst p) <= B2R c <= B2R (snd p)) v [ra; rb; rd] /\ Forall2 (fun (c : b64) p => B2R (fst p) <= B2R c <= B2R (snd p)) v' [ra; rb; rd] /\
  reg_exact 2 ra rb rd [x; y] 1 1 v' - reg_exact 2 ra rb rd [x; y] 1 1 v = -8 /\
  forall L gp smin smax, logpost_at (@reg_user (B64 L) 2 ra rb rd gp smin smax) (mkData (A := B64 L) 1 [x; y]) v' (bof 1) =
    logpost_at (@reg_user (B64 L) 2 ra rb rd gp smin smax) (mkData (A := B64 L) 1 [x; y]) v (bof 1).
Proof.
  set (tiny := @B754_finite prec emax false 4503599627370496 (-86) eq_refl : b64).
  set (dd := @B754_finite prec emax false 4503599627370496 (-88) eq_refl : b64).
  set (big := @B754_finite prec emax false 4503599627370496 (-32) eq_refl : b64).
  assert (VT : B2R tiny = / 2 ^ 34). 
  { unfold tiny, B2R, F2R. cbn [cond_Zopp Fnum Fexp]. change (IZR 4503599627370496) with (bp 52). rewrite <- bpow_plus. apply (bp_pow 34). }
  assert (VD : B2R dd = / 2 ^ 36).
  { unfold dd, B2R, F2R. cbn [cond_Zopp Fnum Fexp]. change (IZR 4503599627370496) with (bp 52). rewrite <- bpow_plus. apply (bp_pow 36). }
  assert (VB : B2R big = 2 ^ 20).
  { unfold big, B2R, F2R. cbn [cond_Zopp Fnum Fexp]. change (IZR 4503599627370496) with (bp 52). rewrite <- bpow_plus. apply (bp_pow 20). }
  destruct (bof_ok 0 ltac:(lia)) as [V0 F0]. destruct (bof_ok 1 ltac:(lia)) as [V1 F1]. 
  exists (bof 0, big), (bof 0, bof 1), (dd, bof 1), (bof 1), big, [big; bof 0; dd], [big; tiny; dd].
  assert (P34 : 0 < / 2 ^ 34 < / 2 ^ 10) by (split; [apply Rinv_0_lt_compat, pow_lt; lra|apply Rinv_lt_contravar; lra]).
  assert (P36 : / 2 ^ 40 < / 2 ^ 36 < / 2 ^ 10) by (split; apply Rinv_lt_contravar; lra).
  assert (P40 : / 2 ^ 40 < / 2 ^ 10) by (apply Rinv_lt_contravar; lra).
  split; [|split; [|split; [|split; [|split; [|split; [|split]]]]]].
  - split; [|cbn [fst snd]; rewrite VB, V0, V1, VD; repeat split; lra].
    intros p [<-|[<-|[<-|[]]]]; auto.
  - split; [simpl INR; lra|]. intros i Hi. replace i with 0%nat by lia. cbv zeta. change (Z.to_nat (Z.of_nat 0 * 2)) with 0%nat. change (Z.to_nat (Z.of_nat 0 * 2 + 1)) with 1%nat.
    cbn [nth]. rewrite V1, VB. rewrite !Rabs_pos_eq by lra. repeat split; auto; lra.
  - split; [intros i Hi; destruct i as [|[|[|]]]; auto; lia|]. unfold reg_size. cbn [nth]. rewrite VD, VB, V0. rewrite !Rabs_pos_eq by lra. lra.
  - split; [intros i Hi; destruct i as [|[|[|]]]; auto; lia|]. unfold reg_size. cbn [nth]. rewrite VD, VB, VT. rewrite !Rabs_pos_eq by lra. lra.
  - repeat constructor; cbn [fst snd]; rewrite ?VB, ?V0, ?V1, ?VD; lra.
  - repeat constructor; cbn [fst snd]; rewrite ?VB, ?V0, ?V1, ?VD, ?VT; lra.
  - unfold reg_exact, reg_loglik, reg_logpri. cbv zeta. cbn [seq fold_left]. change (Z.to_nat (Z.of_nat 0 * 2)) with 0%nat. change (Z.to_nat (Z.of_nat 0 * 2 + 1)) with 1%nat.
    cbn [nth]. rewrite VD, VB, VT, V0, V1.
    set (c1 := - ln (2 * PI) / 2). set (c2 := ln (/ 2 ^ 36 * / 2 ^ 36) / 2). set (c3 := - ln _ - ln _ - ln _).
    replace (1 * 2 ^ 20 + / 2 ^ 34 - 2 ^ 20) with (/ 2 ^ 34) by ring. replace (1 * 2 ^ 20 + 0 - 2 ^ 20) with 0 by ring.
    replace (/ 2 ^ 34 * / 2 ^ 34 / 2 / (/ 2 ^ 36 * / 2 ^ 36)) with 8 by field. unfold Rdiv. ring.
  - intros L gp smin smax. unfold logpost_at, reg_user. cbn [u_logll u_logprior d_nline d_arr]. unfold reg_logll, reg_sum, reg_log_prior.
    change (@xi (B64 L) [big; tiny; dd] 2) with dd. change (@xi (B64 L) [big; bof 0; dd] 2) with dd. f_equal.
Qed.
Print Assumptions C89_cancel_refuted.

(** a library with correctly rounded exp, log and pow *)
Definition full_libm : Libm := mkLibm (l_exp exp_libm)
  (fun x : b64 => match x with B754_finite false _ _ _ => to_b64 (ln (B2R x)) | B754_infinity false => B754_infinity false | B754_zero _ => B754_infinity true | _ => B754_nan end)
  (l_cos libm0) (l_sin libm0) (fun x y => to_b64 (B2R x * B2R x)).
Lemma to_b64_big : forall r, Rabs r <= bp 1000 -> is_finite (to_b64 r) = true /\ B2R (to_b64 r) = rnd r.
Proof.
  intros r H. unfold to_b64.
  pose proof (binary_normalize_correct prec emax _ _ mode_NE (ZnearestE (scaled_mantissa radix2 fexp64 r)) (cexp radix2 fexp64 r) false) as C. cbv zeta in C.
  change (F2R (Float radix2 (ZnearestE (scaled_mantissa radix2 fexp64 r)) (cexp radix2 fexp64 r))) with (rnd r) in C.
  change (round radix2 (SpecFloat.fexp prec emax) (round_mode mode_NE)) with rnd in C.
  rewrite (rnd_id (rnd r)) in C by (apply generic_format_round; [apply valid64|apply valid_rnd_N]).
  rewrite Rlt_bool_true in C by (apply (rnd_small r 1000); [lia|exact H]). destruct C as [V [F _]]. split; [exact F|exact V].
Qed.

Lemma ln_b64 : forall x : b64, is_finite x = true -> 0 < B2R x -> Rabs (ln (B2R x)) <= INR 1100.
Proof.
  intros x F P. assert (S : is_finite_strict x = true) by (destruct x; try discriminate F; [cbn in P; lra|reflexivity]).
  pose proof (abs_B2R_ge_emin prec emax x S) as Lo. pose proof (abs_B2R_lt_emax prec emax x) as Hi. rewrite Rabs_pos_eq in Lo, Hi by lra.
  assert (E : bp (Z.of_nat 1100) <= exp (INR 1100)) by (destruct (bp_pow 1100) as [-> _]; apply exp_nat).
  assert (H1 : B2R x < exp (INR 1100)) by (eapply Rlt_le_trans; [exact Hi|]; eapply Rle_trans; [|exact E]; apply bpow_le; vm_compute; discriminate).
  assert (H2 : exp (- INR 1100) < B2R x).
  { eapply Rlt_le_trans; [|exact Lo]. eapply Rle_lt_trans; [|apply (bpow_lt radix2 (- Z.of_nat 1100)); vm_compute; reflexivity].
    rewrite exp_Ropp, bpow_opp. apply Rinv_le_contravar; [apply bpow_gt_0|exact E]. }
  apply Rabs_le. split; [rewrite <- (ln_exp (- INR 1100))|rewrite <- (ln_exp (INR 1100))]; left; apply ln_increasing; auto. apply exp_pos.
Qed.
Lemma full_log : log_near full_libm.
Proof.
  intros x F P. assert (E : l_log full_libm x = to_b64 (ln (B2R x))).
  { destruct x as [s|s| |s m e B]; try discriminate F; [cbn in P; lra|]. destruct s; [|reflexivity].
    exfalso. change (0 < F2R (Float radix2 (Z.neg m) e)) in P. assert (F2R (Float radix2 (Z.neg m) e) < 0) by (apply F2R_lt_0; reflexivity). lra. }
  rewrite E. pose proof (ln_b64 x F P) as B. destruct (to_b64_big (ln (B2R x))) as [F1 V].
  { eapply Rle_trans; [exact B|]. rewrite INR_IZR_INZ. apply Rle_trans with (bp 11); [change (bp 11) with 2048; apply IZR_le; vm_compute; discriminate|apply bpow_le; lia]. }
  split; [exact F1|]. rewrite V. set (l := ln (B2R x)) in *. pose proof (Rabs_pos l) as A0. pose proof u53_pos as U.
  assert (P100 : 0 < / 2 ^ 100) by (apply Rinv_0_lt_compat, pow_lt; lra).
  destruct (rnd_cases l) as [[e [He E2]]|E2].
  - rewrite E2. replace (l * (1 + e) - l) with (l * e) by ring. rewrite Rabs_mult. pose proof (Rmult_le_compat_l _ _ _ A0 He). nra.
  - eapply Rle_trans; [exact E2|]. assert (u53 * u53 <= / 2 ^ 100).
    { rewrite <- Rinv_mult. rewrite <- pow_add. apply Rinv_le_contravar; [apply pow_lt; lra|apply Rle_pow; [lra|lia]]. }
    nra.
Qed.
Lemma full_sq : sq_near full_libm.
Proof.
  intros x F H. change (l_pow full_libm x (bof 2)) with (to_b64 (B2R x * B2R x)). set (r := B2R x) in *. pose proof (Rabs_pos r) as A0.
  assert (R2 : Rabs (r * r) <= bp 600) by (rewrite Rabs_mult; change 600%Z with (300 + 300)%Z; rewrite bpow_plus; apply Rmult_le_compat; auto).
  destruct (to_b64_big (r * r)) as [F1 V]; [eapply Rle_trans; [exact R2|]; apply bpow_le; lia|]. split; [exact F1|]. rewrite V.
  destruct (error_N_FLT radix2 (-1074) 53 ltac:(lia) (fun z => negb (Z.even z)) (r * r)) as [e [t [He [Ht [_ E]]]]].
  change (round radix2 (FLT_exp (-1074) 53) ZnearestE (r * r)) with (rnd (r * r)) in E. rewrite E.
  replace (r * r * (1 + e) + t - r * r) with (r * r * e + t) by ring. eapply Rle_trans; [apply Rabs_triang|]. 
  assert (R0 : 0 <= r * r) by nra. apply Rplus_le_compat.
  - rewrite Rabs_mult, (Rabs_pos_eq (r * r)) by auto. rewrite Rmult_comm. apply Rmult_le_compat_r; auto. eapply Rle_trans; [exact He|].
    change (- (53) + 1)%Z with (- Z.of_nat 52)%Z. destruct (bp_pow 52) as [_ ->]. lra.
  - eapply Rle_trans; [exact Ht|]. apply Rle_trans with (bp (-1074)); [pose proof (bpow_gt_0 radix2 (-1074)); lra|apply bpow_le; lia].
Qed.
Lemma full_special : LibmSpecial full_libm.
Proof.
  split; [|split; reflexivity]. replace (bof 1) with (@B754_finite prec emax false 4503599627370496 (-52) eq_refl : b64) by (apply B2SF_inj; vm_compute; reflexivity).
  cbn [l_log full_libm]. replace (B2R _) with 1.
  2:{ unfold B2R, F2R. cbn [cond_Zopp Fnum Fexp]. change (IZR 4503599627370496) with (bp 52). rewrite <- bpow_plus. reflexivity. }
  rewrite ln_1. unfold to_b64, scaled_mantissa, cexp. rewrite Rmult_0_l.
  replace (ZnearestE 0) with 0%Z by (symmetry; apply (Zrnd_IZR ZnearestE 0)). reflexivity.
Qed.

(** the demonstration run with the ladder fixed meets the conditions of [C89_runs] *)
Example C89_case : let L := full_libm in LibmSpecial L /\ exp_near L /\ log_near L /\ sq_near L /\
  exists S : Setup (B64 L), Legal S /\ s_user S = @reg_user (B64 L) 2 (demo_ra _) (demo_rb _) (demo_rd _) (nlit 1 1) (nlit 5 10) (nlit 2 1) /\
    (Tune_Ladder (s_cfg S) <= 0)%Z /\ reg_ranges (demo_ra (B64 L)) (demo_rb (B64 L)) (demo_rd (B64 L)) /\
    exists (D : Data (B64 L)) G0 h Gf b, d_nline D = Z.of_nat 2 /\ reg_data 2 (d_arr D) 2 2 5 /\ history S D G0 h Gf /\ In b (hbatches h) /\
    is_finite (nth 3 (Beta_Values (s_cfg S)) (bof 0) : b64) = true /\ B2R (nth 3 (Beta_Values (s_cfg S)) (bof 0) : b64) = 1.
Proof.
  cbv zeta. set (L := full_libm).
  assert (NR : exp_near L) by (intros x F N; apply (proj1 (proj2 C88_case) x F N)).
  split; [exact full_special|]. split; [exact NR|]. split; [exact full_log|]. split; [exact full_sq|].
  set (S := with_cfg (demo L) (set_ladder (s_cfg (demo L)) 0)).
  assert (HL : Legal S).
  { split; [apply RandOK_b64|]. destruct (demo_legal L) as [_ [V [VU VE]]]. split; [|split].
    - destruct V. constructor; assumption.
    - destruct VU as [[? ? ?] ? ?]. constructor; [constructor|..]; assumption.
    - exact VE. }
  exists S. split; [exact HL|]. split; [reflexivity|]. split; [cbn; lia|].
  assert (BV : forall z, (Z.abs z <= 2 ^ 53)%Z -> is_finite (bof z) = true /\ B2R (bof z) = IZR z) by (intros z Hz; destruct (bof_ok z Hz); auto).
  split.
  { unfold reg_ranges, demo_ra, demo_rb, demo_rd. cbn [fst snd]. change (@nof (B64 L)) with bof.
    destruct (BV (-20)%Z ltac:(lia)) as [F1 V1]. destruct (BV 20%Z ltac:(lia)) as [F2 V2]. destruct (BV (-50)%Z ltac:(lia)) as [F3 V3]. destruct (BV 50%Z ltac:(lia)) as [F4 V4]. destruct (BV 30%Z ltac:(lia)) as [F5 V5].
    destruct (nlit_near L 1 2 0) as [F6 V6]; [lia|lia|lia|change (bp 0) with 1; change (10 ^ 2)%Z with 100%Z; lra|].
    change (10 ^ 2)%Z with 100%Z in V6. apply Rabs_le_inv in V6. assert (bp (0 - 54) <= / 2 ^ 20) by (change (bp (0 - 54)) with (/ IZR (2 ^ 54)); apply Rinv_le_contravar; [lra|]; change (2 ^ 54)%Z with (Z.pow 2 (Z.of_nat 54)); rewrite <- pow_IZR; apply Rle_pow; [lra|lia]).
    split.
    - intros p [<-|[<-|[<-|[]]]]; cbn [fst snd]; auto.
    - rewrite V1, V2, V3, V4, V5. assert (/ 2 ^ 40 <= / 2 ^ 20) by (apply Rinv_le_contravar; lra). lra. }
  destruct (history_exists S HL) as [D [G0 [h [Gf HH]]]]. destruct (batch_exists S HL ltac:(reflexivity) _ _ _ _ HH) as [b Hb].
  exists D, G0, h, Gf, b. pose proof HH as HH2. destruct HH2 as [[nl [arr [E1 [E2 E3]]]] _]. cbn in E1. inversion E1; subst nl. cbn in E2. inversion E2; subst arr. subst D. clear E1 E2.
  cbn [d_nline d_arr]. split; [reflexivity|]. split.
  { cut (reg_data 2 [bof 1; bof 3; bof 2; bof 5] 2 2 5); [intros RD; exact RD|].
    split; [simpl INR; lra|]. destruct (BV 1%Z ltac:(lia)) as [F1 V1]. destruct (BV 2%Z ltac:(lia)) as [F2 V2]. destruct (BV 3%Z ltac:(lia)) as [F3 V3]. destruct (BV 5%Z ltac:(lia)) as [F5 V5].
    intros i Hi. destruct i as [|[|i]]; [| |lia]; cbv zeta.
    - change (Z.to_nat (Z.of_nat 0 * 2)) with 0%nat. change (Z.to_nat (Z.of_nat 0 * 2 + 1)) with 1%nat. cbn [nth]. rewrite V1, V3. rewrite !Rabs_pos_eq by lra. repeat split; auto; lra.
    - change (Z.to_nat (Z.of_nat 1 * 2)) with 2%nat. change (Z.to_nat (Z.of_nat 1 * 2 + 1)) with 3%nat. cbn [nth]. rewrite V2, V5. rewrite !Rabs_pos_eq by lra. repeat split; auto; lra. }
  split; [exact HH|]. split; [exact Hb|]. apply (BV 1%Z). lia.
Qed.
(** and a vector that is good for these data *)
Example C89_good : reg_good 2 5 [bof 2; bof 1; bof 3].
Proof.
  split; [intros i Hi; destruct i as [|[|[|]]]; auto; lia|].
  destruct (bof_ok 1 ltac:(lia)) as [V1 _]. destruct (bof_ok 2 ltac:(lia)) as [V2 _]. destruct (bof_ok 3 ltac:(lia)) as [V3 _].
  unfold reg_size. cbn [nth]. rewrite V1, V2, V3. rewrite !Rabs_pos_eq by lra. lra.
Qed.
