(** C80: what is lost when a write or the closing of a result file fails, which the program does not notice. *)
From Coq Require Import ZArith Arith Ascii String List Bool Lia.
From Flocq Require Import Core IEEE754.BinarySingleNaN.
From Verif Require Import Base Arith B64 Bytes BytesFacts ReadFacts Rand Mh Mpi Prog Seq SeqTotal System Demo Runs SeqFiles History Views RunHist HistCount HistRows SwapLemmas ChainInv CountLemmas LoadFacts Printf PrintFacts
  TextRuns PropSched PropCount PropText.
From Verif Require Import LossFacts.
Import ListNotations.
Open Scope Z_scope.
Open Scope list_scope.

(** No result of fprintf is used, and when fclose fails there is a message on stderr and the program goes on (mpi_init.c:231-235,
    257-272, 296-318; mpi_batch.c:446-468; mpi_flow.c:353-362; mpi_stack.c:481-490).  A full disk or a quota cuts off what one
    fopen ... fclose appends; the next one may succeed again.  [lossy]: the texts of the sessions, each cut off somewhere. *)

(** A session writes whole lines, so its last byte is a newline: whoever counts the newlines of a file notices any loss. *)
Theorem C80_count : forall L (S : Setup (B64 L)), Legal S -> forall k tr X, execution S k tr X -> forall nan, nan_print nan -> forall f gs,
  concat gs = file_lines nan f tr -> forall t, lossy (map unlines gs) t ->
  nls t <= Z.of_nat (List.length (file_lines nan f tr)) /\
  (nls t = Z.of_nat (List.length (file_lines nan f tr)) -> t = file_text nan f tr).
Proof.
  intros L S HL k tr X HE nan Hn f gs E t Ht. assert (C : Forall (Forall (fun l => ~ In NL l)) gs).
  { apply Forall_forall. intros g Hg. apply Forall_forall. intros l Hl. apply (file_clean nan (nan_word nan Hn) f tr l). rewrite <- E. apply in_concat. exists g. auto. }
  change (file_text nan f tr) with (unlines (file_lines nan f tr)). rewrite <- E. exact (lossy_count gs t C Ht).
Qed.
Print Assumptions C80_count.

(** The sessions of the chain file of rank r: the first row (mpi_init.c:296-318), then one for each batch that ends at or after
    i_save_begin (mpi_batch.c:428-471). *)
Definition chain_sessions {A} (S : Setup A) (D : Data A) (G0 : gst (A := A)) (h : list (srec (A := A))) (r : nat) (gs : list (list (crow A))) : Prop :=
  exists bl1 bl2 xs, hbatches h = bl1 ++ bl2 /\
    Forall (fun e => e < i_save_begin (s_cfg S)) (ends 0 bl1) /\
    Forall (fun e => i_save_begin (s_cfg S) <= e) (ends (zsum (map br_len bl1)) bl2) /\
    Forall2 (fun b x => batch_walk S D r b (fst x) (snd x)) bl2 xs /\
    gs = [mkRow (x_at G0 r) (lp_at G0 r) 0 0] :: map fst xs.

(** A check of a chain file that needs nothing but the text, N_parm, i_save_begin and N_iter: every line has N_parm + 3 fields,
    the iteration column is 0 in the first line, at most max(1, b) in the second, rises by one from there, and is N in the last. *)
Definition passes (w : nat) (b N : Z) (t : bytes) : Prop :=
  exists ls a m, t = unlines ls /\ Forall (fun l => ~ In NL l) ls /\ (0 < m)%nat /\ a + Z.of_nat m = N + 1 /\ a <= Z.max 1 b /\
    Forall2 (fun i l => exists ts u, tokens (is_delim (lit " ")) l ts /\ List.length ts = (w + 3)%nat /\
      nth_error ts (w + 1) = Some u /\ scan_int u = Some i) (0 :: upfrom a m) ls.

Lemma line_sp : forall nan, word nan -> forall L (q : crow (B64 L)), forallb solid_sp (row_line nan q) = true.
Proof.
  intros nan Hn L q. rewrite row_line_fields. rewrite forallb_forall. intros c Hc. apply in_concat in Hc. destruct Hc as [x [Hx Hc]]. apply in_map_iff in Hx. destruct Hx as [t [<- Ht]].
  pose proof (row_fields_words nan Hn q) as W. rewrite Forall_forall in W. destruct (W t Ht) as [_ Wt]. apply in_app_or in Hc. destruct Hc as [Hc|[<-|[<-|[]]]]; [|reflexivity|reflexivity].
  unfold solid_sp. rewrite forallb_forall in Wt. rewrite (Wt c Hc). reflexivity.
Qed.
Lemma fields_head : forall nan, word nan -> forall L (q : crow (B64 L)), exists f fs, row_fields nan q = f :: fs /\ word f.
Proof.
  intros nan Hn L q. pose proof (row_fields_words nan Hn q) as W. destruct (row_fields nan q) as [|f fs] eqn:E.
  - unfold row_fields in E. destruct (map (print_e nan) (r_parm q)); discriminate.
  - exists f, fs. inversion W; auto.
Qed.
Lemma line_head : forall nan, word nan -> forall L (q : crow (B64 L)), exists c l, row_line nan q = c :: l /\ blank_byte c = false.
Proof.
  intros nan Hn L q. destruct (fields_head nan Hn L q) as [f [fs [E [W1 W2]]]]. rewrite row_line_fields, E. cbn [map concat]. destruct f as [|c f]; [congruence|].
  cbn [app]. eexists. eexists. split; [reflexivity|]. apply solid_blank. cbn [forallb] in W2. apply andb_prop in W2. apply W2.
Qed.
(** the fields of a row with a word pasted in front, or with another word for the first field *)
Lemma tokens_first : forall nan, word nan -> forall L (q : crow (B64 L)) f fs f', row_fields nan q = f :: fs -> word f' ->
  tokens blank_byte (f' ++ lit "  " ++ concat (map (fun t => t ++ lit "  ") fs)) (f' :: fs).
Proof.
  intros nan Hn L q f fs f' E Hf. pose proof (row_fields_words nan Hn q) as W. rewrite E in W.
  pose proof (fields_tokens (lit "  ") ltac:(discriminate) ltac:(intros c [<-|[<-|[]]]; reflexivity) (f' :: fs)) as K. cbn [map concat] in K. rewrite <- app_assoc in K. apply K. constructor; [exact Hf|]. inversion W; auto.
Qed.
Definition piece (p : bytes) : Prop := forallb solid_sp p = true /\ (p = [] \/ exists c r, p = c :: r /\ blank_byte c = false).
Lemma piece_app : forall a b, piece a -> piece b -> piece (a ++ b).
Proof.
  intros a b [A1 A2] [B1 B2]. split; [apply sp_app; auto|]. destruct A2 as [->|[c [r [-> Hc]]]]; [exact B2|right]. exists c, (r ++ b). auto.
Qed.
(** a damaged line with the right number of fields has the counters of the whole line in it *)
Lemma glued_line : forall nan, word nan -> forall L (q : crow (B64 L)) w pend ts u i, row_says w q (row_fields nan q) -> piece pend ->
  tokens blank_byte (pend ++ row_line nan q) ts -> List.length ts = (w + 3)%nat -> nth_error ts (w + 1) = Some u -> scan_int u = Some i -> i = r_it q.
Proof.
  intros nan Hn L q w pend ts u i [_ [Hl [_ [_ [[v [Hv Sv]] _]]]]] [P1 P2] Ht Lt Hu Su.
  assert (NB : forall c, In c pend -> blank_byte c = false).
  { apply (piece_solid blank_byte pend (row_line nan q) P2 (line_head nan Hn L q)). rewrite (ntok_tokens _ _ _ Ht), (ntok_tokens _ _ _ (row_tokens nan Hn q)). lia. }
  assert (SP : forallb solid pend = true).
  { rewrite forallb_forall in *. intros c Hc. specialize (P1 c Hc). specialize (NB c Hc). unfold solid_sp in P1. destruct (solid c); [reflexivity|]. cbn [orb] in P1.
    unfold blank_byte, is_delim in NB. cbn [lit list_ascii_of_string existsb] in NB. rewrite P1 in NB. discriminate. }
  destruct (fields_head nan Hn L q) as [f [fs [E W]]].
  assert (K : tokens blank_byte (pend ++ row_line nan q) ((pend ++ f) :: fs)).
  { pose proof (tokens_first nan Hn L q f fs (pend ++ f) E (word_app _ _ SP W)) as K. rewrite row_line_fields, E. cbn [map concat]. rewrite <- !app_assoc in *. exact K. }
  rewrite (tokens_unique _ _ _ Ht _ K) in Hu. rewrite E in Hv. rewrite Nat.add_1_r in Hu, Hv. cbn [nth_error] in Hu, Hv. congruence.
Qed.

Lemma kept_rows : forall nan L (gs : list (list (crow (B64 L)))) xs, Forall2 kept_of (map (map (row_line nan)) gs) xs ->
  exists ks, cutoff gs ks /\ map fst xs = map (map (row_line nan)) ks.
Proof.
  intros nan L. induction gs as [|g gs IH]; intros xs H; cbn [map] in H; inversion H as [|? x ? xs' H1 H2]; subst.
  - exists []. split; [constructor|reflexivity].
  - destruct (IH xs' H2) as [ks [K1 K2]]. destruct H1 as [j [E _]]. exists (firstn j g :: ks). split; [constructor; exact K1|]. cbn [map]. rewrite E, K2, firstn_map. reflexivity.
Qed.
Lemma numbered_up : forall A it acc (R : list (crow A)) B, numbered it acc R B -> map r_it R = upfrom (it + 1) (List.length R).
Proof. induction 1 as [|it acc q b R B H1 H2 HN IH]; [reflexivity|]. cbn [map List.length upfrom]. rewrite H1, IH. reflexivity. Qed.

(** a damaged file that passes: the counters of the rows that were kept whole *)
Lemma passes_kept : forall nan, word nan -> forall L w b N (gs : list (list (crow (B64 L)))) t,
  Forall (fun q => row_says w q (row_fields nan q)) (concat gs) ->
  lossy (map (fun g => unlines (map (row_line nan) g)) gs) t -> passes w b N t ->
  exists ks a m, cutoff gs ks /\ map r_it (concat ks) = 0 :: upfrom a m /\ (0 < m)%nat /\ a + Z.of_nat m = N + 1 /\ a <= Z.max 1 b /\
    nls t = Z.of_nat (List.length (concat ks)).
Proof.
  intros nan Hn L w b N gs t HR HLo [ls [a [m [Et [Cl [Hm [Hs [Ha HF]]]]]]]].
  assert (CL : Forall (Forall (fun l => ~ In NL l)) (map (map (row_line nan)) gs)).
  { apply Forall_forall. intros g Hg. apply in_map_iff in Hg. destruct Hg as [g' [<- _]]. apply Forall_forall. intros l Hl. apply in_map_iff in Hl. destruct Hl as [q [<- _]].
    apply (clean_sp _ (line_sp nan Hn L q)). }
  rewrite <- (map_map (map (row_line nan)) unlines) in HLo.
  destruct (lossy_kept _ _ CL HLo) as [xs [KX Ex]]. destruct (kept_rows nan L gs xs KX) as [ks [CK EK]].
  pose proof (glue_text xs []) as GT. cbn [app] in GT. rewrite <- Ex in GT. pose proof (glue_lines xs []) as GL. rewrite EK in GL.
  assert (PX : Forall (fun x => piece (snd x)) xs).
  { apply Forall_forall. intros x Hx. clear - KX Hx Hn. revert Hx. remember (map (map (row_line nan)) gs) as gl eqn:Eg. assert (G : forall g l, In g gl -> In l g -> exists q : crow (B64 L), l = row_line nan q).
    { subst gl. intros g l Hg Hl. apply in_map_iff in Hg. destruct Hg as [g' [<- _]]. apply in_map_iff in Hl. destruct Hl as [q [<- _]]. exists q. auto. }
    clear Eg. induction KX as [|g y gl xs H KX IH]; intros Hx; [destruct Hx|]. destruct Hx as [->|Hx]; [|apply IH; auto; intros; apply (G g0); auto; right; auto].
    destruct H as [_ [_ [_ H]]]. destruct H as [->|[l [rest [Hl E]]]]; [split; auto|]. destruct (G g l (or_introl eq_refl) Hl) as [q Eq]. subst l.
    pose proof (line_sp nan Hn L q) as SP. rewrite <- Eq, forallb_app in SP. apply andb_prop in SP. split; [apply SP|].
    destruct (snd x) as [|c r]; [auto|right]. destruct (line_head nan Hn L q) as [c' [l' [E' Hc]]]. rewrite E' in Eq. cbn [app] in Eq. injection Eq as Ec _. exists c, r. rewrite Ec. auto. }
  destruct (glue_pieces piece ltac:(split; auto) piece_app xs [] ltac:(split; auto) PX) as [GP GQ].
  remember (glue [] xs) as G eqn:EG. destruct G as [gl q]. cbn [fst snd] in *.
  assert (CG : Forall (fun l => ~ In NL l) (map paste gl)).
  { apply Forall_forall. intros l Hl. apply in_map_iff in Hl. destruct Hl as [[p l0] [<- Hp]]. unfold paste. cbn [fst snd]. rewrite Forall_forall in GP. destruct (GP _ Hp) as [SP _]. cbn [fst] in SP.
    assert (Hl0 : In l0 (concat (map (map (row_line nan)) ks))) by (rewrite <- GL; apply in_map_iff; exists (p, l0); auto).
    apply in_concat in Hl0. destruct Hl0 as [g [Hg Hl0]]. apply in_map_iff in Hg. destruct Hg as [g' [<- _]]. apply in_map_iff in Hl0. destruct Hl0 as [q0 [<- _]].
    apply (clean_sp (p ++ row_line nan q0)), sp_app; [exact SP|apply line_sp, Hn]. }
  assert (CQ : ~ In NL q) by (apply (clean_sp q), GQ).
  rewrite Et in GT. symmetry in GT. destruct (unlines_unique _ _ _ CG Cl CQ GT) as [El ->].
  exists ks, a, m. split; [exact CK|]. rewrite <- concat_map in GL.
  assert (KR : forall q, In q (concat ks) -> row_says w q (row_fields nan q)) by (rewrite Forall_forall in HR; intros q Hq; apply HR, (cutoff_in _ _ CK), Hq).
  assert (Ln : List.length ls = List.length (concat ks)) by (rewrite <- El, map_length, <- (map_length snd gl); rewrite GL, map_length; reflexivity).
  split; [|split; [exact Hm|split; [exact Hs|split; [exact Ha|rewrite Et, nls_unlines, Ln by exact Cl; reflexivity]]]].
  clear - HF El GL GP KR Hn. subst ls. revert HF GL GP KR. generalize (0 :: upfrom a m). generalize (concat ks). clear - Hn.
  intros rows is. revert rows is. induction gl as [|[p l] gl IH]; intros [|q rows] is HF GL GP KR; try discriminate GL; cbn [map] in *.
  - inversion HF; reflexivity.
  - inversion HF as [|i ? is' ? H1 H2]; subst. injection GL as El GL. inversion GP as [|? ? G1 G2]; subst. cbn [fst snd] in *. f_equal; [|apply IH; auto; intros q' Hq'; apply KR; right; exact Hq'].
    destruct H1 as [ts [u [T1 [T2 [T3 T4]]]]]. unfold paste in T1. cbn [fst snd] in T1. symmetry. apply (glued_line nan Hn L q w p ts u i); auto. apply KR. left. reflexivity.
Qed.

(** rows with the right counters pass *)
Lemma rows_pass : forall nan, word nan -> forall L w b N (rows : list (crow (B64 L))) a m,
  Forall (fun q => row_says w q (row_fields nan q)) rows -> map r_it rows = 0 :: upfrom a m -> (0 < m)%nat -> a + Z.of_nat m = N + 1 -> a <= Z.max 1 b ->
  passes w b N (unlines (map (row_line nan) rows)).
Proof.
  intros nan Hn L w b N rows a m HR EM Hm Hs Ha. exists (map (row_line nan) rows), a, m. split; [reflexivity|]. split.
  { apply Forall_forall. intros l Hl. apply in_map_iff in Hl. destruct Hl as [q [<- _]]. apply (clean_sp _ (line_sp nan Hn L q)). }
  split; [exact Hm|]. split; [exact Hs|]. split; [exact Ha|]. rewrite <- EM. clear - HR Hn. induction HR as [|q rows H HR IH]; cbn [map]; constructor; [|exact IH].
  destruct H as [_ [Hl [_ [_ [[v [Hv Sv]] _]]]]]. exists (row_fields nan q), v. split; [apply row_tokens, Hn|]. auto.
Qed.

(** what the theorems need of a complete run *)
Lemma chain_parts : forall L (S : Setup (B64 L)), Legal S -> forall D G0 h Gf, history S D G0 h Gf ->
  forall k tr X, execution S k tr X -> complete S X -> forall nan, nan_print nan -> forall r, (r < s_n S)%nat ->
  i_save_begin (s_cfg S) <= N_iter (s_cfg S) -> 0 < N_iter (s_cfg S) ->
  exists gs g1 gs' a n, chain_sessions S D G0 h r gs /\ file (FChain r) tr = map (EvRow r) (concat gs) /\
    file_text nan (FChain r) tr = unlines (map (row_line nan) (concat gs)) /\
    Forall (fun q => row_says (Z.to_nat (N_parm (s_cfg S))) q (row_fields nan q)) (concat gs) /\
    map (map r_it) gs = [0] :: g1 :: gs' /\ concat (g1 :: gs') = upfrom a n /\ 0 < a /\ g1 <> [] /\ a + Z.of_nat n = N_iter (s_cfg S) + 1 /\
    i_save_begin (s_cfg S) < a + Z.of_nat (List.length g1) /\ a <= Z.max 1 (i_save_begin (s_cfg S)) /\
    Forall (fun g => g <> []) gs' /\ Z.of_nat (List.length g1) <= n_iter_a_batch_base (s_cfg S) + n_iter_a_batch_rand (s_cfg S).
Proof.
  intros L S HL D G0 h Gf HH k tr X HE HC nan Hn r Hr Hb HN.
  destruct (history_saved S HL _ _ _ _ HH _ _ _ HE HC r Hr) as [b1 [b2 [x1 [x2 [EB [W1 [W2 [E1 [E2 [ES [N1 [N2 [L1 [L2 [_ HF]]]]]]]]]]]]]]].
  set (q0 := mkRow (x_at G0 r) (lp_at G0 r) 0 0) in *.
  destruct (history_count S HL _ _ _ _ HH) as [_ [FS _]]. pose proof (hb_len S _ _ FS) as HB. rewrite EB in HB. apply Forall_app in HB. destruct HB as [HB1 HB2].
  assert (Z1 : 0 <= zsum (map br_len b1)) by lia.
  assert (ZB : b1 <> [] -> zsum (map br_len b1) < i_save_begin (s_cfg S)).
  { intros NB. destruct b1 as [|b b1'] using rev_ind; [congruence|]. clear IHb1'. rewrite ends_app in E1. apply Forall_app in E1. destruct E1 as [_ E1]. cbn [ends] in E1. inversion E1; subst.
    rewrite map_app. assert (Q : forall l1 l2, zsum (l1 ++ l2) = zsum l1 + zsum l2) by (clear; induction l1 as [|z l1 IH]; intros; cbn [app zsum]; rewrite ?IH; lia). rewrite Q. cbn [map zsum]. lia. }
  assert (NE : b2 <> []).
  { intros ->. cbn [map zsum] in ES. destruct b1 as [|b b1]; [cbn [map zsum] in ES; lia|]. specialize (ZB ltac:(discriminate)). lia. }
  destruct b2 as [|bb b2]; [congruence|]. inversion W2 as [|? y ? x2' WB W2' Ey]; subst. inversion HB2 as [|? ? HBb HB2']; subst. inversion E2 as [|? ? Eb E2']; subst.
  destruct (chain_text L S HL k tr X HE nan Hn r Hr) as [rows [F1 [F2 F3]]].
  assert (ER : rows = q0 :: rows_in (y :: x2')).
  { rewrite HF in F1. change (EvRow r q0 :: map (EvRow r) (rows_in (y :: x2'))) with (map (EvRow r) (q0 :: rows_in (y :: x2'))) in F1.
    clear - F1. revert F1. generalize (q0 :: rows_in (y :: x2')). intros l. revert rows. induction l as [|p l IH]; intros [|q rows] E; try discriminate E; [reflexivity|]. cbn [map] in E. injection E as -> E. f_equal. apply IH. exact E. }
  set (gs := [q0] :: map fst (y :: x2')).
  assert (EC : concat gs = rows) by (rewrite ER; reflexivity).
  assert (WL : forall b x, batch_walk S D r b (fst x) (snd x) -> Z.of_nat (List.length (fst x)) = br_len b) by (intros b x [_ [LL _]]; exact LL).
  pose proof (numbered_up _ _ _ _ _ N2) as U. pose proof (WL _ _ WB) as LY.
  exists gs, (map r_it (fst y)), (map (map r_it) (map fst x2')), (zsum (map br_len b1) + 1), (List.length (rows_in (y :: x2'))).
  split. { exists b1, (bb :: b2), (y :: x2'). split; [exact EB|]. split; [exact E1|]. split; [exact E2|]. split; [exact W2|reflexivity]. }
  split; [rewrite EC; exact F1|]. split; [rewrite EC; unfold file_text; rewrite F2; reflexivity|]. split; [rewrite EC; exact F3|].
  split; [reflexivity|]. split. { rewrite <- U. unfold rows_in. rewrite concat_map. reflexivity. }
  split; [lia|]. split; [intros K; apply (f_equal (@List.length Z)) in K; rewrite map_length in K; cbn [List.length] in K; lia|].
  split; [lia|]. split; [rewrite map_length; lia|]. split.
  { destruct b1 as [|b b1]; [cbn [map zsum]; lia|]. specialize (ZB ltac:(discriminate)). lia. }
  split; [|rewrite map_length; lia].
  clear - W2' HB2' WL. induction W2' as [|b x bl xs Hw W IH]; cbn [map]; constructor; inversion HB2'; subst; [|apply IH; auto].
  intros K. apply (f_equal (@List.length Z)) in K. rewrite map_length in K. cbn [List.length] in K. specialize (WL _ _ Hw). lia.
Qed.

(** A chain file of a complete run passes the check; a chain file of which the ends of some sessions were lost passes only if
    nothing was lost at all. *)
Theorem C80_chain : forall L (S : Setup (B64 L)), Legal S -> forall D G0 h Gf, history S D G0 h Gf ->
  forall k tr X, execution S k tr X -> complete S X -> forall nan, nan_print nan -> forall r, (r < s_n S)%nat ->
  i_save_begin (s_cfg S) <= N_iter (s_cfg S) -> 0 < N_iter (s_cfg S) ->
  exists gs, chain_sessions S D G0 h r gs /\ file (FChain r) tr = map (EvRow r) (concat gs) /\
    passes (Z.to_nat (N_parm (s_cfg S))) (i_save_begin (s_cfg S)) (N_iter (s_cfg S)) (file_text nan (FChain r) tr) /\
    forall t, lossy (map (fun g => concat (map (fun q => row_line nan q ++ [NL]) g)) gs) t ->
      passes (Z.to_nat (N_parm (s_cfg S))) (i_save_begin (s_cfg S)) (N_iter (s_cfg S)) t -> t = file_text nan (FChain r) tr.
Proof.
  intros L S HL D G0 h Gf HH k tr X HE HC nan Hn r Hr Hb HN. pose proof (nan_word nan Hn) as W.
  destruct (chain_parts L S HL D G0 h Gf HH k tr X HE HC nan Hn r Hr Hb HN) as [gs [g1 [gs' [a [n [P1 [P2 [P3 [P4 [P5 [P6 [P7 [P8 [P9 [P10 [P11 _]]]]]]]]]]]]]]]].
  exists gs. split; [exact P1|]. split; [exact P2|]. split.
  - rewrite P3. apply (rows_pass nan W L _ _ _ _ a n); auto; [|lia]. rewrite concat_map, P5. change (0 :: concat (g1 :: gs') = 0 :: upfrom a n). rewrite P6. reflexivity.
  - intros t Ht Hp. assert (Ht' : lossy (map (fun g => unlines (map (row_line nan) g)) gs) t).
    { erewrite map_ext; [exact Ht|]. intros g. unfold unlines. rewrite map_map. reflexivity. }
    destruct (passes_kept nan W L _ _ _ gs t P4 Ht' Hp) as [ks [a' [m [CK [EK [Hm [Hs [Ha Nt]]]]]]]].
    pose proof (cutoff_map r_it gs ks CK) as CZ. rewrite P5 in CZ. rewrite concat_map in EK.
    assert (G1 : (0 < List.length g1)%nat) by (destruct g1; [congruence|cbn; lia]).
    pose proof (counters_whole a n g1 gs' (map (map r_it) ks) a' m P7 P8 P6 CZ EK ltac:(lia) Hm ltac:(lia)) as EQ.
    assert (LE : List.length (concat ks) = List.length (concat gs)).
    { rewrite <- (map_length r_it (concat ks)), <- (map_length r_it (concat gs)), !concat_map, EQ, P5. reflexivity. }
    rewrite P3. rewrite <- (map_map (map (row_line nan)) unlines) in Ht'.
    destruct (lossy_count (map (map (row_line nan)) gs) t) as [_ K].
    { apply Forall_forall. intros g Hg. apply in_map_iff in Hg. destruct Hg as [g' [<- _]]. apply Forall_forall. intros l Hl. apply in_map_iff in Hl. destruct Hl as [q [<- _]].
      apply (clean_sp _ (line_sp nan W L q)). }
    { exact Ht'. }
    rewrite concat_map. apply K. rewrite Nt, LE, <- concat_map, map_length. reflexivity.
Qed.
Print Assumptions C80_chain.

(** Without the limit on the second line the check is too weak: when the whole of the first saved batch is lost, the rest passes.
    Every run which saves more iterations than a batch can hold. *)
Theorem C80_start_refuted : forall L (S : Setup (B64 L)), Legal S -> forall D G0 h Gf, history S D G0 h Gf ->
  forall k tr X, execution S k tr X -> complete S X -> forall nan, nan_print nan -> forall r, (r < s_n S)%nat ->
  0 < i_save_begin (s_cfg S) -> n_iter_a_batch_base (s_cfg S) + n_iter_a_batch_rand (s_cfg S) <= N_iter (s_cfg S) - i_save_begin (s_cfg S) ->
  exists gs t, chain_sessions S D G0 h r gs /\ file (FChain r) tr = map (EvRow r) (concat gs) /\
    lossy (map (fun g => concat (map (fun q => row_line nan q ++ [NL]) g)) gs) t /\
    passes (Z.to_nat (N_parm (s_cfg S))) (N_iter (s_cfg S)) (N_iter (s_cfg S)) t /\ t <> file_text nan (FChain r) tr.
Proof.
  intros L S HL D G0 h Gf HH k tr X HE HC nan Hn r Hr Hb0 Hb. pose proof (nan_word nan Hn) as W.
  assert (BR : 1 <= n_iter_a_batch_base (s_cfg S) + n_iter_a_batch_rand (s_cfg S)).
  { pose proof HL as [_ [VC _]]. destruct VC. lia. }
  destruct (chain_parts L S HL D G0 h Gf HH k tr X HE HC nan Hn r Hr ltac:(lia) ltac:(lia)) as [gs [g1 [gs' [a [n [P1 [P2 [P3 [P4 [P5 [P6 [P7 [P8 [P9 [P10 [P11 [P12 P13]]]]]]]]]]]]]]]]].
  destruct gs as [|s0 [|s1 gs]]; try discriminate P5. cbn [map] in P5. injection P5 as E0 E1 E2.
  set (t := unlines (map (row_line nan) (concat (s0 :: gs)))).
  assert (LO : forall ss : list (list (crow (B64 L))), lossy (map (fun g => concat (map (fun q => row_line nan q ++ [NL]) g)) ss) (unlines (map (row_line nan) (concat ss)))).
  { intros ss. rewrite concat_map, unlines_concat, map_map. erewrite (map_ext (fun g => concat _)); [apply lossy_whole|].
    intros g. unfold unlines. rewrite map_map. reflexivity. }
  assert (LG : List.length g1 = List.length s1) by (rewrite <- E1, map_length; reflexivity).
  exists (s0 :: s1 :: gs), t. split; [exact P1|]. split; [exact P2|]. split; [|split].
  - pose proof (LO [s0]) as L0. pose proof (LO gs) as L1. unfold t. cbn [concat map] in *. rewrite app_nil_r in L0. rewrite map_app, unlines_app.
    replace (unlines (map (row_line nan) s0)) with (concat (map (fun q : crow (B64 L) => row_line nan q ++ [NL]) s0)) by (unfold unlines; rewrite map_map; reflexivity).
    set (T0 := concat (map (fun q => row_line nan q ++ [NL]) s0)). rewrite <- (app_nil_r T0) at 1. constructor.
    set (T1 := concat (map (fun q => row_line nan q ++ [NL]) s1)). change T1 with ([] ++ T1). apply (lossy_cons [] T1). exact L1.
  - pose proof (f_equal (@List.length Z) P6) as Len. cbn [concat] in Len. rewrite app_length, upfrom_len in Len.
    cbn [concat] in P6. symmetry in P6. apply upfrom_split in P6. destruct P6 as [_ Q2].
    apply (rows_pass nan W L _ _ _ _ (a + Z.of_nat (List.length g1)) (List.length (concat gs'))); try lia.
    + rewrite Forall_forall in *. intros q Hq. apply P4. cbn [concat] in *. apply in_app_or in Hq. apply in_or_app. destruct Hq; [left|right; apply in_or_app; right]; auto.
    + rewrite concat_map. cbn [map concat]. rewrite E0, E2. cbn [app]. rewrite Q2 at 1. reflexivity.
  - rewrite P3. intros E. apply (f_equal nls) in E. unfold t in E.
    assert (CL : forall rows : list (crow (B64 L)), Forall (fun l => ~ In NL l) (map (row_line nan) rows)).
    { intros rows. apply Forall_forall. intros l Hl. apply in_map_iff in Hl. destruct Hl as [q [<- _]]. apply (clean_sp _ (line_sp nan W L q)). }
    rewrite !nls_unlines, !map_length in E by apply CL. cbn [concat] in E. rewrite !app_length in E.
    assert (0 < List.length g1)%nat by (destruct g1; [congruence|cbn; lia]). lia.
Qed.
Print Assumptions C80_start_refuted.

(** the first field of a row of a run is longer than one byte *)
Lemma print_e_long : forall nan, nan_print nan -> forall x, exists c c' f, print_e nan x = c :: c' :: f.
Proof.
  intros nan Hn x. assert (K : forall s b b' f, exists c c' g, minus s ++ b :: b' :: f = c :: c' :: g) by (intros [] b b' f; cbn; eauto).
  destruct x as [s|s| |s m e H]; cbn [print_e].
  - apply (K s "0"%char "."%char).
  - apply (K s "i"%char "n"%char).
  - destruct Hn as [->| ->]; cbn; eauto.
  - destruct (frac m e) as [p q]. destruct (sci p q) as [d k]. apply (K s (dchar (d / 10 ^ 12)) "."%char).
Qed.
Lemma Forall2_replace : forall {X Y} (P : X -> Y -> Prop) is a l l' b, (forall i, P i l -> P i l') -> Forall2 P is (a ++ l :: b) -> Forall2 P is (a ++ l' :: b).
Proof.
  intros X Y P is a. revert is. induction a as [|y a IH]; intros is l l' b H F; cbn [app] in *; inversion F; subst; constructor; auto. apply (IH _ l); auto.
Qed.

(** The check does not notice a loss inside a line (a write error that leaves a gap): in every row of every complete run there
    is a byte without which the file still passes. *)
Theorem C80_inner_refuted : forall L (S : Setup (B64 L)), Legal S ->
  forall k tr X, execution S k tr X -> complete S X -> forall nan, nan_print nan -> forall r, (r < s_n S)%nat ->
  i_save_begin (s_cfg S) <= N_iter (s_cfg S) -> 0 < N_iter (s_cfg S) ->
  forall pre q post, file (FChain r) tr = map (EvRow r) (pre ++ q :: post) ->
  exists before c after, file_text nan (FChain r) tr = before ++ c :: after /\
    before = concat (map (fun p => row_line nan p ++ [NL]) pre) /\
    passes (Z.to_nat (N_parm (s_cfg S))) (i_save_begin (s_cfg S)) (N_iter (s_cfg S)) (before ++ after).
Proof.
  intros L S HL k tr X HE HC nan Hn r Hr Hb HN pre q post EF. pose proof (nan_word nan Hn) as W.
  destruct (history_exists S HL) as [D [G0 [h [Gf HH]]]].
  destruct (C80_chain L S HL D G0 h Gf HH k tr X HE HC nan Hn r Hr Hb HN) as [_ [_ [_ [HP _]]]].
  destruct (chain_text L S HL k tr X HE nan Hn r Hr) as [rows [F1 [F2 F3]]].
  assert (ER : rows = pre ++ q :: post).
  { rewrite EF in F1. clear - F1. revert F1. generalize (pre ++ q :: post). intros l. revert rows. induction l as [|p l IH]; intros [|p' rows] E; try discriminate E; [reflexivity|]. cbn [map] in E. injection E as -> E. f_equal. apply IH. exact E. }
  subst rows. rewrite Forall_forall in F3. destruct (F3 q ltac:(apply in_or_app; right; left; reflexivity)) as [Lq _].
  pose proof HL as [_ [VC _]]. assert (Np : 1 <= N_parm (s_cfg S)) by (destruct VC; lia).
  assert (EX : exists c c' f fs, row_fields nan q = (c :: c' :: f) :: fs).
  { unfold row_fields. destruct (r_parm q) as [|x xs]; [cbn [List.length] in Lq; lia|]. destruct (print_e_long nan Hn x) as [c [c' [f E]]]. cbn [map app]. rewrite E. eauto. }
  destruct EX as [c [c' [f [fs EQ]]]].
  assert (W2 : word (c' :: f)).
  { pose proof (row_fields_words nan W q) as K. rewrite EQ in K. inversion K as [|? ? [_ K1] _]; subst. cbn [forallb] in K1. apply andb_prop in K1. split; [discriminate|apply K1]. }
  set (l' := (c' :: f) ++ lit "  " ++ concat (map (fun t => t ++ lit "  ") fs)).
  assert (EL : row_line nan q = c :: l') by (rewrite row_line_fields, EQ; cbn [map concat]; rewrite <- app_assoc; reflexivity).
  assert (UT : forall rs : list (crow (B64 L)), concat (map (fun p => row_line nan p ++ [NL]) rs) = unlines (map (row_line nan) rs)) by (intros; unfold unlines; rewrite map_map; reflexivity).
  exists (unlines (map (row_line nan) pre)), c, (l' ++ NL :: unlines (map (row_line nan) post)).
  assert (ET : file_text nan (FChain r) tr = unlines (map (row_line nan) (pre ++ q :: post))) by (unfold file_text; rewrite F2; reflexivity).
  split; [|split; [symmetry; apply UT|]].
  - rewrite ET, map_app, unlines_app. cbn [map]. rewrite unlines_cons, EL. reflexivity.
  - destruct HP as [ls [a [m [E1 [E2 [E3 [E4 [E5 E6]]]]]]]]. exists (map (row_line nan) pre ++ l' :: map (row_line nan) post), a, m.
    assert (CL : forall rows : list (crow (B64 L)), Forall (fun l => ~ In NL l) (map (row_line nan) rows)).
    { intros rows. apply Forall_forall. intros l Hl. apply in_map_iff in Hl. destruct Hl as [q' [<- _]]. apply (clean_sp _ (line_sp nan W L q')). }
    split; [rewrite unlines_app, unlines_cons; reflexivity|]. split.
    { apply Forall_app. split; [apply CL|]. constructor; [|apply CL]. pose proof (proj1 (clean_sp _ (line_sp nan W L q))) as K. rewrite EL in K. intros K'. apply K. right. exact K'. }
    split; [exact E3|]. split; [exact E4|]. split; [exact E5|].
    rewrite ET in E1. assert (EE : map (row_line nan) (pre ++ q :: post) = ls).
    { apply (unlines_unique _ _ [] (CL _) E2 (fun K => K)). rewrite app_nil_r. exact E1. }
    rewrite <- EE, map_app in E6. cbn [map] in E6. revert E6. apply Forall2_replace. intros i [ts [u [T1 [T2 [T3 T4]]]]].
    pose proof (tokens_unique _ _ _ T1 _ (row_tokens nan W q)) as Et. rewrite EQ in Et. subst ts.
    exists ((c' :: f) :: fs), u. split; [apply (tokens_first nan W L q _ fs (c' :: f) EQ W2)|]. split; [exact T2|]. split; [|exact T4].
    rewrite Nat.add_1_r in *. exact T3.
Qed.
Print Assumptions C80_inner_refuted.

(** Such a loss changes what the file says: -15 without the first byte of its text reads 15. *)
Example C80_case_value : exists c rest, print_e (lit "nan") (bof (-15)) = c :: rest /\
  read_dec (c :: rest) = Some (-1500000000000, -11) /\ read_dec rest = Some (1500000000000, -11).
Proof. eexists. eexists. split; [vm_compute; reflexivity|]. split; vm_compute; reflexivity. Qed.

(** the theorems speak about the demo setup: 400000 iterations, saved from 100000 on, in batches of at most 25 *)
Example C80_case : forall L, exists D G0 h Gf k tr X, history (demo L) D G0 h Gf /\ execution (demo L) k tr X /\ complete (demo L) X /\
  (0 < s_n (demo L))%nat /\ 0 < i_save_begin (s_cfg (demo L)) <= N_iter (s_cfg (demo L)) /\
  n_iter_a_batch_base (s_cfg (demo L)) + n_iter_a_batch_rand (s_cfg (demo L)) <= N_iter (s_cfg (demo L)) - i_save_begin (s_cfg (demo L)).
Proof.
  intros L. destruct (history_exists (demo L) (demo_legal L)) as [D [G0 [h [Gf HH]]]]. destruct (complete_case L) as [k [tr [X [HE HC]]]].
  exists D, G0, h, Gf, k, tr, X. split; [exact HH|]. split; [exact HE|]. split; [exact HC|]. cbn. lia.
Qed.

(** A session cut off inside its second line, whose piece then stands in front of the next session: the lines still have the
    right number of fields when the piece holds no blank, but a counter is missing. *)
Example C80_case_cut : forall L, let row i : crow (B64 L) := @mkRow (B64 L) [one64] one64 i i in
  let gs := [[row 0]; [row 1; row 2]; [row 3]] in
  let t := unlines [row_line (lit "nan") (row 0); row_line (lit "nan") (row 1); lit "1.0" ++ row_line (lit "nan") (row 3)] in
  lossy (map (fun g => unlines (map (row_line (lit "nan")) g)) gs) t /\ ~ passes 1 1 3 t /\
  nth_error (map (row_line (lit "nan")) (concat gs)) 2 = Some (lit "1.000000000000e+00  1.000000  2  2  ") /\
  t = unlines [lit "1.000000000000e+00  1.000000  0  0  "; lit "1.000000000000e+00  1.000000  1  1  "; lit "1.01.000000000000e+00  1.000000  3  3  "].
Proof.
  intros L row gs t. assert (P1 : forall i, row_line (lit "nan") (row i) = lit "1.000000000000e+00  1.000000  " ++ dec i ++ lit "  " ++ dec i ++ lit "  ").
  { intros i. unfold row_line, row. cbn [r_parm r_lp r_it r_acc map concat]. replace (print_e (lit "nan") one64) with (lit "1.000000000000e+00") by (vm_compute; reflexivity).
    replace (print_f (lit "nan") one64) with (lit "1.000000") by (vm_compute; reflexivity). reflexivity. }
  assert (LO : lossy (map (fun g => unlines (map (row_line (lit "nan")) g)) gs) t).
  { unfold t, gs. cbn [map]. rewrite !P1.
    pose proof (lossy_cons (unlines [lit "1.000000000000e+00  1.000000  0  0  "]) []) as K. rewrite app_nil_r in K. apply (K _ (unlines [lit "1.000000000000e+00  1.000000  1  1  "; lit "1.01.000000000000e+00  1.000000  3  3  "])). clear K.
    apply (lossy_cons (unlines [lit "1.000000000000e+00  1.000000  1  1  "] ++ lit "1.0") (lit "00000000000e+00  1.000000  2  2  " ++ [NL]) _ (unlines [lit "1.000000000000e+00  1.000000  3  3  "])).
    pose proof (lossy_cons (unlines [lit "1.000000000000e+00  1.000000  3  3  "]) [] _ _ lossy_nil) as K. rewrite !app_nil_r in K. exact K. }
  split; [exact LO|]. split; [|split; [unfold gs; cbn [map concat app nth_error]; rewrite P1; reflexivity|unfold t; rewrite !P1; reflexivity]].
  intros HP. assert (Hn : nan_print (lit "nan")) by (left; reflexivity).
  destruct (passes_kept (lit "nan") (nan_word _ Hn) L 1 1 3 gs t) as [ks [a [m [CK [EK [Hm [Hs [Ha Nt]]]]]]]]; [|exact LO|exact HP|].
  - apply Forall_forall. intros q Hq. apply row_says_fields; [exact Hn|]. cbn [gs concat app In] in Hq. destruct Hq as [<-|[<-|[<-|[<-|[]]]]]; reflexivity.
  - assert (N3 : nls t = 3). { unfold t. rewrite nls_unlines; [reflexivity|]. apply Forall_forall. intros l Hl. cbn [In] in Hl. destruct Hl as [<-|[<-|[<-|[]]]]; rewrite ?P1; vm_compute; intuition discriminate. }
    pose proof (f_equal (@List.length Z) EK) as LL. rewrite map_length in LL. cbn [List.length] in LL. rewrite upfrom_len in LL. assert (m = 2%nat) by lia. assert (a = 2) by lia. lia.
Qed.
