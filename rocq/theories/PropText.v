(** Property C67: the text of the result files. *)
From Coq Require Import ZArith Arith Ascii String List Bool Reals Lia Lra SpecFloat.
From Flocq Require Import Core IEEE754.BinarySingleNaN.
From Verif Require Import Base Arith B64 Bytes BytesFacts ReadFacts Rand Mh Mpi MpiMeta Spmd Prog Seq ListAux SeqWf Refine
  SeqTotal System Runs SeqFiles History RunHist Tune Ladder MhSpec Demo CountLemmas Loader LoadFacts Printf PrintFacts TextRuns PropData PropSched PropCount.
Import ListNotations.
Open Scope Z_scope.
Open Scope list_scope.

(** [read_dec t]: the decimal number m * 10^k written in t, as (m, k), if t is one; [den] its value. *)
Definition nan_print (t : bytes) : Prop := t = lit "nan" \/ t = lit "-nan".
(** t is a decimal number within half a unit of the thirteenth significant digit of x, or the name of the special value x *)
Definition says13 (t : bytes) (x : b64) : Prop :=
  match x with
  | B754_infinity s => t = (if s then lit "-inf" else lit "inf") /\ read_dec t = None
  | B754_nan => nan_print t /\ read_dec t = None
  | _ => exists mk, read_dec t = Some mk /\ (Rabs (den mk - B2R x) <= 5 / IZR (10 ^ 13) * Rabs (B2R x))%R
  end.
(** t is a decimal number within half a unit of the sixth decimal place of x *)
Definition says6 (t : bytes) (x : b64) : Prop :=
  match x with
  | B754_infinity s => t = (if s then lit "-inf" else lit "inf") /\ read_dec t = None
  | B754_nan => nan_print t /\ read_dec t = None
  | _ => exists M, read_dec t = Some (M, -6) /\ (Rabs (den (M, (-6)%Z) - B2R x) <= 5 / IZR (10 ^ 7))%R
  end.

Lemma nan_word : forall nan, nan_print nan -> word nan.
Proof. intros nan [->| ->]; split; try discriminate; reflexivity. Qed.
Lemma nan_unread : forall nan, nan_print nan -> read_dec nan = None.
Proof. intros nan [->| ->]; reflexivity. Qed.
Theorem C67_numbers : forall nan, nan_print nan -> forall x : b64, says13 (print_e nan x) x /\ says6 (print_f nan x) x.
Proof.
  intros nan Hn x. pose proof (nan_unread nan Hn) as U. split.
  - destruct x as [s|s| |s m e H]; unfold says13.
    + destruct (print_e_reads nan (B754_zero s) eq_refl) as [mk [E [B _]]]. exists mk. auto.
    + destruct s; split; reflexivity.
    + split; auto.
    + destruct (print_e_reads nan (B754_finite s m e H) eq_refl) as [mk [E [B _]]]. exists mk. auto.
  - destruct x as [s|s| |s m e H]; unfold says6.
    + exact (print_f_reads nan (B754_zero s) eq_refl).
    + destruct s; split; reflexivity.
    + split; auto.
    + exact (print_f_reads nan (B754_finite s m e H) eq_refl).
Qed.
Print Assumptions C67_numbers.

(** the text of a double never looks like white space: the fields of a line can be told apart *)
Lemma file_rows : forall nan L r (rows : list (crow (B64 L))), concat (map (event_lines nan) (map (EvRow r) rows)) = map (row_line nan) rows.
Proof. intros nan L r rows. induction rows as [|q rows IH]; [reflexivity|]. cbn [map concat event_lines app]. rewrite IH. reflexivity. Qed.
Lemma nth_snoc : forall {X} (a b : list X) k, nth_error (a ++ b) (List.length a + k) = nth_error b k.
Proof. intros X a b k. rewrite nth_error_app2 by lia. f_equal. lia. Qed.
Lemma scan_dec : forall z, scan_int (dec z) = Some z.
Proof. intros z. pose proof (scan_int_written [] (dec z) z [] (Forall_nil _) (dec_written z) I) as K. rewrite app_nil_r in K. exact K. Qed.

(** what the fields ts say about row q *)
Definition row_says {L} (n : nat) (q : crow (B64 L)) (ts : list bytes) : Prop :=
  List.length (r_parm q) = n /\ List.length ts = (n + 3)%nat /\
  (forall j x, nth_error (r_parm q) j = Some x -> exists t, nth_error ts j = Some t /\ says13 t x) /\
  (exists t, nth_error ts n = Some t /\ says6 t (r_lp q)) /\
  (exists t, nth_error ts (n + 1) = Some t /\ scan_int t = Some (r_it q)) /\
  (exists t, nth_error ts (n + 2) = Some t /\ scan_int t = Some (r_acc q)).
Lemma row_says_fields : forall L nan, nan_print nan -> forall n (q : crow (B64 L)), List.length (r_parm q) = n -> row_says n q (row_fields nan q).
Proof.
  intros L nan Hn n q Hl. unfold row_says, row_fields. assert (Lm : List.length (map (print_e nan) (r_parm q)) = n) by (rewrite map_length; exact Hl).
  split; [exact Hl|]. split; [rewrite app_length, Lm; reflexivity|]. split; [|split; [|split]].
  - intros j x Hj. exists (print_e nan x). split; [|apply C67_numbers, Hn].
    rewrite nth_error_app1; [exact (map_nth_error (print_e nan) j (r_parm q) Hj)|rewrite Lm, <- Hl; apply nth_error_Some; rewrite Hj; discriminate].
  - exists (print_f nan (r_lp q)). split; [|apply C67_numbers, Hn]. pose proof (nth_snoc (map (print_e nan) (r_parm q)) [print_f nan (r_lp q); dec (r_it q); dec (r_acc q)] 0) as K. rewrite Lm, Nat.add_0_r in K. exact K.
  - exists (dec (r_it q)). split; [|apply scan_dec]. pose proof (nth_snoc (map (print_e nan) (r_parm q)) [print_f nan (r_lp q); dec (r_it q); dec (r_acc q)] 1) as K. rewrite Lm in K. exact K.
  - exists (dec (r_acc q)). split; [|apply scan_dec]. pose proof (nth_snoc (map (print_e nan) (r_parm q)) [print_f nan (r_lp q); dec (r_it q); dec (r_acc q)] 2) as K. rewrite Lm in K. exact K.
Qed.

Lemma chain_text : forall L (S : Setup (B64 L)), Legal S -> forall k tr X, execution S k tr X -> forall nan, nan_print nan ->
  forall r, (r < s_n S)%nat -> exists rows, file (FChain r) tr = map (EvRow r) rows /\
    file_lines nan (FChain r) tr = map (row_line nan) rows /\
    Forall (fun q => row_says (Z.to_nat (N_parm (s_cfg S))) q (row_fields nan q)) rows.
Proof.
  intros L S HL k tr X HE nan Hn r Hr. destruct (C16_columns_any_time _ S HL k tr X HE r Hr) as [rows [E _]]. exists rows. split; [exact E|].
  split; [unfold file_lines; rewrite E; apply file_rows|]. apply Forall_forall. intros q Hq. apply row_says_fields; [exact Hn|].
  assert (K : haslen (N_parm (s_cfg S)) (r_parm q)).
  { apply (rows_len S HL k tr X HE r Hr). rewrite E. apply in_map. exact Hq. }
  unfold haslen in K. lia.
Qed.

(** Each line of a chain file of any execution, cut at the blanks, has N_parm + 3 fields: the parameters of the row to thirteen
    digits, its log posterior to six places, its two counters exactly. *)
Theorem C67_chain_file : forall L (S : Setup (B64 L)), Legal S -> forall k tr X, execution S k tr X -> forall nan, nan_print nan ->
  forall r, (r < s_n S)%nat -> exists rows ls,
    file (FChain r) tr = map (EvRow r) rows /\
    file_text nan (FChain r) tr = concat (map (fun l => l ++ [NL]) ls) /\
    Forall (fun l => ~ In NL l) ls /\
    Forall2 (fun q l => exists ts, tokens (is_delim (lit " ")) l ts /\ row_says (Z.to_nat (N_parm (s_cfg S))) q ts) rows ls.
Proof.
  intros L S HL k tr X HE nan Hn r Hr. destruct (chain_text L S HL k tr X HE nan Hn r Hr) as [rows [E1 [E2 F]]].
  exists rows, (file_lines nan (FChain r) tr). split; [exact E1|]. split; [reflexivity|].
  split; [apply Forall_forall; intros l Hl; apply (file_clean nan (nan_word nan Hn) _ _ _ Hl)|].
  rewrite E2. clear - F Hn. induction F as [|q rows H F IH]; [constructor|]. cbn [map]. constructor; [|exact IH].
  exists (row_fields nan q). split; [apply row_tokens, nan_word, Hn|exact H].
Qed.
Print Assumptions C67_chain_file.

(** The program's own loader reads a chain file (as a data file with N_parm + 3 columns separated by blanks) to one row of
    numbers per record, each the [atof] of a text that says what the record held. *)
Theorem C67_reload : forall L (S : Setup (B64 L)), Legal S -> forall k tr X, execution S k tr X -> forall nan, nan_print nan ->
  forall r, (r < s_n S)%nat -> forall (atof : bytes -> b64), (forall t, atof (t ++ [NL]) = atof t) ->
  let w := N_parm (s_cfg S) + 3 in
  Z.of_nat (List.length (file (FChain r) tr)) * w < 2 ^ 31 ->
  exists rows arr, file (FChain r) tr = map (EvRow r) rows /\
    get_nlines (Some (file_text nan (FChain r) tr)) = OK (Z.of_nat (List.length rows)) /\
    @read_data (B64 L) atof (lit " ") (Some (file_text nan (FChain r) tr)) w (Z.of_nat (List.length rows)) = OK arr /\
    Z.of_nat (List.length arr) = Z.of_nat (List.length rows) * w /\
    (forall i j q x, nth_error rows i = Some q -> nth_error (r_parm q) j = Some x ->
       exists t, says13 t x /\ nth_error arr (i * Z.to_nat w + j) = Some (atof t)).
Proof.
  intros L S HL k tr X HE nan Hn r Hr atof Hat w Hw. destruct (chain_text L S HL k tr X HE nan Hn r Hr) as [rows [E1 [E2 F]]].
  pose proof HL as [_ [VC _]]. assert (Np : 1 <= N_parm (s_cfg S)) by (destruct VC; lia). rewrite E1, map_length in Hw.
  assert (Ew : Z.to_nat w = (Z.to_nat (N_parm (s_cfg S)) + 3)%nat) by (unfold w; lia).
  destruct (C44_load (B64 L) atof (lit " ") w (file_lines nan (FChain r) tr) (map (row_fields nan) rows)) as [H1 [arr [H2 [H3 [H4 _]]]]].
  - unfold w; lia.
  - rewrite E2, map_length. exact Hw.
  - intros l Hl. apply (file_clean nan (nan_word nan Hn) _ _ _ Hl).
  - rewrite E2. clear - F Hn Ew. induction F as [|q rows H F IH]; cbn [map]; constructor; [|exact IH].
    split; [apply row_tokens, nan_word, Hn|]. destruct H as [_ [H _]]. lia.
  - intros ts t _ _. apply Hat.
  - rewrite E2, map_length in H1, H2, H3. exists rows, arr. split; [exact E1|]. change (file_text nan (FChain r) tr) with (unlines (file_lines nan (FChain r) tr)).
    rewrite E2. split; [exact H1|]. split; [exact H2|]. split; [exact H3|].
    intros i j q x Hi Hj. rewrite Forall_forall in F. destruct (F q (nth_error_In _ _ Hi)) as [Hl [_ [Hp _]]]. destruct (Hp j x Hj) as [t [Ht Hs]].
    exists t. split; [exact Hs|]. apply (H4 i j (row_fields nan q)); [rewrite nth_error_map, Hi; reflexivity|exact Ht|].
    assert (j < List.length (r_parm q))%nat by (apply nth_error_Some; congruence). lia.
Qed.
Print Assumptions C67_reload.

(** The lines of the other files, cut at the blanks. *)
Lemma tokens_pre : forall g t gap rest ts, (forall c, In c g -> blank_byte c = true) -> word t -> gap <> [] -> (forall c, In c gap -> blank_byte c = true) ->
  tokens blank_byte rest ts -> tokens blank_byte (g ++ t ++ gap ++ rest) (t :: ts).
Proof.
  intros g t gap rest ts Hg [Ht1 Ht2] G0 G H. apply tok_one; auto.
  - intros c Hc. apply solid_blank. rewrite forallb_forall in Ht2. auto.
  - right. destruct gap as [|c g']; [congruence|]. exists c, (g' ++ rest). split; [reflexivity|]. apply G. left; auto.
  - destruct H as [g' Hg'|g' t' rest ts' Hg' Ht' Hd Hr H].
    + apply tok_none. intros c Hc. apply in_app_or in Hc. destruct Hc; auto.
    + rewrite app_assoc. apply tok_one; auto. intros c Hc. apply in_app_or in Hc. destruct Hc; auto.
Qed.
Lemma tokens_last : forall t, word t -> tokens blank_byte t [t].
Proof.
  intros t [Ht1 Ht2]. pose proof (tok_one blank_byte [] t [] []) as K. cbn [app] in K. rewrite app_nil_r in K. apply K; [intros c []|exact Ht1| |left; reflexivity|].
  - intros c Hc. apply solid_blank. rewrite forallb_forall in Ht2. auto.
  - constructor. intros c [].
Qed.
Lemma in_combine_seq : forall {X} (l : list X) a i x, In (i, x) (combine (seq a (List.length l)) l) -> nth_error l (i - a) = Some x /\ (a <= i)%nat.
Proof.
  induction l as [|y l IH]; intros a i x H; [destruct H|]. cbn [List.length seq combine] in H. destruct H as [H|H].
  - injection H as <- <-. rewrite Nat.sub_diag. split; [reflexivity|lia].
  - destruct (IH _ _ _ H) as [K1 K2]. split; [|lia]. replace (i - a)%nat with (Datatypes.S (i - Datatypes.S a)) by lia. exact K1.
Qed.
Theorem C67_other_files : forall L nan, nan_print nan -> forall (e : event (B64 L)) l, In l (event_lines nan e) ->
  match e with
  | EvDir => False
  | EvSeed r s => exists tr ts, tokens (is_delim (lit " ")) l [lit "seed"; lit "for"; lit "rank"; tr; lit "is"; ts] /\
      scan_int tr = Some (Z.of_nat r) /\ scan_int ts = Some s
  | EvInit rows => exists i row ti ts, nth_error rows i = Some row /\
      tokens (is_delim (lit " ")) l (lit "init" :: lit "para" :: lit "set" :: ti :: ts) /\ scan_int ti = Some (Z.of_nat i) /\ Forall2 says6 ts row
  | EvRow _ q => exists ts, tokens (is_delim (lit " ")) l ts /\ row_says (List.length (r_parm q)) q ts
  | EvSigma _ v => exists ts, tokens (is_delim (lit " ")) l ts /\ Forall2 says13 ts v
  | EvBeta v => exists ts, tokens (is_delim (lit " ")) l ts /\ Forall2 says6 ts v
  end.
Proof.
  intros L nan Hn e l Hl. pose proof (nan_word nan Hn) as W.
  assert (B : forall c, In c (lit " ") -> blank_byte c = true) by (intros c [<-|[]]; reflexivity).
  assert (B0 : forall c : ascii, In c [] -> blank_byte c = true) by (intros c []).
  assert (Wd : forall t, t <> [] -> forallb solid t = true -> word t) by (intros; split; auto).
  assert (F : forall (P : b64 -> bytes) (says : bytes -> b64 -> Prop) (v : list b64), (forall x, says (P x) x) -> Forall2 says (map P v) v).
  { intros P says v HP. induction v; cbn [map]; constructor; auto. }
  destruct e as [|r s|rows|r q|r v|v]; cbn [event_lines] in Hl.
  - destruct Hl.
  - destruct Hl as [<-|[]]. exists (dec (Z.of_nat r)), (dec s). split; [|split; apply scan_dec]. unfold seed_line.
    apply (tokens_pre [] (lit "seed") (lit " ") (lit "for rank " ++ dec (Z.of_nat r) ++ lit " is " ++ dec s)); auto; try discriminate; try (apply Wd; [discriminate|reflexivity]).
    apply (tokens_pre [] (lit "for") (lit " ") (lit "rank " ++ dec (Z.of_nat r) ++ lit " is " ++ dec s)); auto; try discriminate; try (apply Wd; [discriminate|reflexivity]).
    apply (tokens_pre [] (lit "rank") (lit " ") (dec (Z.of_nat r) ++ lit " is " ++ dec s)); auto; try discriminate; try (apply Wd; [discriminate|reflexivity]).
    apply (tokens_pre [] (dec (Z.of_nat r)) (lit " ") (lit "is " ++ dec s)); auto; try discriminate; try apply word_dec.
    apply (tokens_pre [] (lit "is") (lit " ") (dec s)); auto; try discriminate; try (apply Wd; [discriminate|reflexivity]).
    apply tokens_last, word_dec.
  - apply in_map_iff in Hl. destruct Hl as [[i row] [<- Hi]]. cbn [fst snd]. apply in_combine_seq in Hi. destruct Hi as [Hi _]. rewrite Nat.sub_0_r in Hi.
    exists i, row, (dec (Z.of_nat i) ++ lit ":"), (map (print_f nan) row). split; [exact Hi|]. split; [|split].
    + unfold init_line. set (tl := concat (map (fun x : num (B64 L) => print_f nan x ++ lit " ") row)).
      apply (tokens_pre [] (lit "init") (lit " ") (lit "para set " ++ dec (Z.of_nat i) ++ lit ": " ++ tl)); auto; try discriminate; try (apply Wd; [discriminate|reflexivity]).
      apply (tokens_pre [] (lit "para") (lit " ") (lit "set " ++ dec (Z.of_nat i) ++ lit ": " ++ tl)); auto; try discriminate; try (apply Wd; [discriminate|reflexivity]).
      apply (tokens_pre [] (lit "set") (lit " ") (dec (Z.of_nat i) ++ lit ": " ++ tl)); auto; try discriminate; try (apply Wd; [discriminate|reflexivity]).
      change (lit ": " ++ tl) with (lit ":" ++ (lit " " ++ tl)). rewrite (app_assoc (dec (Z.of_nat i))).
      apply (tokens_pre [] (dec (Z.of_nat i) ++ lit ":") (lit " ") tl); auto; try discriminate; [apply word_app_l; [apply word_dec|reflexivity]|].
      unfold tl. pose proof (fields_tokens (lit " ") ltac:(discriminate) B (map (print_f nan) row)) as K. rewrite map_map in K. apply K.
      apply Forall_forall. intros t Ht. apply in_map_iff in Ht. destruct Ht as [x [<- _]]. apply word_print_f, W.
    + pose proof (scan_int_written [] (dec (Z.of_nat i)) (Z.of_nat i) (lit ":") (Forall_nil _) (dec_written _) eq_refl) as K. exact K.
    + apply F. intros x. apply C67_numbers, Hn.
  - destruct Hl as [<-|[]]. exists (row_fields nan q). split; [apply row_tokens, W|apply row_says_fields; auto].
  - destruct Hl as [<-|[]]. exists (map (print_e nan) v). split; [|apply F; intros x; apply C67_numbers, Hn]. unfold sigma_line.
    pose proof (fields_tokens (lit "   ") ltac:(discriminate) ltac:(intros c [<-|[<-|[<-|[]]]]; reflexivity) (map (print_e nan) v)) as K. rewrite map_map in K. apply K.
    apply Forall_forall. intros t Ht. apply in_map_iff in Ht. destruct Ht as [x [<- _]]. apply word_print_e, W.
  - destruct Hl as [<-|[]]. exists (map (print_f nan) v). split; [|apply F; intros x; apply C67_numbers, Hn]. unfold beta_line.
    pose proof (fields_tokens (lit " ") ltac:(discriminate) B (map (print_f nan) v)) as K. rewrite map_map in K. apply K.
    apply Forall_forall. intros t Ht. apply in_map_iff in Ht. destruct Ht as [x [<- _]]. apply word_print_f, W.
Qed.
Print Assumptions C67_other_files.

(** Stop an execution anywhere, even in the middle of writing a line: the file (other than the shared init.randseed) is a number
    of the lines a complete execution leaves, from the first on, and then possibly a piece of the next line, which is not
    followed by a newline. *)
Theorem C67_torn : forall L (S : Setup (B64 L)), Legal S -> forall k tr X, execution S k tr X ->
  forall k' tr' X', execution S k' tr' X' -> complete S X' -> forall nan, nan_print nan -> forall f, f <> FSeed ->
  forall m, exists full j part, file_text nan f tr' = concat (map (fun l => l ++ [NL]) full) /\ Forall (fun l => ~ In NL l) full /\
    firstn m (file_text nan f tr) = concat (map (fun l => l ++ [NL]) (firstn j full)) ++ part /\
    ~ In NL part /\ (part = [] \/ exists l rest, nth_error full j = Some l /\ l = part ++ rest).
Proof.
  intros L S HL k tr X HE k' tr' X' HE' HC nan Hn f Hf m. destruct (C42_crash_prefix _ S HL k tr X HE k' tr' X' HE' HC f Hf) as [rest E].
  exists (file_lines nan f tr'). set (full := file_lines nan f tr').
  assert (C : Forall (fun l => ~ In NL l) full) by (apply Forall_forall; intros l Hl; apply (file_clean nan (nan_word nan Hn) _ _ _ Hl)).
  assert (Ef : full = file_lines nan f tr ++ concat (map (event_lines nan) rest)) by (unfold full, file_lines; rewrite E, map_app, concat_app; reflexivity).
  destruct (cut_lines full (min m (List.length (file_text nan f tr))) C) as [j [part [E1 [N P]]]].
  exists j, part. split; [reflexivity|]. split; [exact C|]. split; [|auto].
  refine (eq_trans _ E1). assert (Eu : unlines full = file_text nan f tr ++ unlines (concat (map (event_lines nan) rest))).
  { rewrite Ef. unfold unlines. rewrite map_app, concat_app. reflexivity. }
  rewrite Eu, firstn_app.
  replace (min m (List.length (file_text nan f tr)) - List.length (file_text nan f tr))%nat with 0%nat by lia. cbn [firstn]. rewrite app_nil_r.
  destruct (Nat.le_gt_cases m (List.length (file_text nan f tr))) as [K|K]; [rewrite Nat.min_l by lia; reflexivity|].
  rewrite Nat.min_r by lia. rewrite !firstn_all2 by lia. reflexivity.
Qed.
Print Assumptions C67_torn.

(** The texts are not exact: 1 and the next double print alike in a chain file, and a positive beta of 2^-23 prints as 0.000000. *)
Definition one64 : b64 := bof 1.
Definition next64 : b64 := binary_normalize prec emax _ _ mode_NE (2 ^ 52 + 1) (-52) false.
Definition small64 : b64 := binary_normalize prec emax _ _ mode_NE 1 (-23) false.
Theorem C67_exact_refuted : forall nan,
  print_e nan one64 = print_e nan next64 /\ (B2R one64 < B2R next64)%R /\
  print_f nan small64 = lit "0.000000" /\ (0 < B2R small64)%R.
Proof.
  intros nan. split; [vm_compute; reflexivity|]. split; [|split; [vm_compute; reflexivity|]].
  - assert (E1 : B2SF one64 = S754_finite false (2 ^ 52) (-52)) by (vm_compute; reflexivity).
    assert (E2 : B2SF next64 = S754_finite false (2 ^ 52 + 1) (-52)) by (vm_compute; reflexivity).
    destruct one64 as [| | |s m e H]; try discriminate E1. destruct next64 as [| | |s' m' e' H']; try discriminate E2.
    cbn [B2SF] in E1, E2. injection E1 as -> -> ->. injection E2 as -> -> ->. cbn [B2R cond_Zopp]. apply F2R_lt. reflexivity.
  - assert (E1 : B2SF small64 = S754_finite false (2 ^ 52) (-75)) by (vm_compute; reflexivity).
    destruct small64 as [| | |s m e H]; try discriminate E1.
    cbn [B2SF] in E1. injection E1 as -> -> ->. cbn [B2R cond_Zopp]. apply F2R_gt_0. reflexivity.
Qed.
Print Assumptions C67_exact_refuted.

(** a row with the parameters 1 and -2^-23, log posterior -1/2, iteration 120 and 37 accepted steps *)
Definition half64 : b64 := binary_normalize prec emax _ _ mode_NE (-1) (-1) false.
Example C67_case : forall L, let q : crow (B64 L) := @mkRow (B64 L) [one64; Bopp small64] half64 120 37 in
  row_line (lit "nan") q = lit "1.000000000000e+00  -1.192092895508e-07  -0.500000  120  37  " /\
  row_says 2 q [lit "1.000000000000e+00"; lit "-1.192092895508e-07"; lit "-0.500000"; lit "120"; lit "37"] /\
  exists k tr X, execution (demo L) k tr X /\ complete (demo L) X /\ (0 < List.length (file (FChain 0) tr))%nat.
Proof.
  intros L q. split; [vm_compute; reflexivity|]. split; [exact (row_says_fields L (lit "nan") (or_introl eq_refl) 2 q eq_refl)|].
  destruct (complete_case L) as [k [tr [X [HE HC]]]]. exists k, tr, X. split; [exact HE|]. split; [exact HC|].
  destruct (C16_columns _ _ (demo_legal L) k tr X HE HC 0%nat ltac:(vm_compute; lia)) as [r0 [rows [s [E _]]]]. rewrite E. cbn. lia.
Qed.

Example C67_lines_case : forall L,
  event_lines (L := L) (lit "nan") (@EvSeed (B64 L) 3 (-17)) = [lit "seed for rank 3 is -17"] /\
  event_lines (L := L) (lit "nan") (@EvInit (B64 L) [[one64]; [half64; one64]]) = [lit "init para set 0: 1.000000 "; lit "init para set 1: -0.500000 1.000000 "] /\
  event_lines (L := L) (lit "nan") (@EvSigma (B64 L) 1 [one64; half64]) = [lit "1.000000000000e+00   -5.000000000000e-01   "] /\
  event_lines (L := L) (lit "nan") (@EvBeta (B64 L) [one64; B754_infinity true]) = [lit "1.000000 -inf "].
Proof. intros L. repeat split; vm_compute; reflexivity. Qed.
