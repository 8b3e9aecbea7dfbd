(** Properties C44, C45, C49, C50 and C55: data file, file names, matrices, shipped configurations. *)
From Coq Require Import ZArith Arith Ascii String List Bool Lia Permutation.
From Verif Require Import Base Arith B64 Rand Mh Mpi MpiMeta Spmd Prog Seq SeqWf Refine SeqTotal System RandRange UserModels Demo Runs
  History RunHist Failing FailRuns Bytes BytesFacts Readin ReadFacts Loader LoadFacts BetaFacts InputRuns Names Alloc Inputs Shipped.
Import ListNotations.
Open Scope list_scope.
Open Scope Z_scope.

(** ** C44: a well-formed data file *)

Lemma row_nl : forall {A} (atof : bytes -> num A) delim ndim l ts, tokens (is_delim delim) l ts -> ~ In NUL l ->
  (forall t, In t ts -> atof (t ++ [NL]) = atof t) -> 0 <= ndim <= Z.of_nat (List.length ts) ->
  exists ts', good delim ndim (l ++ [NL]) ts' /\ row_of atof ndim ts' = row_of atof ndim ts.
Proof.
  intros A atof delim ndim l ts HT HZ Hat Hn. destruct (tokens_nl _ _ _ HT) as [ts' [T [L N]]]. exists ts'.
  split; [split; [rewrite cstr_id; [exact T|]; intros K; apply in_app_or in K; destruct K as [K|[K|[]]]; [auto|discriminate]|lia]|].
  unfold row_of. clear T HT. assert (Hm : (Z.to_nat ndim <= List.length ts)%nat) by lia. clear Hn. revert Hm. generalize (Z.to_nat ndim) as m. intros m Hm.
  revert ts' m L N Hm. induction ts as [|t ts IH]; intros ts' m L N Hm; [destruct m; [reflexivity|cbn in Hm; lia]|].
  destruct m as [|m]; [reflexivity|]. destruct ts' as [|t' ts']; [cbn in L; lia|]. cbn [firstn map].
  f_equal.
  - destruct (N 0%nat t eq_refl) as [K|K]; cbn in K; injection K as ->; [reflexivity|apply Hat; left; auto].
  - apply IH; [intros x Hx; apply Hat; right; auto|cbn in L; lia| |cbn in Hm; lia]. intros j x K. apply (N (S j) x K).
Qed.
Lemma nth_error_firstn : forall {X} (l : list X) j m x, nth_error l j = Some x -> (j < m)%nat -> nth_error (firstn m l) j = Some x.
Proof.
  induction l as [|y l IH]; intros [|j] [|m] x H Hm; try discriminate; try lia; cbn [firstn nth_error] in *; [exact H|apply IH; [exact H|lia]].
Qed.
Lemma concat_rows : forall {X} (rows : list (list X)) k, (forall r, In r rows -> List.length r = k) ->
  forall i j r x, nth_error rows i = Some r -> nth_error r j = Some x -> nth_error (concat rows) (i * k + j) = Some x.
Proof.
  induction rows as [|r0 rows IH]; intros k HK i j r x Hi Hj; [destruct i; discriminate|]. cbn [concat].
  destruct i as [|i]; cbn [nth_error] in Hi.
  - injection Hi as ->. cbn [Nat.mul Nat.add]. rewrite nth_error_app1; auto. apply nth_error_Some. congruence.
  - rewrite nth_error_app2 by (rewrite (HK r0) by (left; auto); lia). rewrite (HK r0) by (left; auto).
    replace (S i * k + j - k)%nat with (i * k + j)%nat by lia. eapply IH; eauto. intros; apply HK; right; auto.
Qed.

(** [tokens d l ts]: ts are the maximal runs of bytes of l that are not delimiters.  [unlines ls]: the lines ls, each followed by a
    newline.  [atof] is any function that does not look at a newline after the number. *)
Theorem C44_load : forall A (atof : bytes -> num A) delim ndim (ls : list bytes) tss,
  1 <= ndim -> Z.of_nat (List.length ls) * ndim < 2 ^ 31 ->
  (forall l, In l ls -> ~ In NL l /\ ~ In NUL l /\ ~ In xFF l) ->
  Forall2 (fun l ts => tokens (is_delim delim) l ts /\ ndim <= Z.of_nat (List.length ts)) ls tss ->
  (forall ts t, In ts tss -> In t ts -> atof (t ++ [NL]) = atof t) ->
  get_nlines (Some (unlines ls)) = OK (Z.of_nat (List.length ls)) /\
  exists arr, read_data atof delim (Some (unlines ls)) ndim (Z.of_nat (List.length ls)) = OK arr /\
    Z.of_nat (List.length arr) = Z.of_nat (List.length ls) * ndim /\
    (forall i j ts t, nth_error tss i = Some ts -> nth_error ts j = Some t -> Z.of_nat j < ndim ->
       nth_error arr (i * Z.to_nat ndim + j) = Some (atof t)) /\
    (forall time, ValidEnv (file_env atof delim (Some (unlines ls)) ndim time) ndim) /\
    (forall S : Setup A, s_ndim S = ndim -> (exists time, s_env S = file_env atof delim (Some (unlines ls)) ndim time) ->
     forall D, dataset S D <-> D = mkData (Z.of_nat (List.length ls)) arr).
Proof.
  intros A atof delim ndim ls tss Hn Hb Hls HF Hat.
  assert (F1 : Forall (fun l => ~ In NL l) ls) by (apply Forall_forall; intros l Hl; apply Hls; auto).
  assert (Hff : ~ In xFF (unlines ls)).
  { intros K. unfold unlines in K. apply in_concat in K. destruct K as [x [K1 K2]]. apply in_map_iff in K1. destruct K1 as [l [<- Hl]].
    apply in_app_or in K2. destruct K2 as [K2|[K2|[]]]; [apply (Hls l Hl); auto|discriminate]. }
  assert (Hc : get_nlines (Some (unlines ls)) = OK (Z.of_nat (List.length ls))).
  { cbn [get_nlines]. rewrite count_nl_ok; auto; try lia; rewrite nls_unlines by auto; [reflexivity|unfold INT_MAX; nia]. }
  split; [exact Hc|].
  assert (El : lines (unlines ls) = map (fun l => l ++ [NL]) ls).
  { pose proof (lines_unlines ls [] F1 (fun x => x)) as K. rewrite app_nil_r in K. rewrite K. apply app_nil_r. }
  assert (G : exists tss', Forall2 (good delim ndim) (lines (unlines ls)) tss' /\ map (row_of atof ndim) tss' = map (row_of atof ndim) tss).
  { rewrite El. clear - Hn HF Hls Hat. induction HF as [|l ts ls tss [HT HL] HF IH]; [exists []; split; [constructor|reflexivity]|].
    destruct IH as [tss' [G1 G2]]; [intros; apply Hls; right; auto|intros ts0 t0 K1 K2; apply (Hat ts0); [right|]; auto|].
    destruct (row_nl atof delim ndim l ts HT) as [ts' [R1 R2]]; [apply Hls; left; auto|intros t Ht; apply (Hat ts); [left|]; auto|lia|].
    exists (ts' :: tss'). split; [constructor; auto|]. cbn [map]. rewrite R2, G2. reflexivity. }
  destruct G as [tss' [G1 G2]].
  assert (Len : List.length (lines (unlines ls)) = List.length ls) by (rewrite El; apply map_length).
  pose proof (read_data_ok atof delim (unlines ls) ndim tss' Hn G1) as R. rewrite Len in R. specialize (R ltac:(unfold INT_MAX; lia)). rewrite G2 in R.
  exists (concat (map (row_of atof ndim) tss)). split; [exact R|]. split; [eapply read_data_length; eauto|].
  assert (VE : forall time, ValidEnv (file_env atof delim (Some (unlines ls)) ndim time) ndim).
  { intros time. constructor.
    - exists (Z.of_nat (List.length ls)), (concat (map (row_of atof ndim) tss)). split; [exact Hc|]. split; [unfold INT_MIN, INT_MAX; lia|exact R].
    - intros nl arr K. exact (read_data_length atof delim (Some (unlines ls)) ndim nl arr K). }
  split; [|split; [exact VE|]].
  - intros i j ts t Hi Hj Hjn.
    assert (Rl : forall r, In r (map (row_of atof ndim) tss) -> List.length r = Z.to_nat ndim).
    { intros r Hr. apply in_map_iff in Hr. destruct Hr as [ts0 [<- Hts]].
      destruct (In_nth_error _ _ Hts) as [q Hq]. clear - HF Hq Hn. assert (K : ndim <= Z.of_nat (List.length ts0)).
      { revert q Hq. induction HF as [|l ts ls tss [_ H] HF IH]; intros [|q] Hq; try discriminate; cbn in Hq; [injection Hq as ->; exact H|exact (IH q Hq)]. }
      pose proof (row_len atof ndim ts0 ltac:(lia)). lia. }
    apply (concat_rows _ _ Rl i j (row_of atof ndim ts)).
    + rewrite nth_error_map, Hi. reflexivity.
    + unfold row_of. rewrite nth_error_map. assert (E : nth_error (firstn (Z.to_nat ndim) ts) j = Some t).
      { apply nth_error_firstn; [exact Hj|lia]. }
      rewrite E. reflexivity.
  - intros S HS [time HE] D. unfold dataset. rewrite HE. cbn [file_env e_nlines e_data].
    split.
    + intros [nl [arr [K1 [K2 ->]]]]. rewrite Hc in K1. injection K1 as <-. rewrite R in K2. injection K2 as <-. reflexivity.
    + intros ->. exists (Z.of_nat (List.length ls)), (concat (map (row_of atof ndim) tss)). auto.
Qed.
Print Assumptions C44_load.

(** two lines, two columns, the second line with more blanks and a third number *)
Lemma tok_dec : forall d g t rest ts, forallb d g = true -> t <> [] -> existsb d t = false ->
  match rest with [] => true | c :: _ => d c end = true -> tokens d rest ts -> tokens d (g ++ t ++ rest) (t :: ts).
Proof.
  intros d g t rest ts H1 H2 H3 H4 H5. apply tok_one; auto.
  - rewrite forallb_forall in H1. exact H1.
  - intros c Hc. destruct (d c) eqn:E; auto. assert (K : existsb d t = true) by (apply existsb_exists; eauto). congruence.
  - destruct rest as [|c r]; [left; auto|right; exists c, r; auto].
Qed.
Definition two_lines : list bytes := [lit "1 2.5"; lit "-3   4 9 "].
Definition two_tokens : list (list bytes) := [[lit "1"; lit "2.5"]; [lit "-3"; lit "4"; lit "9"]].
Lemma two_ok : Forall2 (fun l ts => tokens (is_delim (lit " ")) l ts /\ 2 <= Z.of_nat (List.length ts)) two_lines two_tokens.
Proof.
  constructor; [split; [|cbn; lia]|constructor; [split; [|cbn; lia]|constructor]].
  - apply (tok_dec _ [] (lit "1") (lit " 2.5")); try reflexivity; [discriminate|]. apply (tok_dec _ (lit " ") (lit "2.5") []); try reflexivity; [discriminate|].
    constructor. intros c [].
  - apply (tok_dec _ [] (lit "-3") (lit "   4 9 ")); try reflexivity; [discriminate|]. apply (tok_dec _ (lit "   ") (lit "4") (lit " 9 ")); try reflexivity; [discriminate|].
    apply (tok_dec _ (lit " ") (lit "9") (lit " ")); try reflexivity; [discriminate|]. constructor. intros c [<-|[]]. reflexivity.
Qed.
Lemma two_clean : forall l, In l two_lines -> ~ In NL l /\ ~ In NUL l /\ ~ In xFF l.
Proof. intros l [<-|[<-|[]]]; repeat split; vm_compute; intuition discriminate. Qed.
Example C44_case : forall A, read_data (A := A) dec_atof (lit " ") (Some (unlines two_lines)) 2 2 = OK [nof 1; nlit 25 1; nof (-3); nof 4].
Proof.
  intros A. destruct (C44_load A dec_atof (lit " ") 2 two_lines two_tokens) as [_ [arr [E _]]]; try lia.
  - cbn. lia.
  - exact two_clean.
  - exact two_ok.
  - intros ts t [<-|[<-|[]]]; cbn [In]; intros; intuition (subst; reflexivity).
  - vm_compute. reflexivity.
Qed.
(** A blank before the newline of a line that is one number short: the newline is taken for the number 0. *)
Example C44_short_line : forall A, read_data (A := A) dec_atof (lit " ") (Some (lit "1 " ++ [NL])) 2 1 = OK [nof 1; nof 0].
Proof. intros A. vm_compute. reflexivity. Qed.

(** ** C45: counting lines and reading them *)

(** Every file is uniquely some terminated lines and a rest without newline; the reader stores a row for each line and for a
    non-empty rest.  The count is the same exactly if there is no rest and no byte 0xFF; otherwise it is smaller. *)
Definition rows_read (ls : list bytes) (last : bytes) : Z := Z.of_nat (List.length ls) + match last with [] => 0 | _ => 1 end.
Lemma rows_read_ok : forall (ls : list bytes) (last : bytes), Forall (fun l => ~ In NL l) ls -> ~ In NL last -> Z.of_nat (List.length (lines (unlines ls ++ last))) = rows_read ls last.
Proof.
  intros ls last H1 H2. rewrite lines_unlines by auto. rewrite app_length, map_length. unfold rows_read. change (@List.length (list ascii) ls) with (@List.length bytes ls). destruct last; cbn [List.length]; lia.
Qed.
Theorem C45_count : forall (ls : list bytes) (last : bytes), (forall l, In l ls -> ~ In NL l) -> ~ In NL last -> Z.of_nat (List.length ls) < 2 ^ 31 ->
  exists k, get_nlines (Some (unlines ls ++ last)) = OK k /\ 0 <= k <= rows_read ls last /\
    (k = rows_read ls last <-> last = [] /\ ~ In xFF (unlines ls ++ last)).
Proof.
  intros ls last Hl H2 Hb. assert (H1 : Forall (fun l => ~ In NL l) ls) by (apply Forall_forall; exact Hl).
  assert (EN : nls (unlines ls ++ last) = Z.of_nat (List.length ls)) by (rewrite nls_app, nls_unlines, nls_none by auto; lia).
  cbn [get_nlines]. destruct (in_dec ascii_dec xFF (unlines ls ++ last)) as [Hi|Hi].
  - destruct (split_ff _ Hi) as [p [q [E Hp]]]. exists (nls p).
    assert (Hpq : nls p <= Z.of_nat (List.length ls)). { rewrite <- EN, E, nls_app. unfold nls. lia. }
    pose proof (nls_ff_last p q last ls Hp (eq_sym E) H1 H2) as K. fold (rows_read ls last) in K.
    split; [rewrite E; rewrite count_nl_ff; auto; unfold INT_MAX; lia|]. split; [unfold nls in *; lia|]. split; [lia|tauto].
  - exists (Z.of_nat (List.length ls)). rewrite count_nl_ok; auto; try lia; [|rewrite EN; unfold INT_MAX; lia]. rewrite EN. split; [reflexivity|].
    unfold rows_read. destruct last as [|c last].
    + split; [lia|]. split; [intros _; auto|intros _; lia].
    + split; [lia|]. split; [lia|intros [K _]; discriminate].
Qed.
Print Assumptions C45_count.

(** If it is smaller, and every line has its numbers, the reader writes past the end of the array, and every run of the program with
    that file fails. *)
Theorem C45_overflow : forall A (atof : bytes -> num A) delim ndim (ls : list bytes) (last : bytes), 1 <= ndim -> rows_read ls last * ndim < 2 ^ 31 ->
  (forall l, In l (ls ++ [last]) -> ~ In NL l /\ ~ In NUL l) ->
  (forall l, In l (ls ++ match last with [] => [] | _ => [last] end) -> exists ts, tokens (is_delim delim) l ts /\ ndim <= Z.of_nat (List.length ts)) ->
  last <> [] \/ In xFF (unlines ls ++ last) ->
  exists k, get_nlines (Some (unlines ls ++ last)) = OK k /\ read_data atof delim (Some (unlines ls ++ last)) ndim k = Stop OutOfBounds /\
  forall S : Setup A, (2 <= s_n S)%nat -> s_ndim S = ndim -> (exists time, s_env S = file_env atof delim (Some (unlines ls ++ last)) ndim time) ->
    fails S OutOfBounds.
Proof.
  intros A atof delim ndim ls last Hn Hb Hcl Htk Hbad.
  assert (H1 : Forall (fun l => ~ In NL l) ls) by (apply Forall_forall; intros l K; apply Hcl; apply in_or_app; auto).
  assert (H2 : ~ In NL last) by (apply Hcl; apply in_or_app; right; left; auto).
  destruct (C45_count ls last ltac:(apply Forall_forall; exact H1) H2 ltac:(unfold rows_read in Hb; destruct last; nia)) as [k [E1 [E2 E3]]].
  exists k. split; [exact E1|].
  assert (Hk : k < rows_read ls last). { assert (k <> rows_read ls last) by (rewrite E3; tauto). lia. }
  assert (G : exists tss, Forall2 (good delim ndim) (lines (unlines ls ++ last)) tss).
  { rewrite lines_unlines by auto.
    assert (W : forall xs, (forall l, In l xs -> exists ts, tokens (is_delim delim) (cstr l) ts /\ ndim <= Z.of_nat (List.length ts)) -> exists tss, Forall2 (good delim ndim) xs tss).
    { clear. induction xs as [|x xs IH]; intros H; [exists []; constructor|]. destruct (H x (or_introl eq_refl)) as [ts Hts].
      destruct IH as [tss HF]; [intros; apply H; right; auto|]. exists (ts :: tss). constructor; auto. }
    apply W. intros l Hl. apply in_app_or in Hl. destruct Hl as [Hl|Hl].
    - apply in_map_iff in Hl. destruct Hl as [x [<- Hx]].
      destruct (Htk x ltac:(apply in_or_app; auto)) as [ts [T L]]. destruct (tokens_nl _ _ _ T) as [ts' [T' [L' _]]]. exists ts'.
      rewrite cstr_id; [split; [exact T'|lia]|]. intros K. apply in_app_or in K. destruct K as [K|[K|[]]]; [|discriminate].
      apply (Hcl x); [apply in_or_app; auto|auto].
    - destruct (Htk l ltac:(apply in_or_app; right; exact Hl)) as [ts [T L]]. exists ts. rewrite cstr_id; [auto|].
      destruct last; [destruct Hl|]. destruct Hl as [<-|[]]. apply Hcl. apply in_or_app. right. left. auto. }
  destruct G as [tss G].
  assert (R : read_data atof delim (Some (unlines ls ++ last)) ndim k = Stop OutOfBounds).
  { eapply read_data_oob; eauto; rewrite rows_read_ok by auto; unfold INT_MAX; lia. }
  split; [exact R|]. intros S HnS HS [time HE].
  apply (data_fails S k); auto.
  - rewrite HE. exact E1.
  - rewrite HS. unfold INT_MIN, INT_MAX. nia.
  - rewrite HE. cbn [file_env e_data]. exact R.
Qed.
Print Assumptions C45_overflow.
(** the case C44: the numbers agree *)
Example C45_case : rows_read two_lines [] = 2 /\ get_nlines (Some (unlines two_lines)) = OK 2.
Proof. split; reflexivity. Qed.
(** without the last newline *)
Theorem C45_refuted : forall L, exists f, get_nlines (Some f) = OK 1 /\ read_data (A := B64 L) dec_atof (lit " ") (Some f) 2 1 = Stop OutOfBounds /\
  fails (mkSetup (demo_cfg (B64 L)) (demo_user _) 4 (file_env dec_atof (lit " ") (Some f) 2 1700000000) 2) OutOfBounds.
Proof.
  intros L. exists (unlines [lit "1 2.5"] ++ lit "-3   4 9 ").
  destruct (C45_overflow (B64 L) dec_atof (lit " ") 2 [lit "1 2.5"] (lit "-3   4 9 ")) as [k [E1 [E2 E3]]].
  - lia.
  - vm_compute. reflexivity.
  - intros l [<-|[<-|[]]]; split; vm_compute; intuition discriminate.
  - pose proof two_ok as T. inversion T as [|x1 y1 z1 w1 T1 T2]; subst. inversion T2 as [|x2 y2 z2 w2 T3 T4]; subst.
    intros l [<-|[<-|[]]]; [exists [lit "1"; lit "2.5"]|exists [lit "-3"; lit "4"; lit "9"]]; auto.
  - left. discriminate.
  - assert (k = 1) by (vm_compute in E1; congruence). subst k. split; [exact E1|]. split; [exact E2|].
    apply E3; [cbn [s_n]; lia|reflexivity|]. exists 1700000000. reflexivity.
Qed.
Print Assumptions C45_refuted.

(** ** C49: the names of the output files *)

(** [path_of dir pre suf len f]: the name under which the file f is opened. *)
Theorem C49_distinct : forall dir pre suf len r q p, blen (chain_text dir pre suf r) < len -> blen (chain_text dir pre suf q) < len ->
  path_of dir pre suf len (FChain r) = OK p -> path_of dir pre suf len (FChain q) = OK p -> r = q.
Proof.
  intros dir pre suf len r q p Hr Hq Ep Eq. cbn [path_of] in *. rewrite snprintf_fits in Ep, Eq by auto. injection Ep as Ep. injection Eq as Eq.
  rewrite <- Eq in Ep. unfold chain_text in Ep. apply in_dir_inj in Ep. apply app_inv_head in Ep. apply app_inv_tail in Ep. apply dec_rank_inj; auto.
Qed.
Print Assumptions C49_distinct.
(** the names themselves, spelled out *)
Theorem C49_name : forall dir pre suf len r, blen (dir ++ "/"%char :: pre ++ dec (Z.of_nat r) ++ suf) < len ->
  path_of dir pre suf len (FChain r) = OK (dir ++ "/"%char :: pre ++ dec (Z.of_nat r) ++ suf).
Proof. intros. cbn [path_of]. apply snprintf_fits. exact H. Qed.
Print Assumptions C49_name.

(** [own_prefix pre]: FoutPre and none of the four other names is a prefix of the other.  All names fit: after any part of any
    execution the file on disk with the name of f holds exactly the lines appended to f, and after a complete run the chain file of rank
    r is the one of the sequential reference. *)
Theorem C49_files : forall A (S : Setup A), Legal S -> forall dir pre suf len, all_fit dir pre suf len (s_n S) -> own_prefix pre ->
  forall k tr X, execution S k tr X -> forall f p, valid_file (s_n S) f -> path_of dir pre suf len f = OK p ->
  disk dir pre suf len p tr = file f tr /\
  (complete S X -> f <> FSeed -> forall G t, reference S = OK (G, t) -> disk dir pre suf len p tr = file f t).
Proof.
  intros A S HL dir pre suf len HF HO k tr X HE f p Hv Hp.
  destruct (reference_ok S HL) as [G0 [t0 R0]]. destruct HL as [RK [VC [VU VE]]] eqn:EHL. 
  destruct (run_facts _ _ _ _ _ RK VC VU VE G0 t0 k tr X R0 HE) as [k2 [tr2 [_ HP]]].
  assert (P : Permutation (tr ++ tr2) t0) by (apply gproj_perm; exact HP).
  pose proof (owned_perm _ _ _ P (seq_main_owned _ _ _ _ _ VC G0 t0 R0)) as Ho.
  assert (E : disk dir pre suf len p tr = file f tr).
  { apply (disk_file dir pre suf len (s_n S) HF HO f Hv); auto. intros r e Hi g Eg.
    destruct (Ho r e ltac:(apply in_or_app; auto)) as [O1 O2]. destruct e; cbn in Eg; inversion Eg; subst; cbn [valid_file owner] in *; auto. }
  split; [exact E|]. intros HC Hf G t HR. rewrite E. apply (legal_files S HL k tr X HE HC G t HR); auto.
Qed.
Print Assumptions C49_files.

(** the shipped regression input *)
Example C49_case : all_fit (lit "results082900") (lit "chain") (lit ".dat") 100 4 /\ own_prefix (lit "chain").
Proof.
  split.
  - split.
    + intros r Hr. destruct r as [|[|[|[|r]]]]; try lia; split; vm_compute; reflexivity.
    + repeat split; vm_compute; reflexivity.
  - repeat split; reflexivity.
Qed.

(** A directory and prefix that fill the buffer: all ranks append to one file. *)
Theorem C49_truncated : forall dir pre suf len, 1 <= len -> len - 1 <= blen (dir ++ "/"%char :: pre) ->
  forall r q, path_of dir pre suf len (FChain r) = path_of dir pre suf len (FChain q).
Proof.
  intros dir pre suf len Hl Hb r q. cbn [path_of]. unfold snprintf. destruct (Z.leb_spec len 0); [lia|]. f_equal.
  assert (W : forall x, firstn (Z.to_nat (len - 1)) (chain_text dir pre suf x) = firstn (Z.to_nat (len - 1)) (dir ++ "/"%char :: pre)).
  { intros x. unfold chain_text, in_dir. replace (dir ++ lit "/" ++ pre ++ dec (Z.of_nat x) ++ suf) with ((dir ++ "/"%char :: pre) ++ dec (Z.of_nat x) ++ suf)
      by (rewrite <- app_assoc; reflexivity).
    rewrite firstn_app. unfold blen in Hb. replace (Z.to_nat (len - 1) - List.length (dir ++ "/"%char :: pre))%nat with 0%nat by lia. cbn [firstn]. apply app_nil_r. }
  rewrite !W. reflexivity.
Qed.
Print Assumptions C49_truncated.
Theorem C49_truncated_refuted : exists dir pre suf len r q p, r <> q /\
  path_of dir pre suf len (FChain r) = OK p /\ path_of dir pre suf len (FChain q) = OK p.
Proof.
  exists (lit "results"), (lit "chain"), (lit ".dat"), 14, 0%nat, 1%nat, (lit "results/chain"). split; [discriminate|]. split; reflexivity.
Qed.
Print Assumptions C49_truncated_refuted.
(** FoutPre "gaussian_prop.chain" with an empty suffix: the chain and the record of the widths share a file, for every rank. *)
Theorem C49_clash_refuted : exists dir pre suf len p, path_of dir pre suf len (FChain 1) = OK p /\ path_of dir pre suf len (FSigma 1) = OK p /\
  forall A (row : crow A) (sig : list (num A)), disk dir pre suf len p [(1%nat, EvSigma 1 sig); (1%nat, EvRow 1 row)] = [EvSigma 1 sig; EvRow 1 row].
Proof.
  exists (lit "results"), (lit "gaussian_prop.chain"), [], 100, (lit "results/gaussian_prop.chain1"). split; [reflexivity|]. split; [reflexivity|].
  intros. reflexivity.
Qed.
Print Assumptions C49_clash_refuted.

(** ** C50: matrices *)

(** [alloc_2d w n1 n2]: the matrix of n1 rows of n2 elements of w bytes; [at_2d w a i j]: the byte offset of a[i][j] in the block. *)
Theorem C50_2d : forall w n1 n2, 0 < w -> 1 <= n1 < 2 ^ 31 -> 1 <= n2 < 2 ^ 31 -> w * n1 * n2 < 2 ^ 64 ->
  exists a, alloc_2d w n1 n2 = OK a /\ fst a = w * n1 * n2 /\
    (forall i j, 0 <= i < n1 -> 0 <= j < n2 -> exists o, at_2d w a i j = OK o /\ 0 <= o /\ o + w <= fst a) /\
    (forall i j i' j' o o', 0 <= i < n1 -> 0 <= j < n2 -> 0 <= i' < n1 -> 0 <= j' < n2 ->
       at_2d w a i j = OK o -> at_2d w a i' j' = OK o' -> (i, j) <> (i', j') -> o + w <= o' \/ o' + w <= o) /\
    (forall i j o, 0 <= i < n1 -> 0 <= j < n2 -> at_2d w a i 0 = OK o -> at_2d w a i j = OK (o + w * j)) /\
    (forall i o, 0 <= i < n1 -> 0 <= i + 1 < n1 -> at_2d w a i 0 = OK o -> at_2d w a (i + 1) 0 = OK (o + w * n2)).
Proof.
  intros w n1 n2 Hw H1 H2 Hb. destruct (alloc_2d_ok w n1 n2 Hw ltac:(unfold INT_MAX; lia) ltac:(unfold INT_MAX; lia) Hb) as [a [E [S At]]].
  exists a. split; [exact E|]. split; [exact S|]. rewrite S.
  assert (In1 : forall i j, 0 <= i < n1 -> 0 <= j < n2 -> 0 <= i * n2 + j /\ i * n2 + j + 1 <= n1 * n2) by (intros; nia).
  split; [|split; [|split]].
  - intros i j Hi Hj. rewrite At by auto. eexists. split; [reflexivity|]. destruct (In1 i j Hi Hj). split; nia.
  - intros i j i' j' o o' Hi Hj Hi' Hj' E1 E2 Hne. rewrite At in E1, E2 by auto. injection E1 as <-. injection E2 as <-.
    assert (i * n2 + j <> i' * n2 + j').
    { intros K. apply Hne. assert (i = i') by nia. subst. f_equal. lia. }
    destruct (Z.lt_total (i * n2 + j) (i' * n2 + j')) as [K|[K|K]]; [left|contradiction|right]; nia.
  - intros i j o Hi Hj E0. rewrite At in * by lia. injection E0 as <-. f_equal. ring.
  - intros i o Hi Hi' E0. rewrite At in * by lia. injection E0 as <-. f_equal. ring.
Qed.
Print Assumptions C50_2d.
Theorem C50_3d : forall w n1 n2 n3, 0 < w -> 1 <= n1 -> 1 <= n2 -> n1 * n2 < 2 ^ 31 -> 1 <= n3 < 2 ^ 31 -> w * n1 * n2 * n3 < 2 ^ 64 ->
  exists a, alloc_3d w n1 n2 n3 = OK a /\ fst (fst a) = w * n1 * n2 * n3 /\
    (forall i j k, 0 <= i < n1 -> 0 <= j < n2 -> 0 <= k < n3 -> exists o, at_3d w a i j k = OK o /\ 0 <= o /\ o + w <= fst (fst a)) /\
    (forall i j k i' j' k' o o', 0 <= i < n1 -> 0 <= j < n2 -> 0 <= k < n3 -> 0 <= i' < n1 -> 0 <= j' < n2 -> 0 <= k' < n3 ->
       at_3d w a i j k = OK o -> at_3d w a i' j' k' = OK o' -> (i, j, k) <> (i', j', k') -> o + w <= o' \/ o' + w <= o) /\
    (forall i j k o, 0 <= i < n1 -> 0 <= j < n2 -> 0 <= k < n3 -> at_3d w a i 0 0 = OK o -> at_3d w a i j k = OK (o + w * (j * n3 + k))).
Proof.
  intros w n1 n2 n3 Hw H1 H2 H12 H3 Hb.
  destruct (alloc_3d_ok w n1 n2 n3 Hw H1 H2 ltac:(unfold INT_MAX; lia) ltac:(unfold INT_MAX; lia) Hb) as [a [E [S At]]].
  exists a. split; [exact E|]. split; [exact S|]. rewrite S.
  assert (In1 : forall i j, 0 <= i < n1 -> 0 <= j < n2 -> 0 <= i * n2 + j /\ i * n2 + j + 1 <= n1 * n2) by (intros; nia).
  assert (In2 : forall x k, 0 <= x -> x + 1 <= n1 * n2 -> 0 <= k < n3 -> 0 <= x * n3 + k /\ x * n3 + k + 1 <= n1 * n2 * n3) by (intros; nia).
  split; [|split].
  - intros i j k Hi Hj Hk. rewrite At by auto. eexists. split; [reflexivity|]. destruct (In1 i j Hi Hj). destruct (In2 (i * n2 + j) k); auto. split; nia.
  - intros i j k i' j' k' o o' Hi Hj Hk Hi' Hj' Hk' E1 E2 Hne. rewrite At in E1, E2 by auto. injection E1 as <-. injection E2 as <-.
    remember (i * n2 + j) as x eqn:Ex. remember (i' * n2 + j') as x' eqn:Ex'.
    assert (x * n3 + k <> x' * n3 + k').
    { intros K. apply Hne. assert (x = x') by nia. assert (k = k') by nia. assert (i = i') by nia. assert (j = j') by nia. subst i' j' k'. reflexivity. }
    destruct (Z.lt_total (x * n3 + k) (x' * n3 + k')) as [K|[K|K]]; [left|contradiction|right]; nia.
  - intros i j k o Hi Hj Hk E0. rewrite At in * by lia. injection E0 as <-. f_equal. ring.
Qed.
Print Assumptions C50_3d.
Example C50_case : exists a, alloc_2d 8 4 3 = OK a /\ at_2d 8 a 2 1 = OK 56 /\ at_2d 8 a 3 2 = OK 88 /\ at_2d 8 a 4 0 = Stop OutOfBounds.
Proof. eexists. split; [reflexivity|]. repeat split; reflexivity. Qed.
Example C50_case3 : exists a, alloc_3d 4 2 3 5 = OK a /\ at_3d 4 a 1 2 4 = OK 116 /\ at_3d 4 a 0 1 0 = OK 20.
Proof. eexists. split; [reflexivity|]. repeat split; reflexivity. Qed.
(** Not for every dimension: the size wraps around, or n1 * n2 overflows int. *)
Theorem C50_refuted : exists w n1 n2, 0 < w /\ 1 <= n1 < 2 ^ 31 /\ 1 <= n2 < 2 ^ 31 /\ alloc_2d w n1 n2 = Stop OutOfBounds.
Proof.
  exists 8, (2 ^ 31 - 1), (2 ^ 30 + 1). split; [lia|]. split; [lia|]. split; [lia|].
  apply alloc_2d_wrap; try lia; try (unfold INT_MAX; lia); vm_compute; reflexivity.
Qed.
Print Assumptions C50_refuted.
Theorem C50_3d_refuted : forall w n3, exists n1 n2, 1 <= n1 < 2 ^ 31 /\ 1 <= n2 < 2 ^ 31 /\ alloc_3d w n1 n2 n3 = Stop IntOverflow.
Proof.
  intros w n3. exists (2 ^ 16), (2 ^ 16). split; [lia|]. split; [lia|]. apply alloc_3d_overflow; vm_compute; intuition discriminate.
Qed.
Print Assumptions C50_3d_refuted.

(** ** C55: the shipped configuration files *)

(** Seven of the ten files are read completely, whatever strtod does, and satisfy the limits of the model with N_beta ranks. *)
Theorem C55_usable : forall A (scan_lf : bytes -> option (num A)) atof f n,
  In (f, n) [(ini_regression, 4%nat); (ini_curved, 4%nat); (ini_multi_gaussian, 5%nat); (ini_rastrigin_TLTB, 4%nat); (ini_rastrigin, 4%nat);
             (ini_rastrigin_noL, 4%nat); (ini_rastrigin_no, 4%nat)] ->
  exists i, read_input_ini scan_lf atof (Some f) = OK i /\ i_N_beta i = Z.of_nat n /\ ValidCfg (ini_cfg i) n /\ 1 <= i_ndim_data i /\
    i_FoutPre i <> None /\ i_FoutSuf i <> None /\ i_results_dir i <> None /\ i_Data_file i <> None.
Proof. intros. apply usable_ok. assumption. Qed.
Print Assumptions C55_usable.
(** with decimal numbers read as such, the regression file is the configuration used as example throughout *)
Theorem C55_regression : forall A, exists i, read_input_ini (A := A) dec_lf dec_atof (Some ini_regression) = OK i /\ ini_cfg i = demo_cfg A.
Proof. exact shipped_demo. Qed.
Print Assumptions C55_regression.
(** The other three are not: the value of N_begintune in models/eggbox/input.ini is no int; the files of fit_orbit and hier_R lack keys. *)
Theorem C55_eggbox_refuted : exists f, f = ini_eggbox /\ forall A (scan_lf : bytes -> option (num A)) atof, read_input_ini scan_lf atof (Some f) = Stop IntOverflow.
Proof. exists ini_eggbox. split; [reflexivity|]. exact eggbox_stop. Qed.
Print Assumptions C55_eggbox_refuted.
Theorem C55_old_files_refuted : exists f g, f = ini_fit_orbit /\ g = ini_hier_R /\
  (forall A (scan_lf : bytes -> option (num A)) atof, read_input_ini scan_lf atof (Some f) = Stop NullPtr /\ read_input_ini scan_lf atof (Some g) = Stop NullPtr) /\
  (forall u l v, is_line f u l v -> ~ mentions l (lit "Tune_Ladder")) /\ (forall u l v, is_line g u l v -> ~ mentions l (lit "Tune_Ladder")).
Proof.
  exists ini_fit_orbit, ini_hier_R. split; [reflexivity|]. split; [reflexivity|].
  split; [intros A scan_lf atof; split; [exact (fit_orbit_stop A scan_lf atof)|exact (hier_R_stop A scan_lf atof)]|].
  split; apply no_line; try discriminate; vm_compute; intuition discriminate.
Qed.
Print Assumptions C55_old_files_refuted.
