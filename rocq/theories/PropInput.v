(** Properties C06, C44 - C50 and C55: configuration file, data file, file names and matrices. *)
From Coq Require Import ZArith Arith Ascii String List Bool Lia Permutation.
From Verif Require Import Base Arith B64 Rand Mh Mpi MpiMeta Spmd Prog Seq SeqWf Refine SeqTotal System RandRange UserModels Demo Runs
  History RunHist Failing FailRuns Bytes BytesFacts Readin ReadFacts Loader LoadFacts BetaFacts InputRuns Names Alloc Inputs Shipped.
Import ListNotations.
Open Scope list_scope.
Open Scope Z_scope.

(** ** C06: the seed *)

(** [value_line f key v]: exactly one line of f mentions the key; it reads "... key ... : v ..." with v in decimal and has less
    than 99 bytes.  A positive v is the seed of the run, whatever the clock says. *)
Theorem C06_positive : forall A (scan_lf : bytes -> option (num A)) atof f i, read_input_ini scan_lf atof (Some f) = OK i ->
  forall v, value_line f "init_rand_seed" v -> 0 < v < 2 ^ 32 -> forall E, first_seed (ini_cfg i) E = v.
Proof.
  intros A scan_lf atof f i HI v HV Hv E. apply read_input_ini_inv in HI.
  assert (E1 : read_u (Some f) "init_rand_seed" = OK (i_init_rand_seed i)) by (decompose [and] HI; assumption).
  rewrite (read_u_ok f _ v) in E1; auto; [|repeat split; [discriminate|vm_compute; intuition discriminate|vm_compute; intuition discriminate]|unfold UINT_MOD; lia].
  injection E1 as E1. unfold first_seed. change (init_rand_seed (ini_cfg i)) with (i_init_rand_seed i). rewrite <- E1.
  rewrite Z.mod_small by (unfold UINT_MOD; lia). destruct (Z.leb_spec v 0); [lia|auto].
Qed.
Print Assumptions C06_positive.

(** 0 selects the clock. *)
Theorem C06_zero : forall A (scan_lf : bytes -> option (num A)) atof f i, read_input_ini scan_lf atof (Some f) = OK i ->
  value_line f "init_rand_seed" 0 -> forall E, first_seed (ini_cfg i) E = e_time E mod 2 ^ 32.
Proof.
  intros A scan_lf atof f i HI HV E. apply read_input_ini_inv in HI.
  assert (E1 : read_u (Some f) "init_rand_seed" = OK (i_init_rand_seed i)) by (decompose [and] HI; assumption).
  rewrite (read_u_ok f _ 0) in E1; auto; [|repeat split; [discriminate|vm_compute; intuition discriminate|vm_compute; intuition discriminate]|unfold UINT_MOD; lia].
  injection E1 as E1. unfold first_seed. change (init_rand_seed (ini_cfg i)) with (i_init_rand_seed i). rewrite <- E1. reflexivity.
Qed.
Print Assumptions C06_zero.

(** A negative v does not: it is the seed v + 2^32, whatever the clock says. *)
Theorem C06_negative : forall A (scan_lf : bytes -> option (num A)) atof f i, read_input_ini scan_lf atof (Some f) = OK i ->
  forall v, value_line f "init_rand_seed" v -> - 2 ^ 32 < v < 0 -> forall E, first_seed (ini_cfg i) E = v + 2 ^ 32.
Proof.
  intros A scan_lf atof f i HI v HV Hv E. apply read_input_ini_inv in HI.
  assert (E1 : read_u (Some f) "init_rand_seed" = OK (i_init_rand_seed i)) by (decompose [and] HI; assumption).
  rewrite (read_u_ok f _ v) in E1; auto; [|repeat split; [discriminate|vm_compute; intuition discriminate|vm_compute; intuition discriminate]|unfold UINT_MOD; lia].
  injection E1 as E1. unfold first_seed. change (init_rand_seed (ini_cfg i)) with (i_init_rand_seed i). rewrite <- E1.
  rewrite <- (Z.mod_unique v UINT_MOD (-1) (v + 2 ^ 32)) by (unfold UINT_MOD; lia).
  destruct (Z.leb_spec (v + 2 ^ 32) 0); [lia|auto].
Qed.
Print Assumptions C06_negative.

(** the shipped regression input with another seed *)
Definition with_seed (s : string) : bytes :=
  concat (map (fun l => if strstr l (lit "init_rand_seed") then lit "init_rand_seed: " ++ lit s ++ [NL] else l) (lines ini_regression)).
Definition before_seed : bytes :=
  concat ((fix go ls := match ls with [] => [] | l :: t => if strstr l (lit "init_rand_seed") then [] else l :: go t end) (lines ini_regression)).
Definition after_seed : bytes :=
  concat ((fix go ls := match ls with [] => [] | l :: t => if strstr l (lit "init_rand_seed") then t else go t end) (lines ini_regression)).
Lemma with_seed_line : forall s v, (written (lit s) v) -> (blen (lit s) < 50) -> with_seed s = before_seed ++ lit "init_rand_seed: " ++ lit s ++ NL :: after_seed ->
  ~ In NL (lit s) -> value_line (with_seed s) "init_rand_seed" v.
Proof.
  intros s v Hw Hb E Hn. exists before_seed, (lit "init_rand_seed"), [" "%char], (lit s), [], (NL :: after_seed). rewrite app_nil_r.
  assert (HL : is_line (with_seed s) before_seed (lit "init_rand_seed" ++ COLON :: [" "%char] ++ lit s) (NL :: after_seed)).
  { repeat split.
    - rewrite E. rewrite <- !app_assoc. reflexivity.
    - intros K. apply in_app_or in K. destruct K as [K|K]; [vm_compute in K; intuition discriminate|].
      destruct K as [K|[K|K]]; [discriminate|discriminate|auto].
    - right. exists (removelast before_seed). vm_compute. reflexivity.
    - right. eexists. reflexivity. }
  assert (Mk : forall t, mentions (lit "init_rand_seed" ++ t) (lit "init_rand_seed")) by (intros t; exists [], t; split; [reflexivity|intros []]).
  split; [exact HL|]. split; [rewrite <- (app_nil_r (lit "init_rand_seed")) at 1; apply Mk|].
  split; [vm_compute; intuition discriminate|]. split; [vm_compute; intuition discriminate|]. split; [repeat constructor|]. split; [exact Hw|]. split; [exact I|].
  split.
  - unfold blen in *. rewrite app_length. cbn [List.length app]. change (List.length (lit "init_rand_seed")) with 14%nat. lia.
  - apply (only_line _ (lit "init_rand_seed") _ _ _ ltac:(vm_compute; intuition discriminate) ltac:(vm_compute; intuition discriminate) ltac:(discriminate) HL);
      vm_compute; reflexivity.
Qed.
Lemma written_dec : forall z, written (dec z) z.
Proof. apply dec_written. Qed.

Example C06_case20 : value_line ini_regression "init_rand_seed" 20.
Proof.
  exists before_seed, (lit "init_rand_seed"), (lit "         "), (lit "20"), (lit " "), (NL :: after_seed).
  assert (HL : is_line ini_regression before_seed (lit "init_rand_seed" ++ COLON :: lit "         " ++ lit "20" ++ lit " ") (NL :: after_seed)).
  { split; [vm_compute; reflexivity|]. split; [vm_compute; intuition discriminate|]. split; [right; exists (removelast before_seed); vm_compute; reflexivity|right; eexists; reflexivity]. }
  split; [exact HL|]. split; [exists [], []; split; [reflexivity|intros []]|].
  split; [vm_compute; intuition discriminate|]. split; [vm_compute; intuition discriminate|]. split; [repeat constructor|]. split; [apply (written_dec 20)|]. split; [reflexivity|].
  split; [vm_compute; reflexivity|].
  apply (only_line _ (lit "init_rand_seed") _ _ _ ltac:(vm_compute; intuition discriminate) ltac:(vm_compute; intuition discriminate) ltac:(discriminate) HL);
    vm_compute; reflexivity.
Qed.
Example C06_case0 : value_line (with_seed "0") "init_rand_seed" 0.
Proof. apply with_seed_line; [apply (written_dec 0)|vm_compute; reflexivity|vm_compute; reflexivity|vm_compute; intuition discriminate]. Qed.

(** init_rand_seed: -1 is a fixed seed, although input.ini documents "<= 0" as the clock. *)
Theorem C06_negative_refuted : forall A, exists f v (i : ini (A := A)), v <= 0 /\ value_line f "init_rand_seed" v /\
  read_input_ini dec_lf dec_atof (Some f) = OK i /\
  forall E E' : Env (A := A), e_time E <> e_time E' -> first_seed (ini_cfg i) E = 4294967295 /\ first_seed (ini_cfg i) E' = 4294967295.
Proof.
  intros A. exists (with_seed "-1"), (-1). eexists. split; [lia|]. split; [|split; [vm_compute; reflexivity|]].
  - apply with_seed_line; [apply (written_dec (-1))|vm_compute; reflexivity|vm_compute; reflexivity|vm_compute; intuition discriminate].
  - intros E E' _. split; reflexivity.
Qed.
Print Assumptions C06_negative_refuted.

(** ** C46: values are read as written *)
Theorem C46_int : forall f key v, lit key <> [] -> ~ In NUL (lit key) -> ~ In NL (lit key) -> value_line f key v ->
  - 2 ^ 31 <= v < 2 ^ 31 -> read_d (Some f) key = OK v.
Proof. intros f key v H1 H2 H3 HV Hv. apply read_d_ok; auto; [repeat split; auto|unfold INT_MIN, INT_MAX; lia]. Qed.
Print Assumptions C46_int.
(** so two files with the same line give the same number, whatever else they contain *)
Theorem C46_other_lines : forall f g key v w, lit key <> [] -> ~ In NUL (lit key) -> ~ In NL (lit key) -> value_line f key v -> value_line g key w ->
  - 2 ^ 31 <= v < 2 ^ 31 -> - 2 ^ 31 <= w < 2 ^ 31 -> read_d (Some f) key = read_d (Some g) key <-> v = w.
Proof.
  intros f g key v w H1 H2 H3 HV HW Hv Hw. rewrite (C46_int f key v), (C46_int g key w) by auto. split; [intros E; injection E; auto|intros ->; auto].
Qed.
Print Assumptions C46_other_lines.
(** a word (file names, directories): the characters up to the first blank *)
Theorem C46_word : forall f key u k w s t z, lit key <> [] -> ~ In NUL (lit key) -> ~ In NL (lit key) ->
  is_line f u (k ++ COLON :: w ++ s ++ t) z -> mentions k (lit key) -> ~ In COLON k -> ~ In NUL k -> spaces w ->
  s <> [] -> (forall c, In c s -> isspace c = false /\ c <> NUL) -> (t = [] \/ exists c t', t = c :: t' /\ isspace c = true) ->
  blen (k ++ COLON :: w ++ s ++ t) < 99 ->
  (forall u' l' z', is_line f u' l' z' -> mentions l' (lit key) -> u' = u) -> read_s (Some f) key = OK (Some s).
Proof.
  intros f key u k w s t z H1 H2 H3 HL HM HC HZ Hw Hs Hc Ht HB HU. eapply (read_s_ok f key u k w s t z); eauto; [repeat split; auto|].
  destruct Ht as [->|[c [t' [-> E]]]]; auto.
Qed.
Print Assumptions C46_word.

(** every line of the file is free of the key except line 2, which reads "N_iter of the run: -37 # steps" *)
Definition sample : bytes := lit "# a comment" ++ [NL] ++ lit "N_iter of the run: -37 # steps" ++ [NL] ++ lit "N_beta: 4".
Example C46_case : value_line sample "N_iter" (-37).
Proof.
  exists (lit "# a comment" ++ [NL]), (lit "N_iter of the run"), (lit " "), (lit "-37"), (lit " # steps"), (NL :: lit "N_beta: 4").
  assert (HL : is_line sample (lit "# a comment" ++ [NL]) (lit "N_iter of the run" ++ COLON :: lit " " ++ lit "-37" ++ lit " # steps") (NL :: lit "N_beta: 4")).
  { split; [vm_compute; reflexivity|]. split; [vm_compute; intuition discriminate|]. split; [right; eexists; reflexivity|right; eexists; reflexivity]. }
  split; [exact HL|]. split; [exists [], (lit " of the run"); split; [reflexivity|intros []]|].
  split; [vm_compute; intuition discriminate|]. split; [vm_compute; intuition discriminate|]. split; [repeat constructor|]. split; [apply (written_dec (-37))|]. split; [reflexivity|].
  split; [vm_compute; reflexivity|].
  apply (only_line _ (lit "N_iter") _ _ _ ltac:(vm_compute; intuition discriminate) ltac:(vm_compute; intuition discriminate) ltac:(discriminate) HL);
    vm_compute; reflexivity.
Qed.
Example C46_case_read : read_d (Some sample) "N_iter" = OK (-37).
Proof. apply C46_int; [discriminate|vm_compute; intuition discriminate|vm_compute; intuition discriminate|apply C46_case|lia]. Qed.
(** an integer outside the range of int is undefined behaviour in sscanf *)
Theorem C46_range : forall f key v, lit key <> [] -> ~ In NUL (lit key) -> ~ In NL (lit key) -> value_line f key v ->
  ~ (- 2 ^ 31 <= v < 2 ^ 31) -> read_d (Some f) key = Stop IntOverflow.
Proof.
  intros f key v H1 H2 H3 HV Hv. destruct (value_scan f key v ltac:(repeat split; auto) HV) as [x [E1 E2]].
  unfold read_d. rewrite E1. cbn [rbind]. rewrite E2. unfold i32.
  destruct (Z.leb_spec INT_MIN v), (Z.leb_spec v INT_MAX); cbn [andb]; auto. unfold INT_MIN, INT_MAX in *. lia.
Qed.
Print Assumptions C46_range.

(** ** C47: what happens to a malformed file *)

(** A key that no line mentions: the message "not found", then the NULL line is used and the program stops. *)
Theorem C47_missing : forall f key, lit key <> [] -> ~ In NUL (lit key) -> ~ In NL (lit key) ->
  (forall u l v, is_line f u l v -> ~ mentions l (lit key)) ->
  read_onepara (Some f) (lit key) = OK (inl (NotFound (lit key))) /\
  (In key keys -> forall A (scan_lf : bytes -> option (num A)) atof, exists e, read_input_ini scan_lf atof (Some f) = Stop e).
Proof.
  intros f key H1 H2 H3 HN. assert (E : read_onepara (Some f) (lit key) = OK (inl (NotFound (lit key)))) by (apply onepara_missing; auto).
  split; [exact E|]. intros HK A scan_lf atof. apply (read_input_ini_stops scan_lf atof (Some f) key HK). intros l. rewrite E. discriminate.
Qed.
Print Assumptions C47_missing.
(** A key mentioned on two lines (a comment counts): the message "duplicate", then the same. *)
Theorem C47_twice : forall f key, lit key <> [] -> ~ In NUL (lit key) -> ~ In NL (lit key) ->
  forall u1 l1 v1 u2 l2 v2, is_line f u1 l1 v1 -> mentions l1 (lit key) -> is_line f u2 l2 v2 -> mentions l2 (lit key) -> u1 <> u2 ->
  (forall u l v, is_line f u l v -> mentions l (lit key) -> blen l < 99) ->
  read_onepara (Some f) (lit key) = OK (inl (Duplicate (lit key))) /\
  (In key keys -> forall A (scan_lf : bytes -> option (num A)) atof, exists e, read_input_ini scan_lf atof (Some f) = Stop e).
Proof.
  intros f key H1 H2 H3 u1 l1 v1 u2 l2 v2 HL1 HM1 HL2 HM2 Hne HB.
  assert (E : read_onepara (Some f) (lit key) = OK (inl (Duplicate (lit key)))).
  { refine (onepara_twice _ _ _ _ _ u1 l1 v1 u2 l2 v2 HL1 HM1 HL2 HM2 Hne _); auto. intros u l v HL HM. specialize (HB u l v HL HM).
    assert (K : forall x, blen (cstr x) <= blen x).
    { intros x. destruct (cstr_prefix x) as [t [Ex _]]. rewrite Ex at 2. unfold blen. rewrite app_length. lia. }
    specialize (K (entry l v)). unfold entry in *. destruct v; [lia|]. assert (blen (l ++ [NL]) = blen l + 1) by (unfold blen; rewrite app_length; cbn [List.length]; lia). lia. }
  split; [exact E|]. intros HK A scan_lf atof. apply (read_input_ini_stops scan_lf atof (Some f) key HK). intros l. rewrite E. discriminate.
Qed.
Print Assumptions C47_twice.
(** A line of 100 bytes or more that mentions the key: written past the end of the buffer, without a message. *)
Theorem C47_overlong : forall f key, lit key <> [] -> ~ In NUL (lit key) -> ~ In NL (lit key) ->
  forall u l v, is_line f u l v -> ~ In NUL l -> mentions l (lit key) -> 100 <= blen l ->
  read_onepara (Some f) (lit key) = Stop OutOfBounds /\
  (In key keys -> forall A (scan_lf : bytes -> option (num A)) atof, exists e, read_input_ini scan_lf atof (Some f) = Stop e).
Proof.
  intros f key H1 H2 H3 u l v HL HZ HM HB. assert (E : read_onepara (Some f) (lit key) = Stop OutOfBounds).
  { eapply onepara_long; eauto. unfold entry. destruct v; [rewrite cstr_id by auto; auto|].
    rewrite cstr_id; [unfold blen in *; rewrite app_length; lia|]. intros K. apply in_app_or in K. destruct K as [K|[K|[]]]; [auto|discriminate]. }
  split; [exact E|]. intros HK A scan_lf atof. apply (read_input_ini_stops scan_lf atof (Some f) key HK). intros x. rewrite E. discriminate.
Qed.
Print Assumptions C47_overlong.
(** no file *)
Theorem C47_no_file : forall A (scan_lf : bytes -> option (num A)) atof, exists e, read_input_ini scan_lf atof None = Stop e.
Proof. intros. eexists. reflexivity. Qed.
Print Assumptions C47_no_file.

(** But not everything is noticed.  No line starts with the key N_iter, yet a value is read, from max_N_iter. *)
Theorem C47_other_key_refuted : exists f, (forall u l v, is_line f u l v -> prefix (lit "N_iter") l = false) /\ read_d (Some f) "N_iter" = OK 7.
Proof.
  exists (lit "max_N_iter: 7"). split; [|vm_compute; reflexivity].
  intros u l v [E [Hl [Hu Hv]]].
  assert (K : ~ In NL (lit "max_N_iter: 7")) by (vm_compute; intuition discriminate).
  destruct Hu as [->|[u' ->]]; [|exfalso; apply K; rewrite E; apply in_or_app; left; apply in_or_app; right; left; auto].
  cbn [app] in E. destruct l as [|c l]; [reflexivity|]. cbn in E. injection E as <- _. reflexivity.
Qed.
Print Assumptions C47_other_key_refuted.
(** The line of N_iter holds no number: the variable keeps the initial value 0 and the run goes on with it. *)
Theorem C47_no_number_refuted : forall A, exists rest (i : ini (A := A)), 
  read_input_ini dec_lf dec_atof (Some (lit "N_iter: many" ++ NL :: rest)) = OK i /\ i_N_iter i = 0 /\ ValidCfg (ini_cfg i) 4.
Proof.
  intros A. exists (concat (filter (fun l => negb (prefix (lit "N_iter") l)) (lines ini_regression))).
  eexists. split; [vm_compute; reflexivity|]. split; [reflexivity|].
  constructor; cbn; try (vm_compute; intuition discriminate); try lia.
Qed.
Print Assumptions C47_no_number_refuted.
Example C47_cases :
  read_onepara (Some sample) (lit "N_swap") = OK (inl (NotFound (lit "N_swap"))) /\
  read_onepara (Some (sample ++ NL :: lit "# N_beta is 4 here")) (lit "N_beta") = OK (inl (Duplicate (lit "N_beta"))) /\
  read_onepara (Some (lit "FoutPre: 0123456789012345678901234567890123456789012345678901234567890123456789012345678901234567890123456789")) (lit "FoutPre") = Stop OutOfBounds.
Proof. split; [|split]; vm_compute; reflexivity. Qed.
Example C47_missing_case : forall u l v, is_line sample u l v -> ~ mentions l (lit "N_swap").
Proof. apply no_line; [vm_compute; intuition discriminate|vm_compute; intuition discriminate|discriminate|vm_compute; reflexivity]. Qed.

(** ** C48: the list of inverse temperatures *)

(** [beta_line f text]: the only line that mentions Beta_Values is "... Beta_Values ... :text", shorter than 99 bytes. *)
Theorem C48_exact : forall A (atof : bytes -> num A) f es, (forall t, In t es -> atof (t ++ [NL]) = atof t) -> es <> [] ->
  (forall e, In e es -> e <> [] /\ ~ In ","%char e) -> beta_line f (join es) ->
  read_beta_values atof (Some f) (Z.of_nat (List.length es)) = OK (Some (map atof es)).
Proof.
  intros A atof f es Hat Hne HF HB. rewrite (beta_values atof f es); auto; [|apply Forall_forall; exact HF]. rewrite Z.eqb_refl. reflexivity.
Qed.
Print Assumptions C48_exact.
(** More entries than N_beta: written past the end of the allocated list. *)
Theorem C48_more : forall A (atof : bytes -> num A) f es N, (forall t, In t es -> atof (t ++ [NL]) = atof t) -> es <> [] ->
  (forall e, In e es -> e <> [] /\ ~ In ","%char e) -> beta_line f (join es) -> N < Z.of_nat (List.length es) ->
  read_beta_values atof (Some f) N = Stop OutOfBounds.
Proof.
  intros A atof f es N Hat Hne HF HB HN. rewrite (beta_values atof f es); auto; [|apply Forall_forall; exact HF].
  destruct (Z.eqb_spec (Z.of_nat (List.length es)) N); [lia|]. destruct (Z.ltb_spec (Z.of_nat (List.length es)) N); [lia|reflexivity].
Qed.
Print Assumptions C48_more.
(** Fewer entries: the list is a null pointer; the run with that configuration stops at the first use of the list. *)
Theorem C48_fewer : forall A (atof : bytes -> num A) f es N, (forall t, In t es -> atof (t ++ [NL]) = atof t) -> es <> [] ->
  (forall e, In e es -> e <> [] /\ ~ In ","%char e) -> beta_line f (join es) -> Z.of_nat (List.length es) < N ->
  read_beta_values atof (Some f) N = OK None /\
  forall scan_lf i, read_input_ini scan_lf atof (Some f) = OK i -> i_N_beta i = N ->
  forall S : Setup A, s_cfg S = ini_cfg i -> (2 <= s_n S)%nat -> ValidUser (s_cfg S) (s_user S) -> ValidEnv (s_env S) (s_ndim S) -> fails S OutOfBounds.
Proof.
  intros A atof f es N Hat Hne HF HB HN.
  assert (E : read_beta_values atof (Some f) N = OK None).
  { rewrite (beta_values atof f es); auto; [|apply Forall_forall; exact HF].
    destruct (Z.eqb_spec (Z.of_nat (List.length es)) N); [lia|]. destruct (Z.ltb_spec (Z.of_nat (List.length es)) N); [reflexivity|lia]. }
  split; [exact E|]. intros scan_lf i HI HNb S HS Hn VU VE. apply read_input_ini_inv in HI.
  assert (E1 : read_beta_values atof (Some f) (i_N_beta i) = OK (i_Beta_Values i)) by (decompose [and] HI; assumption).
  assert (E2 : read_u (Some f) "init_rand_seed" = OK (i_init_rand_seed i)) by (decompose [and] HI; assumption).
  rewrite HNb, E in E1. injection E1 as E1.
  apply betas_fail; auto.
  - apply VU.
  - rewrite HS. change (init_rand_seed (ini_cfg i)) with (i_init_rand_seed i). eapply read_u_range; eauto.
  - rewrite HS. change (Beta_Values (ini_cfg i)) with (match i_Beta_Values i with Some l => l | None => [] end). rewrite <- E1. cbn [List.length]. lia.
Qed.
Print Assumptions C48_fewer.
(** a list of three for N_beta = 4, and one of five *)
Definition betas_text (s : string) : bytes := lit "Beta_Values:" ++ lit s ++ NL :: lit "N_beta: 4".
Lemma betas_line : forall s, ~ In NL (lit s) -> ~ In NUL (lit s) -> blen (lit s) < 80 ->
  beta_line (betas_text s) (lit s).
Proof.
  intros s H1 H2 HB. exists [], (lit "Beta_Values"), (NL :: lit "N_beta: 4").
  assert (HL : is_line (betas_text s) [] (lit "Beta_Values" ++ COLON :: lit s) (NL :: lit "N_beta: 4")).
  { split; [unfold betas_text; rewrite <- !app_assoc; reflexivity|]. split; [|split; [auto|right; eexists; reflexivity]].
    intros K. apply in_app_or in K. destruct K as [K|[K|K]]; [vm_compute in K; intuition discriminate|discriminate|auto]. }
  split; [exact HL|]. split; [exists [], []; split; [reflexivity|intros []]|].
  split; [vm_compute; intuition discriminate|]. split.
  { intros K. apply in_app_or in K. destruct K as [K|[K|K]]; [vm_compute in K; intuition discriminate|discriminate|auto]. }
  split; [unfold blen in *; rewrite app_length; cbn [List.length]; change (List.length (lit "Beta_Values")) with 11%nat; lia|].
  apply (only_line _ (lit "Beta_Values") _ _ _ ltac:(vm_compute; intuition discriminate) ltac:(vm_compute; intuition discriminate) ltac:(discriminate) HL);
    vm_compute; reflexivity.
Qed.
Example C48_case : forall A, read_beta_values (A := A) dec_atof (Some (betas_text " 0.001, 0.01, 0.1, 1.0")) 4 = OK (Some [nlit 1 3; nlit 1 2; nlit 1 1; nlit 10 1]).
Proof.
  intros A. apply (C48_exact A dec_atof (betas_text " 0.001, 0.01, 0.1, 1.0") [lit " 0.001"; lit " 0.01"; lit " 0.1"; lit " 1.0"]).
  - intros t [<-|[<-|[<-|[<-|[]]]]]; reflexivity.
  - discriminate.
  - intros e [<-|[<-|[<-|[<-|[]]]]]; (split; [discriminate|vm_compute; intuition discriminate]).
  - apply (betas_line " 0.001, 0.01, 0.1, 1.0"); vm_compute; intuition discriminate.
Qed.
(** so the number of entries matters: with 4 ranks both files are accepted by no check and are memory errors *)
Theorem C48_refuted : forall A, exists f1 f2, beta_line f1 (join [lit "0.1"; lit "0.5"; lit "1"]) /\ beta_line f2 (join [lit "0"; lit "0.1"; lit "0.2"; lit "0.5"; lit "1"]) /\
  read_beta_values (A := A) dec_atof (Some f1) 4 = OK None /\ read_beta_values (A := A) dec_atof (Some f2) 4 = Stop OutOfBounds.
Proof.
  intros A. exists (betas_text "0.1,0.5,1"), (betas_text "0,0.1,0.2,0.5,1"). split; [|split; [|split]].
  - apply (betas_line "0.1,0.5,1"); vm_compute; intuition discriminate.
  - apply (betas_line "0,0.1,0.2,0.5,1"); vm_compute; intuition discriminate.
  - vm_compute; reflexivity.
  - vm_compute; reflexivity.
Qed.
Print Assumptions C48_refuted.
(** the regression input with three values instead of four: a complete configuration whose run fails *)
Definition three_betas : bytes :=
  concat (map (fun l => if strstr l (lit "Beta_Values") then lit "Beta_Values: 0.01,0.1,1" ++ [NL] else l) (lines ini_regression)).
Lemma three_betas_read : forall A, exists i : ini (A := A), read_input_ini dec_lf dec_atof (Some three_betas) = OK i /\
  N_parm (ini_cfg i) = N_parm (demo_cfg A) /\ init_rand_seed (ini_cfg i) = 20 /\ Beta_Values (ini_cfg i) = [].
Proof. intros A. eexists. split; [vm_compute; reflexivity|]. split; [reflexivity|]. split; reflexivity. Qed.
Lemma user_ok_N_parm : forall A (C C' : Cfg A) U, N_parm C = N_parm C' -> UserOK C U -> UserOK C' U.
Proof. intros A C C' U E [H1 H2 H3]. rewrite E in *. constructor; auto. Qed.
Example C48_fewer_case : forall L, exists i, read_input_ini dec_lf dec_atof (Some three_betas) = OK i /\
  fails (mkSetup (ini_cfg i) (demo_user (B64 L)) 4 (demo_env _) 2) OutOfBounds.
Proof.
  intros L. destruct (three_betas_read (B64 L)) as [i [E1 [E2 [E3 E4]]]]. exists i. split; [exact E1|].
  apply betas_fail; cbn [s_cfg s_user s_n s_env s_ndim].
  - apply (user_ok_N_parm _ (demo_cfg _)); auto. apply (vu_ok _ _ (demo_user_valid (B64 L))).
  - lia.
  - rewrite E3. unfold UINT_MOD. lia.
  - apply demo_env_valid.
  - rewrite E4. cbn [List.length]. lia.
Qed.
