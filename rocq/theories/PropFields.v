(** Property C46, continued: every setting of the sampler comes from its own line of the configuration file. *)
From Coq Require Import ZArith Arith Ascii String List Bool Lia.
From Verif Require Import Base Arith B64 Rand Mh Mpi Prog Seq SeqTotal UserModels Demo Bytes BytesFacts Readin ReadFacts Loader BetaFacts
  Inputs Shipped.
Import ListNotations.
Open Scope list_scope.
Open Scope Z_scope.

Ltac plain := repeat split; [discriminate|vm_compute; intuition discriminate|vm_compute; intuition discriminate].

(** The integer settings, with the keys documented in input.ini.  [value_line f key v]: see C06. *)
Theorem C46_ints : forall A (scan_lf : bytes -> option (num A)) atof f i, read_input_ini scan_lf atof (Some f) = OK i ->
  forall key (x : Z), In (key, x)
    [("N_parm", N_parm (ini_cfg i)); ("N_iter", N_iter (ini_cfg i)); ("N_stoptune", N_stoptune (ini_cfg i)); ("N_begintune", N_begintune (ini_cfg i));
     ("Tune_Ladder", Tune_Ladder (ini_cfg i)); ("N_stopTuneLadder", N_stopTuneLadder (ini_cfg i)); ("N_beta", i_N_beta i);
     ("Fout_Len", i_Fout_Len i); ("ndim_data", i_ndim_data i); ("n_iter_a_stack", n_iter_a_stack (ini_cfg i));
     ("n_iter_a_batch_base", n_iter_a_batch_base (ini_cfg i)); ("n_iter_a_batch_rand", n_iter_a_batch_rand (ini_cfg i));
     ("n_iter_in_tune", n_iter_in_tune (ini_cfg i)); ("N_swap", N_swap (ini_cfg i)); ("Swapmode", Swapmode (ini_cfg i))]%string ->
  forall v, - 2 ^ 31 <= v < 2 ^ 31 -> value_line f key v -> x = v.
Proof.
  intros A scan_lf atof f i HI key x HK v Hv HV. apply read_input_ini_inv in HI. decompose [and] HI. clear HI.
  cbn [In] in HK.
  repeat (destruct HK as [HK|HK]; [injection HK as <- <-;
    match goal with E : read_d (Some f) ?k = OK ?y |- _ => lazymatch type of HV with value_line f k v =>
      rewrite (read_d_ok f k v) in E by (auto; try plain; unfold INT_MIN, INT_MAX; lia); injection E as E; symmetry; exact E end end|]).
  destruct HK.
Qed.
Print Assumptions C46_ints.

(** the two unsigned settings (C06 says what the seed is used for) *)
Theorem C46_unsigned : forall A (scan_lf : bytes -> option (num A)) atof f i, read_input_ini scan_lf atof (Some f) = OK i ->
  forall key (x : Z), In (key, x) [("i_save_begin", i_save_begin (ini_cfg i)); ("init_rand_seed", init_rand_seed (ini_cfg i))]%string ->
  forall v, 0 <= v < 2 ^ 32 -> value_line f key v -> x = v.
Proof.
  intros A scan_lf atof f i HI key x HK v Hv HV. apply read_input_ini_inv in HI. decompose [and] HI. clear HI.
  cbn [In] in HK.
  repeat (destruct HK as [HK|HK]; [injection HK as <- <-;
    match goal with E : read_u (Some f) ?k = OK ?y |- _ => lazymatch type of HV with value_line f k v =>
      rewrite (read_u_ok f k v) in E by (auto; try plain; unfold UINT_MOD; lia); injection E as E; rewrite Z.mod_small in E by (unfold UINT_MOD; lia);
      symmetry; exact E end end|]).
  destruct HK.
Qed.
Print Assumptions C46_unsigned.

(** [text_line f key t]: exactly one line of f mentions the key; it is "... key ... :t", shorter than 99 bytes, without NUL *)
Definition text_line (f : bytes) (key : string) (t : bytes) : Prop :=
  exists u k z, is_line f u (k ++ COLON :: t) z /\ mentions k (lit key) /\ ~ In COLON k /\ ~ In NUL (k ++ COLON :: t) /\
    blen (k ++ COLON :: t) < 99 /\ forall u' l' z', is_line f u' l' z' -> mentions l' (lit key) -> u' = u.

Lemma text_scan : forall f key t, plain_key key -> text_line f key t ->
  exists t', to_scan (Some f) key = OK (Some (t ++ t')) /\ (t' = [] \/ t' = [NL]).
Proof.
  intros f key t [KN [K0 K1]] [u [k [z [HL [HM [HC [HZ [HB HU]]]]]]]].
  destruct (to_scan_ok f key K0 K1 KN u k t z HL HM HC ltac:(intros K; apply HZ; apply in_or_app; left; exact K) HU HB) as [t' [E Ht']].
  exists t'. split; [|exact Ht']. rewrite E. rewrite cstr_id; auto.
  intros K. apply in_app_or in K. destruct K as [K|K]; [apply HZ; apply in_or_app; right; right; exact K|].
  destruct Ht' as [->| ->]; [destruct K|destruct K as [K|[]]; discriminate].
Qed.
Lemma text_read_f : forall A (scan_lf : bytes -> option (num A)) f key t v, plain_key key -> text_line f key t ->
  scan_lf t = Some v -> scan_lf (t ++ [NL]) = Some v -> read_f scan_lf (Some f) key = OK v.
Proof.
  intros A scan_lf f key t v HK HT E1 E2. destruct (text_scan f key t HK HT) as [t' [E Ht']].
  unfold read_f. rewrite E. cbn [rbind]. destruct Ht' as [->| ->]; [rewrite app_nil_r, E1|rewrite E2]; reflexivity.
Qed.

(** The real settings: what %lf makes of the text after the colon.  It must not look at a newline after the number. *)
Theorem C46_reals : forall A (scan_lf : bytes -> option (num A)) atof f i, read_input_ini scan_lf atof (Some f) = OK i ->
  forall key (x : num A), In (key, x)
    [("scale_tune_ladder", scale_tune_ladder (ini_cfg i)); ("zero_stretch", zero_stretch (ini_cfg i)); ("init_gp_ratio", i_init_gp_ratio i);
     ("ar_ok_lower", ar_ok_lower (ini_cfg i)); ("ar_ok_upper", ar_ok_upper (ini_cfg i)); ("ar_best", ar_best (ini_cfg i));
     ("ar_accept_diff", ar_accept_diff (ini_cfg i)); ("sigma_scale_half_ratio", sigma_scale_half_ratio (ini_cfg i));
     ("sigma_scale_min", i_sigma_scale_min i); ("sigma_scale_max", i_sigma_scale_max i); ("sigma_jumpin_ratio", sigma_jumpin_ratio (ini_cfg i))]%string ->
  forall t v, text_line f key t -> scan_lf t = Some v -> scan_lf (t ++ [NL]) = Some v -> x = v.
Proof.
  intros A scan_lf atof f i HI key x HK t v HT E1 E2. apply read_input_ini_inv in HI. decompose [and] HI. clear HI.
  cbn [In] in HK.
  repeat (destruct HK as [HK|HK]; [injection HK as <- <-;
    match goal with E : read_f scan_lf (Some f) ?k = OK ?y |- _ => lazymatch type of HT with text_line f k t =>
      rewrite (text_read_f A scan_lf f k t v ltac:(plain) HT E1 E2) in E; injection E as E; symmetry; exact E end end|]).
  destruct HK.
Qed.
Print Assumptions C46_reals.

(** [word_line f key s]: exactly one line mentions the key; it is "... key ... : s", s without blanks, perhaps followed by a blank and more *)
Definition word_line (f : bytes) (key : string) (s : bytes) : Prop :=
  exists w t, text_line f key (w ++ s ++ t) /\ spaces w /\ s <> [] /\ (forall c, In c s -> isspace c = false) /\
    (t = [] \/ exists c t', t = c :: t' /\ isspace c = true).
Lemma word_read_s : forall f key s, plain_key key -> word_line f key s -> read_s (Some f) key = OK (Some s).
Proof.
  intros f key s HK [w [t [[u [k [z [HL [HM [HC [HZ [HB HU]]]]]]]] [Hw [Hs [Hc Ht]]]]]].
  eapply (read_s_ok f key u k w s t z); eauto.
  - intros K. apply HZ. apply in_or_app. left; auto.
  - intros c K. split; [auto|]. intros ->. apply HZ. apply in_or_app. right. right. apply in_or_app. right. apply in_or_app. left; auto.
  - destruct Ht as [->|[c [t' [-> E]]]]; auto.
Qed.
(** The names: the word after the colon. *)
Theorem C46_words : forall A (scan_lf : bytes -> option (num A)) atof f i, read_input_ini scan_lf atof (Some f) = OK i ->
  forall key x, In (key, x) [("FoutPre", i_FoutPre i); ("FoutSuf", i_FoutSuf i); ("results_dir", i_results_dir i); ("Data_file", i_Data_file i)]%string ->
  forall s, word_line f key s -> x = Some s.
Proof.
  intros A scan_lf atof f i HI key x HK s HW. apply read_input_ini_inv in HI. decompose [and] HI. clear HI.
  cbn [In] in HK.
  repeat (destruct HK as [HK|HK]; [injection HK as <- <-;
    match goal with E : read_s (Some f) ?k = OK ?y |- _ => lazymatch type of HW with word_line f k s =>
      rewrite (word_read_s f k s ltac:(plain) HW) in E; injection E as E; symmetry; exact E end end|]).
  destruct HK.
Qed.
Print Assumptions C46_words.

(** The delimiter of the data file: a blank for the word "blank", otherwise the characters of the word. *)
Lemma prefix_eq : forall (p l : bytes), prefix p l = true -> List.length p = List.length l -> p = l.
Proof.
  induction p as [|a p IH]; intros [|b l] H E; cbn in E; try discriminate; auto.
  cbn [prefix] in H. apply andb_prop in H as [H1 H2]. apply Ascii.eqb_eq in H1. subst. f_equal. apply IH; auto.
Qed.
Theorem C46_delimiter : forall A (scan_lf : bytes -> option (num A)) atof f i, read_input_ini scan_lf atof (Some f) = OK i ->
  forall s, word_line f "Delimiter" s -> (s = lit "blank" -> i_Delimiter i = [" "%char]) /\ (s <> lit "blank" -> i_Delimiter i = s).
Proof.
  intros A scan_lf atof f i HI s HW. apply read_input_ini_inv in HI.
  assert (E : read_delim (Some f) = OK (i_Delimiter i)) by (decompose [and] HI; assumption).
  unfold read_delim in E. rewrite (word_read_s f "Delimiter" s ltac:(plain) HW) in E. cbn [rbind] in E. assert (E' := f_equal (fun r => match r with OK x => x | Stop _ => [] end) E). cbv beta iota in E'. clear E. rename E' into E.
  split; intros Hs.
  - subst s. rewrite <- E. reflexivity.
  - rewrite <- E. destruct (prefix s (lit "blank")) eqn:P; cbn [andb]; [|reflexivity].
    destruct (Nat.eqb_spec (List.length s) 5) as [El|_]; [|reflexivity]. exfalso. apply Hs. apply prefix_eq; [exact P|exact El].
Qed.
Print Assumptions C46_delimiter.

(** The inverse temperatures (C48 says what happens when their number is wrong). *)
Theorem C46_betas : forall A (scan_lf : bytes -> option (num A)) atof f i, read_input_ini scan_lf atof (Some f) = OK i ->
  forall es, es <> [] -> (forall e, In e es -> e <> [] /\ ~ In ","%char e) -> (forall t, In t es -> atof (t ++ [NL]) = atof t) ->
  beta_line f (join es) -> i_N_beta i = Z.of_nat (List.length es) -> Beta_Values (ini_cfg i) = map atof es.
Proof.
  intros A scan_lf atof f i HI es Hne He Hat HB Hn. apply read_input_ini_inv in HI.
  assert (E : read_beta_values atof (Some f) (i_N_beta i) = OK (i_Beta_Values i)) by (decompose [and] HI; assumption).
  rewrite (beta_values atof f es) in E; auto; [|apply Forall_forall; exact He]. rewrite Hn, Z.eqb_refl in E. injection E as E.
  change (Beta_Values (ini_cfg i)) with (match i_Beta_Values i with None => [] | Some l => l end). rewrite <- E. reflexivity.
Qed.
Print Assumptions C46_betas.

(** The ranges of the parameters: each end from its own line. *)
Theorem C46_ranges : forall A (scan_lf : bytes -> option (num A)) f (ks : list (string * string)) box,
  Forall2 (fun k p => (plain_key (fst k) /\ exists t, text_line f (fst k) t /\ scan_lf t = Some (fst p) /\ scan_lf (t ++ [NL]) = Some (fst p)) /\
                      (plain_key (snd k) /\ exists t, text_line f (snd k) t /\ scan_lf t = Some (snd p) /\ scan_lf (t ++ [NL]) = Some (snd p))) ks box ->
  read_parm_range scan_lf (Some f) ks = OK box.
Proof.
  intros A scan_lf f ks box H. induction H as [|[k1 k2] [lo hi] ks box [[P1 [t1 [T1 [A1 B1]]]] [P2 [t2 [T2 [A2 B2]]]]] _ IH]; [reflexivity|].
  cbn [fst snd] in *. cbn [read_parm_range]. rewrite (text_read_f A scan_lf f k1 t1 lo); auto. cbn [rbind].
  rewrite (text_read_f A scan_lf f k2 t2 hi); auto. cbn [rbind]. rewrite IH. reflexivity.
Qed.
Print Assumptions C46_ranges.

(** A parameter called e cannot be given a range: its key e_min is also part of sigma_scale_min, which every file has. *)
Theorem C46_parameter_e_refuted : exists key, key = "e_min"%string /\
  forall f u1 l1 v1 u2 l2 v2, is_line f u1 l1 v1 -> mentions l1 (lit "sigma_scale_min") -> is_line f u2 l2 v2 -> mentions l2 (lit key) -> u1 <> u2 ->
  (forall u l v, is_line f u l v -> mentions l (lit key) -> blen l < 99) ->
  read_onepara (Some f) (lit key) = OK (inl (Duplicate (lit key))) /\ forall A (scan_lf : bytes -> option (num A)), read_f scan_lf (Some f) key = Stop NullPtr.
Proof.
  exists "e_min"%string. split; [reflexivity|]. intros f u1 l1 v1 u2 l2 v2 HL1 HM1 HL2 HM2 Hne HB.
  assert (M : mentions l1 (lit "e_min")).
  { destruct HM1 as [a [b [-> Hn]]]. exists (a ++ lit "sigma_scal"), b. split; [rewrite <- app_assoc; reflexivity|].
    intros K. apply in_app_or in K. destruct K as [K|K]; [apply Hn; auto|]. vm_compute in K. intuition discriminate. }
  assert (E : read_onepara (Some f) (lit "e_min") = OK (inl (Duplicate (lit "e_min")))).
  { refine (onepara_twice _ _ _ _ _ u1 l1 v1 u2 l2 v2 HL1 M HL2 HM2 Hne _); try (vm_compute; intuition discriminate).
    intros u l v HL HM. specialize (HB u l v HL HM).
    pose proof (cstr_len (entry l v)) as K. unfold blen in *. unfold entry in *. destruct v; [lia|]. rewrite app_length in K. cbn [List.length] in K. lia. }
  split; [exact E|]. intros A scan_lf. unfold read_f, to_scan. rewrite E. reflexivity.
Qed.
Print Assumptions C46_parameter_e_refuted.

(** ** the hypotheses are met by models/regression/input.ini *)
Definition TAB : ascii := "009"%char.
Definition cut (key : string) : bytes * bytes * bytes :=      (* the bytes before, in and after the line of the key *)
  (fix go (ls : list bytes) (acc : bytes) := match ls with [] => (acc, [], []) | l :: t => if strstr l (lit key) then (acc, l, concat t) else go t (acc ++ l) end)
    (lines ini_regression) [].
Definition before_ (key : string) : bytes := fst (fst (cut key)).
Definition after_ (key : string) : bytes := NL :: snd (cut key).
Lemma reg_text : forall key k t, plain_key key ->
  ini_regression = before_ key ++ (k ++ COLON :: t) ++ after_ key -> (exists x, before_ key = x ++ [NL]) ->
  ~ In NL (k ++ COLON :: t) -> mentions k (lit key) -> ~ In COLON k -> ~ In NUL (k ++ COLON :: t) -> blen (k ++ COLON :: t) < 99 ->
  existsb (hit (lit key)) (lines (before_ key)) = false -> existsb (hit (lit key)) (lines (snd (cut key))) = false ->
  text_line ini_regression key t.
Proof.
  intros key k t [KN [K0 K1]] E [x Ex] Hn HM HC HZ HB H1 H2. exists (before_ key), k, (after_ key).
  assert (HL : is_line ini_regression (before_ key) (k ++ COLON :: t) (after_ key)).
  { split; [exact E|]. split; [exact Hn|]. split; [right; exists x; exact Ex|right; eexists; reflexivity]. }
  split; [exact HL|]. split; [exact HM|]. split; [exact HC|]. split; [exact HZ|]. split; [exact HB|].
  apply (only_line _ (lit key) _ _ _ K0 K1 KN HL); auto.
Qed.
Ltac reg key := apply (reg_text key (lit key));
  [plain|vm_compute; reflexivity|exists (removelast (before_ key)); vm_compute; reflexivity|vm_compute; intuition discriminate|
   exists [], []; split; [reflexivity|intros []]|vm_compute; intuition discriminate|vm_compute; intuition discriminate|vm_compute; reflexivity|vm_compute; reflexivity|vm_compute; reflexivity].
Example C46_case_real : text_line ini_regression "zero_stretch" (lit "           0.1").
Proof. reg "zero_stretch"%string. Qed.
Example C46_case_end : text_line ini_regression "b_max" (lit "              50").
Proof. reg "b_max"%string. Qed.
Example C46_case_delim : word_line ini_regression "Delimiter" (lit "blank").
Proof. exists (lit "           "), (lit "           "). split; [reg "Delimiter"%string|]. split; [repeat constructor|]. split; [discriminate|]. split; [intros c K; vm_compute in K; intuition; subst; reflexivity|right; eexists; eexists; split; reflexivity]. Qed.
Example C46_case_name : word_line ini_regression "FoutPre" (lit "chain").
Proof. exists (lit " " ++ TAB :: lit "    "), []. split; [reg "FoutPre"%string|]. split; [repeat constructor|]. split; [discriminate|]. split; [intros c K; vm_compute in K; intuition; subst; reflexivity|left; reflexivity]. Qed.
Example C46_case_betas : beta_line ini_regression (join [lit "            0.001"; lit " 0.01"; lit " 0.1"; lit " 1"]).
Proof.
  assert (T : text_line ini_regression "Beta_Values" (join [lit "            0.001"; lit " 0.01"; lit " 0.1"; lit " 1"])) by (reg "Beta_Values"%string). exact T.
Qed.
Example C46_case_ranges : forall A, read_parm_range (A := A) dec_lf (Some ini_regression) [("a_min", "a_max"); ("b_min", "b_max"); ("d_min", "d_max")]%string =
  OK [demo_ra A; demo_rb A; demo_rd A].
Proof. intros A. vm_compute. reflexivity. Qed.
