(** The bytes of the result files of a run. *)
From Coq Require Import ZArith Ascii String List Bool Reals Lia Lra.
From Flocq Require Import Core IEEE754.BinarySingleNaN.
From Verif Require Import Base Arith B64 Bytes BytesFacts ReadFacts Rand Mh Ladder Tune Mpi MpiMeta Spmd Prog Seq ListAux MhSpec SeqWf Refine
  SeqTotal System Runs SeqFiles History Views RunHist HistCount HistRows SwapLemmas ChainInv CountLemmas Loader LoadFacts Printf PrintFacts.
Import ListNotations.
Open Scope Z_scope.
Open Scope list_scope.

(** a non-empty text without white space or control bytes *)
Definition solid (c : ascii) : bool := negb (Bytes.ch c " "%char) && negb (Bytes.ch c NL) && negb (Bytes.ch c NUL) && negb (Bytes.ch c xFF).
Definition word (t : bytes) : Prop := t <> [] /\ forallb solid t = true.

Lemma solid_app : forall a b, forallb solid (a ++ b) = forallb solid a && forallb solid b.
Proof. intros. apply forallb_app. Qed.
Lemma solid_digs : forall s v, digs s v -> forallb solid s = true.
Proof.
  intros s v H. apply forallb_forall. intros c Hc. pose proof (digs_chars _ _ H) as F. rewrite Forall_forall in F. destruct (F c Hc) as [d [Hd ->]].
  destruct (BytesFacts.ten d Hd) as [->|[->|[->|[->|[->|[->|[->|[->|[->| ->]]]]]]]]]; reflexivity.
Qed.
Lemma solid_written : forall s v, written s v -> forallb solid s = true.
Proof. intros s v H. destruct H as [s v H|s v H|s v H]; cbn [forallb]; rewrite (solid_digs _ _ H); reflexivity. Qed.
Lemma word_dec : forall z, word (dec z).
Proof.
  intros z. pose proof (dec_written z) as W. split; [|apply (solid_written _ _ W)].
  destruct W as [s v H|s v H|s v H]; try discriminate. apply (digs_ne _ _ H).
Qed.
Lemma word_app : forall a b, forallb solid a = true -> word b -> word (a ++ b).
Proof. intros a b Ha [Hb1 Hb2]. split; [destruct a; [exact Hb1|discriminate]|]. rewrite solid_app, Ha, Hb2. reflexivity. Qed.
Lemma word_app_l : forall a b, word a -> forallb solid b = true -> word (a ++ b).
Proof. intros a b [Ha1 Ha2] Hb. split; [destruct a; [congruence|discriminate]|]. rewrite solid_app, Ha2, Hb. reflexivity. Qed.
Lemma solid_minus : forall s, forallb solid (minus s) = true.
Proof. intros []; reflexivity. Qed.
Lemma word_print_e : forall nan, word nan -> forall x, word (print_e nan x).
Proof.
  intros nan Hn x. destruct x as [s|s| |s m e H]; cbn [print_e]; auto; try (apply word_app; [apply solid_minus|split; [discriminate|reflexivity]]).
  pose proof (frac_R m e) as F. destruct (frac m e) as [p q]. destruct F as [Pp [Pq _]]. pose proof (sci_spec p q Pp Pq) as S. destruct (sci p q) as [d k].
  destruct S as [Hd _]. destruct (exp_written k) as [et [-> Ht]].
  assert (D1 : digs [dchar (d / 10 ^ 12)] (d / 10 ^ 12)).
  { apply digs_one'. split; [apply Z.div_pos; lia|]. apply Z.div_lt_upper_bound; lia. }
  assert (D2 : digs (padded 12 (d mod 10 ^ 12) []) (d mod 10 ^ 12)) by (apply padded_digs; apply Z.mod_pos_bound; lia).
  apply word_app; [apply solid_minus|]. apply word_app_l; [split; [discriminate|apply (solid_digs _ _ D1)]|].
  rewrite !solid_app, (solid_digs _ _ D2), (solid_written _ _ Ht). reflexivity.
Qed.
Lemma word_print_f : forall nan, word nan -> forall x, word (print_f nan x).
Proof.
  intros nan Hn x. destruct x as [s|s| |s m e H]; cbn [print_f]; auto; try (apply word_app; [apply solid_minus|split; [discriminate|reflexivity]]).
  destruct (frac m e) as [p q]. assert (D2 : forall k, digs (padded 6 (k mod 10 ^ 6) []) (k mod 10 ^ 6)) by (intros; apply padded_digs; apply Z.mod_pos_bound; lia).
  apply word_app; [apply solid_minus|]. apply word_app_l; [apply word_dec|]. rewrite solid_app, (solid_digs _ _ (D2 _)). reflexivity.
Qed.

(** ** fields and tokens *)
Definition blank_byte := is_delim (lit " ").
Lemma solid_blank : forall c, solid c = true -> blank_byte c = false.
Proof.
  intros c H. unfold solid in H. unfold blank_byte, is_delim. cbn [lit list_ascii_of_string existsb].
  destruct (Bytes.ch c " "%char); [discriminate|reflexivity].
Qed.
Lemma fields_tokens : forall gap, gap <> [] -> (forall c, In c gap -> blank_byte c = true) -> forall ts, Forall word ts ->
  tokens blank_byte (concat (map (fun t => t ++ gap) ts)) ts.
Proof.
  intros gap G0 G ts H. induction H as [|t ts Hw H IH]; [constructor; intros c []|]. destruct Hw as [Ht1 Ht2]. cbn [map concat]. rewrite <- app_assoc.
  apply (tok_one blank_byte [] t); [intros c []|exact Ht1| | |].
  - intros c Hc. apply solid_blank. rewrite forallb_forall in Ht2. auto.
  - right. destruct gap as [|c g]; [congruence|]. cbn [app]. exists c, (g ++ concat (map (fun t0 => t0 ++ c :: g) ts)). split; [reflexivity|]. apply G. left; auto.
  - clear - IH G. revert IH. generalize (concat (map (fun t => t ++ gap) ts)). intros l IH. destruct IH as [g' Hg|g' t rest ts Hg Ht Hd Hr H].
    + apply tok_none. intros c Hc. apply in_app_or in Hc. destruct Hc; auto.
    + rewrite app_assoc. apply tok_one; auto. intros c Hc. apply in_app_or in Hc. destruct Hc; auto.
Qed.

Section Lines.
Variable nan : bytes.
Hypothesis Hnan : word nan.
Context {L : Libm}.
Definition row_fields (r : crow (B64 L)) : list bytes := map (print_e nan) (r_parm r) ++ [print_f nan (r_lp r); dec (r_it r); dec (r_acc r)].
Lemma row_line_fields : forall r, row_line nan r = concat (map (fun t => t ++ lit "  ") (row_fields r)).
Proof.
  intros r. unfold row_line, row_fields. rewrite map_app, concat_app, map_map. cbn [map concat]. rewrite app_nil_r, <- !app_assoc. reflexivity.
Qed.
Lemma row_fields_words : forall r, Forall word (row_fields r).
Proof.
  intros r. unfold row_fields. apply Forall_app. split.
  - apply Forall_forall. intros t Ht. apply in_map_iff in Ht. destruct Ht as [x [<- _]]. apply word_print_e; auto.
  - repeat constructor; try apply word_print_f; try apply word_dec; auto.
Qed.
Lemma row_tokens : forall r, tokens blank_byte (row_line nan r) (row_fields r).
Proof.
  intros r. rewrite row_line_fields. apply fields_tokens; [discriminate| |apply row_fields_words]. intros c [<-|[<-|[]]]; reflexivity.
Qed.
(** no line contains a newline, NUL or 0xFF *)
Definition clean (l : bytes) : Prop := ~ In NL l /\ ~ In NUL l /\ ~ In xFF l.
Definition solid_sp (c : ascii) : bool := solid c || Bytes.ch c " "%char.
Lemma clean_sp : forall l, forallb solid_sp l = true -> clean l.
Proof.
  intros l H. rewrite forallb_forall in H. repeat split; intros K; specialize (H _ K); vm_compute in H; discriminate.
Qed.
Lemma sp_solid : forall l, forallb solid l = true -> forallb solid_sp l = true.
Proof. intros l H. rewrite forallb_forall in *. intros c Hc. unfold solid_sp. rewrite (H c Hc). reflexivity. Qed.
Lemma sp_app : forall a b, forallb solid_sp a = true -> forallb solid_sp b = true -> forallb solid_sp (a ++ b) = true.
Proof. intros a b Ha Hb. rewrite forallb_app, Ha, Hb. reflexivity. Qed.
Lemma sp_concat : forall {X} (f : X -> bytes) gap l, (forall x, word (f x)) -> forallb solid_sp gap = true ->
  forallb solid_sp (concat (map (fun x => f x ++ gap) l)) = true.
Proof.
  intros X f gap l Hf Hg. induction l as [|x l IH]; [reflexivity|]. cbn [map concat]. apply sp_app; [apply sp_app; [apply sp_solid, Hf|exact Hg]|exact IH].
Qed.
Lemma event_clean : forall (e : event (B64 L)) l, In l (event_lines nan e) -> clean l.
Proof.
  intros e l Hl. apply clean_sp. pose proof (fun x => proj2 (word_dec x)) as DS. pose proof (fun x => proj2 (word_print_f nan Hnan x)) as FS.
  assert (S := sp_solid).
  destruct e as [|r s|rows|r q|r w|b]; cbn [event_lines] in Hl.
  - destruct Hl.
  - destruct Hl as [<-|[]]. unfold seed_line. repeat apply sp_app; auto.
  - apply in_map_iff in Hl. destruct Hl as [[i row] [<- _]]. cbn [fst snd]. unfold init_line. repeat apply sp_app; auto.
    apply (sp_concat (print_f nan)); [apply word_print_f, Hnan|reflexivity].
  - destruct Hl as [<-|[]]. unfold row_line. repeat apply sp_app; auto. apply (sp_concat (print_e nan)); [apply word_print_e, Hnan|reflexivity].
  - destruct Hl as [<-|[]]. apply (sp_concat (print_e nan)); [apply word_print_e, Hnan|reflexivity].
  - destruct Hl as [<-|[]]. apply (sp_concat (print_f nan)); [apply word_print_f, Hnan|reflexivity].
Qed.
Lemma file_clean : forall f (t : list (nat * event (B64 L))) l, In l (file_lines nan f t) -> clean l.
Proof.
  intros f t l Hl. unfold file_lines in Hl. apply in_concat in Hl. destruct Hl as [ls [Hls Hl]]. apply in_map_iff in Hls. destruct Hls as [e [<- _]].
  apply (event_clean e l Hl).
Qed.
End Lines.

(** ** a file cut anywhere: whole lines, then a piece of the next one *)
Lemma cut_lines : forall ls m, Forall (fun l => ~ In NL l) ls -> exists j part, firstn m (unlines ls) = unlines (firstn j ls) ++ part /\
  ~ In NL part /\ (part = [] \/ exists l rest, nth_error ls j = Some l /\ l = part ++ rest).
Proof.
  induction ls as [|l ls IH]; intros m H.
  - exists 0%nat, []. split; [destruct m; reflexivity|]. split; [intros []|auto].
  - inversion H as [|? ? Hl H']; subst. change (unlines (l :: ls)) with ((l ++ [NL]) ++ unlines ls). rewrite firstn_app.
    destruct (Nat.le_gt_cases (List.length (l ++ [NL])) m) as [K|K].
    + rewrite firstn_all2 by lia. destruct (IH (m - List.length (l ++ [NL]))%nat H') as [j [part [E [N P]]]].
      exists (S j), part. rewrite E. split; [change (unlines (firstn (S j) (l :: ls))) with ((l ++ [NL]) ++ unlines (firstn j ls)); apply app_assoc|]. auto.
    + rewrite app_length in K. cbn [List.length] in K. rewrite app_length. cbn [List.length]. replace (m - (List.length l + 1))%nat with 0%nat by lia.
      cbn [firstn]. rewrite app_nil_r, firstn_app. replace (m - List.length l)%nat with 0%nat by lia. cbn [firstn]. rewrite app_nil_r.
      exists 0%nat, (firstn m l). split; [reflexivity|]. split; [intros I; apply Hl; rewrite <- (firstn_skipn m l); apply in_or_app; auto|].
      right. exists l, (skipn m l). split; [reflexivity|]. symmetry. apply firstn_skipn.
Qed.

(** ** the rows of a chain file have N_parm parameters *)
Section RowLen.
Context {A : Arith}.
Variable S : Setup A.
Hypothesis HL : Legal S.
Lemma len_inv : forall D, ChainInv S D (fun _ x _ _ => haslen (N_parm (s_cfg S)) x).
Proof.
  intros D. pose proof HL as [_ [VC [VU _]]]. pose proof (vu_ok _ _ VU) as UO. constructor; [constructor| |].
  - intros r sigma b s _ Hs Hx _. destruct (mhstep_cases (s_user S) D sigma b s) as [[_ ->]|[_ ->]]; cbn [ms_x]; auto.
    apply (uo_bound _ _ UO). unfold haslen in *. rewrite prop_list_length by lia. lia.
  - intros i j xi li bi xj lj bj g _ _ Hi Hj _ _. split; auto.
  - intros r Hr. apply (uo_init _ _ UO).
  - intros _ r x lp b b' _ H. exact H.
Qed.
Lemma rows_len : forall k tr X, execution S k tr X -> forall r, (r < s_n S)%nat ->
  forall q, In (EvRow r q) (file (FChain r) tr) -> haslen (N_parm (s_cfg S)) (r_parm q).
Proof.
  intros k tr X HE r Hr q Hq. destruct (history_exists S HL) as [D [G0 [h [Gf HH]]]].
  destruct (rows_hold S HL D _ (len_inv D) k tr X HE (proj1 HH) r Hr _ Hq) as [q' [b [E P]]]. congruence.
Qed.
End RowLen.
