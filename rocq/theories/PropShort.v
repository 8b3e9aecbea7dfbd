(** C81: input files that are cut short. *)
From Coq Require Import ZArith Ascii String List Bool Lia.
From Verif Require Import Base Arith Bytes BytesFacts Mh Prog Readin ReadFacts Loader LoadFacts ShortFacts Inputs.
From Verif Require Import Demo Shipped PropData.
Import ListNotations.
Open Scope Z_scope.
Open Scope list_scope.

(** getline returns -1 at the end of the file and also after a read error or when it finds no memory; readin.c:107 and
    data_loader.c:45 take all three for the end.  Every entry of the configuration is read in its own pass over the file, each of
    which can be cut after any number of lines.  A configuration that is read without an error when nothing fails is then read as
    the same configuration, or the rank stops on the NULL that read_onepara returns for a missing entry. *)
Theorem C81_lines : forall A (scan_lf : bytes -> option (num A)) atof b i, read_input_ini scan_lf atof (Some b) = OK i ->
  forall cut : string -> nat, let seen key := Some (concat (firstn (cut key) (lines b))) in
  read_input_ini_from scan_lf atof seen = OK i \/ read_input_ini_from scan_lf atof seen = Stop NullPtr.
Proof.
  intros A scan_lf atof b i H cut seen. refine (son_ini scan_lf atof (Some b) seen _ i H). intros k. exists b, (cut k). auto.
Qed.
Print Assumptions C81_lines.
Theorem C81_ranges : forall A (scan_lf : bytes -> option (num A)) b keys box, read_parm_range scan_lf (Some b) keys = OK box ->
  forall cut : string -> nat, let seen key := Some (concat (firstn (cut key) (lines b))) in
  read_parm_range_from scan_lf seen keys = OK box \/ read_parm_range_from scan_lf seen keys = Stop NullPtr.
Proof.
  intros A scan_lf b keys box H cut seen. refine (son_range scan_lf (Some b) seen keys _ box H). intros k. exists b, (cut k). auto.
Qed.
Print Assumptions C81_ranges.

(** A cut in the middle of a line, at byte j: the line found for an entry is the one of the full file, or none is found, or it is
    the beginning of that line and what was seen of the file ends with it. *)
Theorem C81_bytes : forall b name l, read_onepara (Some b) name = OK (inr l) -> forall j,
  read_onepara (Some (firstn j b)) name = OK (inr l) \/
  read_onepara (Some (firstn j b)) name = OK (inl (NotFound name)) \/
  exists l' rest u q, read_onepara (Some (firstn j b)) name = OK (inr l') /\ l = l' ++ rest /\ firstn j b = u ++ q /\ cstr q = l' /\
    exists k, u = concat (firstn k (lines b)).
Proof.
  intros b name l H j. destruct (onepara_bytes b j name l H) as [[l' [H1 [->|[[r Hr] [u [q [E1 [E2 E3]]]]]]]]|H1]; auto.
  right. right. exists l', r, (concat u), q. split; [auto|]. split; [auto|]. split; [auto|]. split; [auto|]. exists (List.length u). rewrite <- E2. auto.
Qed.
Print Assumptions C81_bytes.

(** A value can be cut then, and nothing notices: the shipped regression configuration without its last bytes is read without an
    error, with "bla" for the Delimiter; and a number loses its last digits. *)
Theorem C81_bytes_refuted : exists b, b = ini_regression /\ exists j, forall A (scan_lf : bytes -> option (num A)) atof,
  exists i i', read_input_ini scan_lf atof (Some b) = OK i /\ read_input_ini scan_lf atof (Some (firstn j b)) = OK i' /\
  i_Delimiter i = lit " " /\ i_Delimiter i' = lit "bla" /\
  exists b2 j2, read_d (Some b2) "N_iter" = OK 400000 /\ read_d (Some (firstn j2 b2)) "N_iter" = OK 40.
Proof.
  exists ini_regression. split; [reflexivity|]. exists (List.length ini_regression - 18)%nat. intros A scan_lf atof.
  eexists. eexists. split; [vm_compute; reflexivity|]. split; [vm_compute; reflexivity|]. split; [reflexivity|]. split; [reflexivity|].
  exists (lit "N_parm: 3" ++ NL :: lit "N_iter: 400000"), 20%nat. split; vm_compute; reflexivity.
Qed.
Print Assumptions C81_bytes_refuted.

(** The data file.  With a file that loads (C44) getline fails after k of the n lines: the cells of the first k lines are set, no
    other cell is, and the function returns as usual, with the status 1 (data_loader.c:63-70) that its caller does not look at
    (data_loader.c:17).  [Stop Uninit]: the broadcast that follows reads the cells nobody wrote. *)
Theorem C81_data : forall A (atof : bytes -> num A) delim ndim (ls : list bytes) tss,
  1 <= ndim -> Z.of_nat (List.length ls) * ndim < 2 ^ 31 ->
  (forall l, In l ls -> ~ In NL l /\ ~ In NUL l /\ ~ In xFF l) ->
  Forall2 (fun l ts => tokens (is_delim delim) l ts /\ ndim <= Z.of_nat (List.length ts)) ls tss ->
  forall k, (k < List.length ls)%nat ->
  let n := List.length ls in let w := Z.to_nat ndim in
  get_nlines (Some (unlines ls)) = OK (Z.of_nat n) /\
  read_data atof delim (Some (unlines (firstn k ls))) ndim (Z.of_nat n) = Stop Uninit /\
  exists full arr, read_data atof delim (Some (unlines ls)) ndim (Z.of_nat n) = OK full /\
    read_lines atof delim (fresh (Z.of_nat n * ndim)) 0 ndim (lines (unlines (firstn k ls))) = OK arr /\
    List.length arr = (n * w)%nat /\
    (forall p, (p < k * w)%nat -> exists x, nth_error arr p = Some (Some x) /\ nth_error full p = Some x) /\
    (forall p, (k * w <= p < n * w)%nat -> nth_error arr p = Some None).
Proof.
  intros A atof delim ndim ls tss Hn Hb Hls HF k Hk n w.
  assert (F1 : Forall (fun l => ~ In NL l) ls) by (apply Forall_forall; intros l Hl; apply Hls; auto).
  assert (F2 : Forall (fun l => ~ In NL l) (firstn k ls)) by (apply Forall_forall; intros l Hl; apply Hls; rewrite <- (firstn_skipn k ls); apply in_or_app; auto).
  assert (Hff : ~ In xFF (unlines ls)).
  { intros K. unfold unlines in K. apply in_concat in K. destruct K as [x [K1 K2]]. apply in_map_iff in K1. destruct K1 as [l [<- Hl]].
    apply in_app_or in K2. destruct K2 as [K2|[K2|[]]]; [apply (Hls l Hl); auto|discriminate]. }
  assert (Hc : get_nlines (Some (unlines ls)) = OK (Z.of_nat n)).
  { cbn [get_nlines]. rewrite count_nl_ok; auto; try lia; rewrite nls_unlines by auto; [reflexivity|unfold INT_MAX; nia]. }
  split; [exact Hc|].
  assert (El : lines (unlines ls) = map (fun l => l ++ [NL]) ls).
  { pose proof (lines_unlines ls [] F1 (fun x => x)) as K. rewrite app_nil_r in K. rewrite K. apply app_nil_r. }
  assert (Ek : lines (unlines (firstn k ls)) = firstn k (map (fun l => l ++ [NL]) ls)).
  { pose proof (lines_unlines (firstn k ls) [] F2 (fun x => x)) as K. rewrite app_nil_r in K. rewrite K, app_nil_r. symmetry. apply firstn_map. }
  assert (G : exists tss', Forall2 (good delim ndim) (map (fun l => l ++ [NL]) ls) tss').
  { clear - Hn HF Hls. induction HF as [|l ts ls tss [HT HL] HF IH]; [exists []; constructor|].
    destruct IH as [tss' G1]; [intros; apply Hls; right; auto|].
    destruct (tokens_nl _ _ _ HT) as [ts' [R1 [R2 _]]]. exists (ts' :: tss'). constructor; [|exact G1]. split; [|lia].
    rewrite cstr_id; [exact R1|]. intros K. apply in_app_or in K. destruct K as [K|[K|[]]]; [|discriminate]. destruct (Hls l (or_introl eq_refl)) as [_ [K2 _]]. auto. }
  destruct G as [tss' G].
  assert (Len : List.length (lines (unlines ls)) = n) by (rewrite El; apply map_length).
  pose proof (read_data_ok atof delim (unlines ls) ndim tss' Hn) as R. rewrite Len, El in R. specialize (R G ltac:(unfold INT_MAX; lia)).
  assert (Gk : Forall2 (good delim ndim) (firstn k (map (fun l => l ++ [NL]) ls)) (firstn k tss')) by (clear - G; revert k; induction G; intros [|k]; cbn [firstn]; constructor; auto).
  pose (Dk := concat (map (row_of atof ndim) (firstn k tss'))). pose (Rk := concat (map (row_of atof ndim) (skipn k tss'))).
  assert (Lk : List.length (firstn k (map (fun l : bytes => l ++ [NL]) ls)) = k) by (rewrite firstn_length, map_length; lia).
  assert (LD : List.length Dk = (k * w)%nat) by (etransitivity; [exact (rows_length atof delim ndim _ _ ltac:(lia) Gk)|]; f_equal; exact Lk).
  assert (P : read_lines atof delim (fresh (Z.of_nat n * ndim)) 0 ndim (lines (unlines (firstn k ls))) = OK (filled Dk ((n - k) * w))).
  { rewrite Ek, fresh_filled. replace (Z.to_nat (Z.of_nat n * ndim)) with (k * Z.to_nat ndim + (n - k) * w)%nat
      by (fold w; rewrite <- Nat.mul_add_distr_r, Z2Nat.inj_mul, Nat2Z.id by lia; fold w; f_equal; unfold n; lia).
    pose proof (read_lines_part atof delim ndim Hn _ _ [] 0 ((n - k) * w)%nat Gk ltac:(lia) ltac:(cbn; lia)) as P. cbn [app] in P.
    replace (k * Z.to_nat ndim)%nat with (List.length (firstn k (map (fun l : bytes => l ++ [NL]) ls)) * Z.to_nat ndim)%nat by (f_equal; exact Lk).
    apply P. apply Z.le_trans with (Z.of_nat k * ndim); [apply Z.eq_le_incl; rewrite Z.add_0_l; f_equal; f_equal; exact Lk|unfold INT_MAX; nia]. }
  assert (Ef : concat (map (row_of atof ndim) tss') = Dk ++ Rk) by (unfold Dk, Rk; rewrite <- concat_app, <- map_app, firstn_skipn; auto).
  rewrite Ef in R. clear Ef. clearbody Dk Rk.
  split.
  - unfold read_data. rewrite i32_ok by (unfold INT_MIN, INT_MAX, n; nia). cbn [rbind]. destruct (Z.ltb_spec (Z.of_nat n * ndim) 0); [nia|].
    rewrite P. cbn [rbind]. assert (Hm : exists m, ((n - k) * w)%nat = Datatypes.S m) by (destruct ((n - k) * w)%nat eqn:E; [unfold n, w in E; nia|eauto]).
    destruct Hm as [m ->]. apply all_cells_hole.
  - eexists. eexists. split; [exact R|]. split; [exact P|]. split.
    + rewrite filled_len, LD, <- Nat.mul_add_distr_r. f_equal. unfold n. lia.
    + unfold filled. split; intros p Hp.
      * destruct (nth_error Dk p) as [x|] eqn:Ex; [|apply nth_error_None in Ex; lia].
        exists x. rewrite nth_error_app1 by (rewrite map_length; lia). rewrite nth_error_map, Ex. split; [reflexivity|].
        rewrite nth_error_app1 by lia. exact Ex.
      * rewrite nth_error_app2 by (rewrite map_length; lia). rewrite map_length, LD. apply nth_error_repeat. unfold n in *. nia.
Qed.
Print Assumptions C81_data.

(** When it is the count that is cut (a read error in getc, data_loader.c:110), after any number j of bytes, the block is too small:
    reading the file writes beyond its end unless the count is right all the same. *)
Theorem C81_count : forall A (atof : bytes -> num A) delim ndim (ls : list bytes) tss,
  1 <= ndim -> Z.of_nat (List.length ls) * ndim < 2 ^ 31 ->
  (forall l, In l ls -> ~ In NL l /\ ~ In NUL l /\ ~ In xFF l) ->
  Forall2 (fun l ts => tokens (is_delim delim) l ts /\ ndim <= Z.of_nat (List.length ts)) ls tss ->
  forall j, exists m, get_nlines (Some (firstn j (unlines ls))) = OK m /\ m <= Z.of_nat (List.length ls) /\
    ((j < List.length (unlines ls))%nat -> m < Z.of_nat (List.length ls)) /\
    (m < Z.of_nat (List.length ls) -> read_data atof delim (Some (unlines ls)) ndim m = Stop OutOfBounds).
Proof.
  intros A atof delim ndim ls tss Hn Hb Hls HF j.
  assert (F1 : Forall (fun l => ~ In NL l) ls) by (apply Forall_forall; intros l Hl; apply Hls; auto).
  assert (Hff : ~ In xFF (unlines ls)).
  { intros K. unfold unlines in K. apply in_concat in K. destruct K as [x [K1 K2]]. apply in_map_iff in K1. destruct K1 as [l [<- Hl]].
    apply in_app_or in K2. destruct K2 as [K2|[K2|[]]]; [apply (Hls l Hl); auto|discriminate]. }
  assert (EN : nls (unlines ls) = Z.of_nat (List.length ls)) by (apply nls_unlines; auto).
  assert (ES : nls (unlines ls) = nls (firstn j (unlines ls)) + nls (skipn j (unlines ls))) by (rewrite <- nls_app, firstn_skipn; auto).
  assert (Hp1 : 0 <= nls (firstn j (unlines ls))) by (unfold nls; lia). assert (Hp2 : 0 <= nls (skipn j (unlines ls))) by (unfold nls; lia).
  exists (nls (firstn j (unlines ls))). split; [|split; [lia|split]].
  - cbn [get_nlines]. rewrite count_nl_ok; try lia; [reflexivity| |unfold INT_MAX; nia].
    intros K. apply Hff. rewrite <- (firstn_skipn j (unlines ls)). apply in_or_app; auto.
  - intros Hj. destruct (@exists_last _ ls) as [ls0 [x Ex]]; [intros ->; cbn in Hj; lia|].
    assert (HN : exists p, skipn j (unlines ls) = p ++ [NL]).
    { assert (Eu : unlines ls = (unlines ls0 ++ x) ++ [NL]) by (rewrite Ex; unfold unlines; rewrite map_app, concat_app; cbn [map concat]; rewrite app_nil_r, app_assoc; auto).
      rewrite Eu in *. rewrite app_length in Hj. cbn [List.length] in Hj. rewrite skipn_app.
      replace (j - List.length (unlines ls0 ++ x))%nat with O by lia. eexists; reflexivity. }
    destruct HN as [p HN]. rewrite HN, nls_app in ES. change (nls [NL]) with 1 in ES. assert (0 <= nls p) by (unfold nls; lia). lia.
  - intros Hm.
    assert (El : lines (unlines ls) = map (fun l => l ++ [NL]) ls).
    { pose proof (lines_unlines ls [] F1 (fun x => x)) as K. rewrite app_nil_r in K. rewrite K. apply app_nil_r. }
    assert (G : exists tss', Forall2 (good delim ndim) (map (fun l => l ++ [NL]) ls) tss').
    { clear - Hn HF Hls. induction HF as [|l ts ls tss [HT HL] HF IH]; [exists []; constructor|].
      destruct IH as [tss' G1]; [intros; apply Hls; right; auto|].
      destruct (tokens_nl _ _ _ HT) as [ts' [R1 [R2 _]]]. exists (ts' :: tss'). constructor; [|exact G1]. split; [|lia].
      rewrite cstr_id; [exact R1|]. intros K. apply in_app_or in K. destruct K as [K|[K|[]]]; [|discriminate]. destruct (Hls l (or_introl eq_refl)) as [_ [K2 _]]. auto. }
    destruct G as [tss' G]. rewrite <- El in G.
    assert (LL : List.length (lines (unlines ls)) = List.length ls) by (rewrite El; apply map_length).
    eapply read_data_oob; eauto; rewrite LL; [unfold INT_MAX|]; lia.
Qed.
Print Assumptions C81_count.

(** Not reported: a file of two lines, read in full and cut after the first line; the count is 2 both times, nothing is printed, and
    the cells of the second line are what malloc left there. *)
Theorem C81_data_refuted : forall A, exists b b' : bytes, b' = concat (firstn 1 (lines b)) /\ get_nlines (Some b) = OK 2 /\
  (exists full, read_data (A := A) dec_atof (lit " ") (Some b) 2 2 = OK full) /\
  read_data (A := A) dec_atof (lit " ") (Some b') 2 2 = Stop Uninit /\
  exists arr, read_lines (A := A) dec_atof (lit " ") (fresh 4) 0 2 (lines b') = OK arr /\
    (forall p, (p < 2)%nat -> exists x, nth_error arr p = Some (Some x)) /\ (forall p, (2 <= p < 4)%nat -> nth_error arr p = Some None).
Proof.
  intros A. exists (unlines [lit "1 2.5"; lit "-3   4"]), (unlines [lit "1 2.5"]). split; [vm_compute; reflexivity|]. split; [vm_compute; reflexivity|].
  split; [eexists; vm_compute; reflexivity|]. split; [vm_compute; reflexivity|]. eexists. split; [vm_compute; reflexivity|]. split; intros p Hp.
  - destruct p as [|[|p]]; [eexists; reflexivity|eexists; reflexivity|lia].
  - destruct p as [|[|[|[|p]]]]; [lia|lia|reflexivity|reflexivity|lia].
Qed.
Print Assumptions C81_data_refuted.

(** The hypotheses can be met. *)
Example C81_case_lines : forall A, exists i, read_input_ini (A := A) dec_lf dec_atof (Some ini_regression) = OK i /\
  read_input_ini_from (A := A) dec_lf dec_atof (fun key => Some (concat (firstn (if String.eqb key "Swapmode" then 40 else 200) (lines ini_regression)))) = OK i.
Proof. intros A. eexists. split; vm_compute; reflexivity. Qed.
Example C81_case_null : read_input_ini_from (A := RArith) dec_lf dec_atof (fun key => Some (concat (firstn (if String.eqb key "Swapmode" then 3 else 200) (lines ini_regression)))) = Stop NullPtr.
Proof. vm_compute. reflexivity. Qed.
Example C81_case_data : forall A, read_data (A := A) dec_atof (lit " ") (Some (unlines (firstn 1 two_lines))) 2 2 = Stop Uninit.
Proof.
  intros A. destruct (C81_data A dec_atof (lit " ") 2 two_lines two_tokens) with (k := 1%nat) as [_ [E _]]; try lia.
  - vm_compute. reflexivity.
  - exact two_clean.
  - exact two_ok.
  - cbn. lia.
  - exact E.
Qed.
Example C81_case_count : forall A, get_nlines (Some (firstn 8 (unlines two_lines))) = OK 1 /\
  read_data (A := A) dec_atof (lit " ") (Some (unlines two_lines)) 2 1 = Stop OutOfBounds.
Proof.
  intros A. destruct (C81_count A dec_atof (lit " ") 2 two_lines two_tokens ltac:(lia) ltac:(vm_compute; reflexivity) two_clean two_ok 8%nat) as [m [E1 [_ [_ E2]]]].
  assert (E3 : get_nlines (Some (firstn 8 (unlines two_lines))) = OK 1) by (vm_compute; reflexivity).
  rewrite E3 in E1. injection E1 as <-. split; [exact E3|]. apply E2. cbn. lia.
Qed.
