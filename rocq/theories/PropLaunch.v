(** Properties of the script that starts the program. *)
From Coq Require Import ZArith Ascii String List Bool Lia.
From Verif Require Import Base Arith Bytes BytesFacts Mh Prog Readin ReadFacts Loader Inputs Shipped Launch.
Import ListNotations.
Open Scope list_scope.
Open Scope Z_scope.

Lemma pieces_nb : forall w cur t, (forall c, In c w -> blank c = false) -> pieces blank cur (w ++ t) = pieces blank (cur ++ w) t.
Proof.
  induction w as [|c w IH]; intros cur t H; [rewrite app_nil_r; reflexivity|]. cbn [app pieces]. rewrite (H c) by (left; auto).
  rewrite IH by (intros d Hd; apply H; right; auto). rewrite <- app_assoc. reflexivity.
Qed.
Lemma pieces_bl : forall w t, (forall c, In c w -> blank c = true) -> pieces blank [] (w ++ t) = pieces blank [] t.
Proof. induction w as [|c w IH]; intros t H; [reflexivity|]. cbn [app pieces]. rewrite (H c) by (left; auto). apply IH. intros d Hd. apply H. right; auto. Qed.
Lemma words_cons : forall k b t, k <> [] -> (forall c, In c k -> blank c = false) -> blank b = true -> words (k ++ b :: t) = k :: words t.
Proof. intros k b t Hk H Hb. unfold words. rewrite pieces_nb by auto. cbn [app pieces]. rewrite Hb. destruct k; [congruence|reflexivity]. Qed.
Lemma words_one : forall k, k <> [] -> (forall c, In c k -> blank c = false) -> words k = [k].
Proof. intros k Hk H. unfold words. rewrite <- (app_nil_r k) at 1. rewrite pieces_nb by auto. cbn. destruct k; [congruence|reflexivity]. Qed.
(** the first piece *)
Lemma words_first : forall t, words t = [] \/ exists w s r, t = w ++ s ++ r /\ (forall c, In c w -> blank c = true) /\ s <> [] /\ (forall c, In c s -> blank c = false) /\
  (r = [] \/ exists b r', r = b :: r' /\ blank b = true) /\ exists ws, words t = s :: ws.
Proof.
  assert (G : forall t cur, (forall c, In c cur -> blank c = false) -> cur <> [] -> exists s r, cur ++ t = s ++ r /\ s <> [] /\ (forall c, In c s -> blank c = false) /\
    (r = [] \/ exists b r', r = b :: r' /\ blank b = true) /\ exists ws, pieces blank cur t = s :: ws).
  { induction t as [|c t IH]; intros cur H N.
    - exists cur, []. repeat split; auto. exists []. cbn. destruct cur; [congruence|reflexivity].
    - cbn [pieces]. destruct (blank c) eqn:B.
      + exists cur, (c :: t). repeat split; auto; [right; exists c, t; auto|]. exists (pieces blank [] t). destruct cur; [congruence|reflexivity].
      + destruct (IH (cur ++ [c])) as [s [r [E [Ns [Hs [Hr [ws W]]]]]]].
        * intros d Hd. apply in_app_or in Hd. destruct Hd as [Hd|[<-|[]]]; auto.
        * destruct cur; discriminate.
        * exists s, r. rewrite <- app_assoc in E. repeat split; auto. exists ws. exact W. }
  induction t as [|c t IH]; [left; reflexivity|]. unfold words in *. cbn [pieces]. destruct (blank c) eqn:B.
  - destruct IH as [IH|[w [s [r [E [Hw [Ns [Hs [Hr W]]]]]]]]]; [left; exact IH|]. right. exists (c :: w), s, r. rewrite E. split; [reflexivity|].
    split; [intros d [<-|Hd]; auto|]. repeat split; auto. rewrite <- E. exact W.
  - right. destruct (G t [c]) as [s [r [E [Ns [Hs [Hr W]]]]]]; [intros d [<-|[]]; auto|discriminate|]. exists [], s, r. split; [exact E|]. split; [intros d []|]. repeat split; auto.
Qed.
Lemma words_clean : forall t cur w, In w (pieces blank cur t) -> (forall c, In c cur -> blank c = false) -> w <> [] /\ forall c, In c w -> blank c = false.
Proof.
  induction t as [|c t IH]; intros cur w H HC.
  - cbn in H. destruct cur; [destruct H|]. destruct H as [<-|[]]. split; [discriminate|auto].
  - cbn [pieces] in H. destruct (blank c) eqn:B.
    + destruct cur as [|x cur]; [eapply IH; eauto; intros d []|]. destruct H as [<-|H]; [split; [discriminate|auto]|]. eapply IH; eauto. intros d [].
    + eapply IH; eauto. intros d Hd. apply in_app_or in Hd. destruct Hd as [Hd|[<-|[]]]; auto.
Qed.
Lemma numeral_digs : forall w v, numeral w = Some v -> w <> [] /\ (forall c, In c w -> exists d, digit c = Some d) /\ v = digits 0 w.
Proof.
  intros w v H. unfold numeral in H. destruct w as [|c w]; [discriminate|]. split; [discriminate|].
  destruct (forallb _ (c :: w)) eqn:F; [|discriminate]. injection H as <-. split; [|reflexivity].
  intros d Hd. rewrite forallb_forall in F. specialize (F d Hd). destruct (digit d) as [z|]; [exists z; auto|discriminate].
Qed.
Lemma digits_app_stop : forall w acc r, (forall c, In c w -> exists d, digit c = Some d) -> no_digit r -> digits acc (w ++ r) = digits acc w.
Proof.
  induction w as [|c w IH]; intros acc r H N; [apply digits_stop; auto|]. cbn [app digits]. destruct (H c) as [d E]; [left; auto|]. rewrite E. apply IH; auto. intros x Hx. apply H. right; auto.
Qed.
Lemma blank_space : forall c, blank c = true -> isspace c = true /\ digit c = None.
Proof.
  intros c H. unfold blank in H. apply orb_true_iff in H. destruct H as [H|H]; [apply orb_true_iff in H; destruct H as [H|H]|]; apply ch_eq in H; subst c; split; reflexivity.
Qed.
Lemma digit_not : forall c d, digit c = Some d -> isspace c = false /\ ch c "-"%char = false /\ ch c "+"%char = false /\ blank c = false /\ c <> NUL.
Proof.
  intros c d H. unfold digit in H. destruct ((48 <=? Z.of_nat (nat_of_ascii c)) && (Z.of_nat (nat_of_ascii c) <=? 57)) eqn:E; [|discriminate].
  apply andb_true_iff in E. destruct E as [E1 E2]. apply Z.leb_le in E1. apply Z.leb_le in E2.
  assert (X : forall e, (nat_of_ascii e < 48)%nat -> ch c e = false) by (intros e He; apply ch_neq; intros ->; lia).
  split; [|split; [apply X; cbn; lia|split; [apply X; cbn; lia|split]]].
  - unfold isspace. apply orb_false_iff. split; [apply Nat.eqb_neq; lia|]. apply andb_false_iff. right. apply Nat.leb_gt. lia.
  - unfold blank. rewrite !X; auto; cbn; lia.
  - intros ->. cbn in E1. lia.
Qed.
Lemma scan_first : forall w s r, (forall c, In c w -> blank c = true) -> numeral s = Some (digits 0 s) -> no_digit r -> scan_int (w ++ s ++ r) = Some (digits 0 s).
Proof.
  intros w s r Hw Hs Hr. destruct (numeral_digs _ _ Hs) as [Ns [Ds _]]. unfold scan_int.
  rewrite skip_space_app by (unfold spaces; apply Forall_forall; intros c Hc; apply blank_space; auto).
  destruct s as [|c s]; [congruence|]. destruct (Ds c) as [d E]; [left; auto|]. destruct (digit_not _ _ E) as [A [B [C _]]].
  cbn [app skip_space]. rewrite A, B, C. unfold unsigned_part. rewrite E. f_equal. apply (digits_app_stop (c :: s) 0 r Ds Hr).
Qed.
Lemma pieces_nl : forall t cur, pieces blank cur (t ++ [NL]) = pieces blank cur t.
Proof. induction t as [|c t IH]; intros cur; cbn [app pieces]; [destruct cur; reflexivity|]. destruct (blank c); [destruct cur; [apply IH|f_equal; apply IH]|apply IH]. Qed.
(** the lines grep finds when only one line mentions the key *)
Lemma grep_once : forall f key u l v, ~ In NUL f -> ~ In NUL key -> ~ In NL key -> key <> [] -> is_line f u l v -> mentions l key ->
  (forall u' l' v', is_line f u' l' v' -> mentions l' key -> u' = u) -> grep key f = [entry l v].
Proof.
  intros f key u l v NF K0 K1 KN HL HM HU. unfold grep.
  assert (HH : forall e, In e (lines f) -> strstr e key = hit key e).
  { intros e He. unfold hit. rewrite cstr_id; auto. intros K. apply NF. rewrite <- (lines_concat f). apply in_concat. exists e. auto. }
  rewrite (filter_ext_in _ (hit key) (lines f)) by exact HH.
  assert (Hne : l <> []) by (intros ->; eapply (mentions_ne key KN); eauto).
  rewrite (line_split f u l v HL Hne).
  assert (E1 : filter (hit key) (lines u) = []).
  { destruct (filter (hit key) (lines u)) as [|e r] eqn:E; auto. exfalso.
    assert (In e (filter (hit key) (lines u))) as He by (rewrite E; left; auto). apply filter_In in He. destruct He as [He Hh].
    destruct (hit_line u key e K0 K1 He Hh) as [u' [l' [v' [HL' [HM' _]]]]].
    assert (l' <> []) by (intros ->; eapply (mentions_ne key KN); eauto).
    destruct (line_before _ _ _ _ _ _ _ HL HL') as [X Y]; auto. pose proof (HU _ _ _ X HM'). subst. lia. }
  assert (E2 : filter (hit key) (lines (after v)) = []).
  { destruct (filter (hit key) (lines (after v))) as [|e r] eqn:E; auto. exfalso.
    assert (In e (filter (hit key) (lines (after v)))) as He by (rewrite E; left; auto). apply filter_In in He. destruct He as [He Hh].
    destruct (hit_line _ key e K0 K1 He Hh) as [u' [l' [v' [HL' [HM' _]]]]].
    assert (l' <> []) by (intros ->; eapply (mentions_ne key KN); eauto).
    pose proof (line_after _ _ _ _ _ _ _ HL HL' H) as X. pose proof (HU _ _ _ X HM') as Y.
    apply (f_equal (@List.length _)) in Y. rewrite !app_length in Y. cbn in Y. lia. }
  rewrite filter_app. cbn [filter]. rewrite (proj2 (hit_entry l v key K0 K1) HM), E1, E2. reflexivity.
Qed.
Lemma processes_words : forall f, processes f = match words (awk2 (grep (lit "N_beta") f)) with [w] => numeral w | _ => None end.
Proof. intros f. unfold processes, argv. destruct (words _) as [|w [|w2 [|w3 ws]]]; reflexivity. Qed.

(** ** C83: the script starts as many processes as the program reads N_beta.
    [one_line f k t]: f is a text file in which exactly one line mentions N_beta; it is k:t, shorter than 99 bytes; the first field of
    the line ends with its first colon. *)
Definition one_line (f k t : bytes) : Prop :=
  ~ In NUL f /\ exists u z, is_line f u (k ++ COLON :: t) z /\ mentions k (lit "N_beta") /\ ~ In COLON k /\ (forall c, In c k -> blank c = false) /\
    (t = [] \/ exists b t', t = b :: t' /\ blank b = true) /\ blen (k ++ COLON :: t) < 99 /\
    forall u' l' z', is_line f u' l' z' -> mentions l' (lit "N_beta") -> u' = u.
Lemma line_words : forall f k t, one_line f k t -> words (awk2 (grep (lit "N_beta") f)) = match words t with [] => [] | w :: _ => [w] end.
Proof.
  intros f k t [NF [u [z [HL [HM [HC [Hk [Ht [HB HU]]]]]]]]].
  assert (NK : ~ In NUL (lit "N_beta") /\ ~ In NL (lit "N_beta")) by (split; vm_compute; intuition discriminate). destruct NK as [K0 K1].
  rewrite (grep_once f (lit "N_beta") u (k ++ COLON :: t) z NF K0 K1 ltac:(discriminate) HL ltac:(apply mentions_app; exact HM) HU).
  assert (W : forall x, (x = [] \/ x = [NL]) -> words ((k ++ COLON :: t) ++ x) = (k ++ [COLON]) :: words t).
  { intros x Hx. assert (B : forall c, In c (k ++ [COLON]) -> blank c = false) by (intros c Hc; apply in_app_or in Hc; destruct Hc as [Hc|[<-|[]]]; auto).
    assert (NE : k ++ [COLON] <> []) by (destruct k; discriminate).
    replace ((k ++ COLON :: t) ++ x) with ((k ++ [COLON]) ++ (t ++ x)) by (rewrite <- !app_assoc; reflexivity).
    destruct Ht as [->|[b [t' [-> Hb]]]].
    - cbn [app]. destruct Hx as [->| ->]; [rewrite app_nil_r; apply words_one; auto|apply words_cons; auto].
    - cbn [app]. rewrite words_cons by auto. f_equal. unfold words. cbn [pieces]. rewrite Hb. destruct Hx as [->| ->]; [rewrite app_nil_r; reflexivity|].
      apply pieces_nl. }
  assert (E : words (entry (k ++ COLON :: t) z) = (k ++ [COLON]) :: words t).
  { unfold entry. destruct z; [rewrite <- (app_nil_r (k ++ COLON :: t)); apply W; auto|apply W; auto]. }
  unfold awk2. cbn [map List.concat]. rewrite E, app_nil_r. cbn [nth]. destruct (words t) as [|w ws] eqn:Wt; [reflexivity|]. cbn [nth].
  destruct (words_clean t [] w ltac:(unfold words in Wt; rewrite Wt; left; auto) ltac:(intros c [])) as [N C].
  rewrite words_cons by (auto; reflexivity). reflexivity.
Qed.
Theorem C83_agree : forall f k t n, one_line f k t -> processes f = Some n -> n <= 2 ^ 31 - 1 -> 0 <= n /\ read_d (Some f) "N_beta" = OK n.
Proof.
  intros f k t n HO HP Hn. rewrite processes_words, (line_words f k t HO) in HP.
  destruct (words_first t) as [E|[w [s [r [E [Hw [Ns [Hs [Hr [ws W]]]]]]]]]]; [rewrite E in HP; discriminate|]. rewrite W in HP.
  destruct (numeral_digs _ _ HP) as [_ [Ds Vn]].
  assert (PN : forall l acc, 0 <= acc -> 0 <= digits acc l).
  { induction l as [|c l IH]; intros acc Ha; [exact Ha|]. cbn [digits]. destruct (digit c) as [d|] eqn:Ed; [|exact Ha]. apply IH. unfold digit in Ed.
    destruct (_ && _) eqn:EE in Ed; [|discriminate]. injection Ed as <-. apply andb_true_iff in EE. destruct EE as [E1 _]. apply Z.leb_le in E1. lia. }
  split; [rewrite Vn; apply PN; lia|].
  destruct HO as [NF [u [z [HL [HM [HC [Hk [Ht [HB HU]]]]]]]]].
  assert (NT : ~ In NUL k /\ ~ In NUL t).
  { destruct HL as [Ef _]. split; intros K; apply NF; rewrite Ef; apply in_or_app; right; apply in_or_app; left; apply in_or_app; [left; auto|right; right; auto]. }
  destruct NT as [N1 N2].
  destruct (to_scan_ok f "N_beta" ltac:(vm_compute; intuition discriminate) ltac:(vm_compute; intuition discriminate) ltac:(discriminate) u k t z HL HM HC N1 HU HB) as [t' [TS Ht']].
  unfold read_d. rewrite TS. cbn [rbind]. rewrite cstr_id.
  - rewrite E, <- !app_assoc. rewrite scan_first; [rewrite <- Vn; apply i32_ok; unfold INT_MIN, INT_MAX; assert (0 <= n) by (rewrite Vn; apply PN; lia); lia|exact Hw|rewrite HP, Vn; reflexivity|].
    destruct Hr as [->|[b [r' [-> Hb]]]]; [cbn [app]; destruct Ht' as [->| ->]; [exact I|reflexivity]|]. cbn [app no_digit]. apply blank_space. exact Hb.
  - intros K. apply in_app_or in K. destruct K as [K|K]; [auto|]. destruct Ht' as [->| ->]; [destruct K|]. destruct K as [K|[]]; discriminate.
Qed.
Print Assumptions C83_agree.
(** and with a number as the second field it does start them *)
Theorem C83_starts : forall f k t w s r v, one_line f k t -> t = w ++ s ++ r -> (forall c, In c w -> blank c = true) -> digs s v ->
  (r = [] \/ exists b r', r = b :: r' /\ blank b = true) -> processes f = Some v.
Proof.
  intros f k t w s r v HO -> Hw Hs Hr. rewrite processes_words, (line_words f k _ HO).
  assert (Ds : forall c, In c s -> exists d, digit c = Some d).
  { pose proof (digs_chars _ _ Hs) as F. rewrite Forall_forall in F. intros c Hc. destruct (F c Hc) as [d [Hd ->]]. exists d. apply digit_dchar. exact Hd. }
  assert (Ns : s <> []) by (destruct (digs_head _ _ Hs) as [d [s' [-> _]]]; discriminate).
  assert (Bs : forall c, In c s -> blank c = false) by (intros c Hc; destruct (Ds c Hc) as [d Hd]; apply (digit_not _ _ Hd)).
  assert (W : exists ws, words (w ++ s ++ r) = s :: ws).
  { unfold words. rewrite pieces_bl by exact Hw. rewrite pieces_nb by exact Bs. cbn [app]. destruct Hr as [->|[b [r' [-> Hb]]]]; cbn [pieces].
    - exists []. destruct s; [congruence|reflexivity].
    - rewrite Hb. exists (pieces blank [] r'). destruct s; [congruence|reflexivity]. }
  destruct W as [ws ->]. unfold numeral. destruct s as [|c s]; [congruence|].
  assert (F : forallb (fun c => match digit c with Some _ => true | None => false end) (c :: s) = true).
  { apply forallb_forall. intros x Hx. destruct (Ds x Hx) as [d ->]. reflexivity. }
  rewrite F. f_equal. pose proof (unsigned_part_digs (c :: s) v [] Hs I) as U. rewrite app_nil_r in U. unfold unsigned_part in U.
  destruct (digit c); [|discriminate]. injection U as U. exact U.
Qed.
Print Assumptions C83_starts.
(** the shipped inputs: one process for each of the N_beta chains, and for each beta of the list where the program can read the file
    (not those of eggbox, fit_orbit and hier_R: C55) *)
Theorem C83_shipped : forall A,
  Forall (fun p => processes (fst p) = Some (snd p) /\ read_d (Some (fst p)) "N_beta" = OK (snd p))
    [(ini_regression, 4); (ini_curved, 4); (ini_eggbox, 15); (ini_multi_gaussian, 5); (ini_rastrigin_TLTB, 4); (ini_rastrigin, 4); (ini_rastrigin_noL, 4);
     (ini_rastrigin_no, 4); (ini_fit_orbit, 8); (ini_hier_R, 4)] /\
  Forall (fun f => exists i betas, read_input_ini (A := A) dec_lf dec_atof (Some f) = OK i /\
      i_Beta_Values i = Some betas /\ processes f = Some (Z.of_nat (List.length betas)))
    [ini_regression; ini_curved; ini_multi_gaussian; ini_rastrigin_TLTB; ini_rastrigin; ini_rastrigin_noL; ini_rastrigin_no].
Proof.
  intros A. split.
  - repeat constructor; vm_compute; reflexivity.
  - repeat constructor; do 2 eexists; (split; [vm_compute; reflexivity|]); (split; [reflexivity|]); vm_compute; reflexivity.
Qed.
Print Assumptions C83_shipped.

(** an input with the line l in the place of the line N_beta of the shipped regression input *)
Definition with_line (l : string) : bytes := List.concat (map (fun x => if strstr x (lit "N_beta") then lit l ++ [NL] else x) (lines ini_regression)).
(** in other layouts the program reads 4 all the same, but the script starts 2 processes, or none *)
Theorem C83_layout_refuted : forall A, Forall (fun p => processes (with_line (fst p)) = snd p /\
    exists i betas, read_input_ini (A := A) dec_lf dec_atof (Some (with_line (fst p))) = OK i /\ i_N_beta i = 4 /\ i_Beta_Values i = Some betas /\ List.length betas = 4%nat)
  [("N_beta: 4 (was 2)", Some 4); ("N_beta 2 : 4", Some 2); ("N_beta:4 2", Some 2); ("N_beta:4", None); ("# number of chains N_beta: 4", None); ("N_beta : 4", None)]%string.
Proof. intros A. repeat constructor; try (vm_compute; reflexivity); do 2 eexists; (split; [vm_compute; reflexivity|]); repeat split; reflexivity. Qed.
Print Assumptions C83_layout_refuted.

(** the shipped regression input meets the conditions of the first two theorems *)
Lemma absent : forall (c : ascii) l, existsb (ch c) l = false -> ~ In c l.
Proof. intros c l H K. assert (existsb (ch c) l = true) by (apply existsb_exists; exists c; split; [exact K|apply ch_refl]). congruence. Qed.
Example C83_case : exists t, one_line ini_regression (lit "N_beta") t /\ exists w s, t = w ++ s /\ (forall c, In c w -> blank c = true) /\ digs s 4.
Proof.
  exists (ascii_of_nat 9 :: lit "                4"). split.
  2: { exists (ascii_of_nat 9 :: lit "                "), (lit "4"). split; [reflexivity|]. split; [|apply (digs_one 4); lia].
       intros c Hc. assert (F : forallb blank (ascii_of_nat 9 :: lit "                ") = true) by reflexivity. rewrite forallb_forall in F. auto. }
  split; [apply absent; vm_compute; reflexivity|].
  exists (List.concat (firstn 6 (lines ini_regression))), (NL :: List.concat (skipn 7 (lines ini_regression))).
  assert (HL : is_line ini_regression (List.concat (firstn 6 (lines ini_regression))) (lit "N_beta" ++ COLON :: ascii_of_nat 9 :: lit "                4")
    (NL :: List.concat (skipn 7 (lines ini_regression)))).
  { split; [vm_compute; reflexivity|]. split; [apply absent; vm_compute; reflexivity|]. split; [|right; eexists; reflexivity].
    right. exists (removelast (List.concat (firstn 6 (lines ini_regression)))). vm_compute. reflexivity. }
  split; [exact HL|]. split; [exists [], []; split; [reflexivity|intros []]|]. split; [apply absent; vm_compute; reflexivity|].
  split; [intros c Hc; assert (F : forallb (fun c => negb (blank c)) (lit "N_beta") = true) by reflexivity; rewrite forallb_forall in F; apply negb_true_iff; auto|].
  split; [right; exists (ascii_of_nat 9), (lit "                4"); split; reflexivity|]. split; [vm_compute; reflexivity|].
  apply (only_line _ (lit "N_beta") _ _ _ ltac:(vm_compute; intuition discriminate) ltac:(vm_compute; intuition discriminate) ltac:(discriminate) HL); vm_compute; reflexivity.
Qed.
