(** What read_onepara and the value readers return. *)
From Coq Require Import ZArith Ascii String List Bool Lia.
From Verif Require Import Base Arith Bytes BytesFacts Mh Readin.
Import ListNotations.
Open Scope Z_scope.

Definition hit (name l : bytes) : bool := strstr (cstr l) name.

Lemma scan_lines_spec : forall name ls buf k,
  scan_lines ls name buf k =
    if forallb (fun l => fits (cstr l)) (filter (hit name) ls)
    then OK (last (map cstr (filter (hit name) ls)) buf, k + Z.of_nat (List.length (filter (hit name) ls)))
    else Stop OutOfBounds.
Proof.
  intros name ls. induction ls as [|l ls IH]; intros buf k.
  - cbn. rewrite Z.add_0_r. reflexivity.
  - cbn [scan_lines filter]. change (strstr (cstr l) name) with (hit name l). destruct (hit name l) eqn:E; [|apply IH].
    cbn [forallb]. destruct (fits (cstr l)); [|reflexivity]. cbn [andb]. rewrite IH.
    destruct (forallb _ _); [|reflexivity]. f_equal. f_equal.
    + cbn [map]. generalize (map cstr (filter (hit name) ls)). intros m. destruct m as [|x m]; [reflexivity|].
      revert x. induction m as [|y m IHm]; intros x; [reflexivity|]. exact (IHm y).
    + cbn [List.length]. lia.
Qed.

Lemma mentions_nl : forall l key, ~ In NL key -> mentions (l ++ [NL]) key -> mentions l key.
Proof.
  intros l key Hk [x [y [E Hx]]].
  destruct (list_eq_dec Ascii.ascii_dec y []) as [->|Hy].
  - rewrite app_nil_r in E. destruct (list_eq_dec Ascii.ascii_dec key []) as [->|Hne].
    + exists [], l. split; auto.
    + exfalso. destruct (exists_last Hne) as [k' [c ->]]. rewrite app_assoc in E. apply app_inj_tail in E. destruct E as [_ <-].
      apply Hk. apply in_or_app; right; left; auto.
  - destruct (exists_last Hy) as [y' [c ->]]. rewrite !app_assoc in E. apply app_inj_tail in E. destruct E as [-> _].
    exists x, y'. rewrite app_assoc. auto.
Qed.
Lemma mentions_app : forall l t key, mentions l key -> mentions (l ++ t) key.
Proof. intros l t key [x [y [-> Hx]]]. exists x, (y ++ t). rewrite <- !app_assoc. auto. Qed.
Lemma mentions_ne : forall (key : bytes), key <> [] -> ~ mentions [] key.
Proof. intros key H [x [y [E _]]]. destruct x; [|discriminate]. destruct key; [congruence|discriminate]. Qed.

(** the entry of [lines] for the line l *)
Definition entry (l v : bytes) : bytes := match v with [] => l | _ => l ++ [NL] end.
Definition after (v : bytes) : bytes := match v with [] => [] | _ :: t => t end.
Lemma line_split : forall f u l v, is_line f u l v -> l <> [] -> lines f = lines u ++ entry l v :: lines (after v).
Proof.
  intros f u l v [-> [Hl [Hu Hv]]] Hne. rewrite lines_nl_app by auto. f_equal.
  destruct Hv as [->|[v' ->]].
  - rewrite app_nil_r. apply lines_plain; auto.
  - apply lines_cons; auto.
Qed.
Lemma hit_entry : forall l v key, ~ In NUL key -> ~ In NL key -> hit key (entry l v) = true <-> mentions l key.
Proof.
  intros l v key H0 H1. unfold hit. rewrite strstr_mentions by auto. unfold entry. destruct v; [tauto|].
  split; [apply mentions_nl; auto|apply mentions_app].
Qed.
Lemma hit_line : forall f key e, ~ In NUL key -> ~ In NL key -> In e (lines f) -> hit key e = true ->
  exists u l v, is_line f u l v /\ mentions l key /\ e = entry l v.
Proof.
  intros f key e H0 H1 He Hh. destruct (lines_are_lines f e He) as [u [l [v [HL D]]]].
  assert (E : e = entry l v). { destruct D as [[-> [v' ->]]|[-> [-> _]]]; reflexivity. }
  exists u, l, v. split; auto. split; auto. rewrite E in Hh. apply hit_entry in Hh; auto.
Qed.
(** lines of the part before and of the part after a line *)
Lemma line_before : forall f u l v u' l' v', is_line f u l v -> is_line u u' l' v' -> l' <> [] -> is_line f u' l' (v' ++ l ++ v) /\ (List.length u' < List.length u)%nat.
Proof.
  intros f u l v u' l' v' [-> [Hl [Hu Hv]]] [E [Hl' [Hu' Hv']]] Hne. split.
  - repeat split; auto.
    + rewrite E, <- !app_assoc. auto.
    + destruct Hv' as [->|[w ->]]; [|right; exists (w ++ l ++ v); auto]. rewrite app_nil_r in E.
      destruct Hu as [->|[u0 ->]]; [destruct u'; [destruct l'; [congruence|discriminate]|discriminate]|].
      exfalso. destruct (exists_last Hne) as [l0 [c ->]]. rewrite app_assoc in E. apply app_inj_tail in E. destruct E as [_ <-].
      apply Hl'. apply in_or_app; right; left; auto.
  - rewrite E, !app_length. destruct l'; [congruence|]. cbn. lia.
Qed.
Lemma line_after : forall f u l v u' l' v', is_line f u l v -> is_line (after v) u' l' v' -> l' <> [] ->
  is_line f (u ++ l ++ NL :: u') l' v'.
Proof.
  intros f u l v u' l' v' [-> [Hl [Hu Hv]]] [E [Hl' [Hu' Hv']]] Hne.
  destruct Hv as [->|[w ->]].
  - cbn in E. destruct u'; [destruct l'; [congruence|discriminate]|discriminate].
  - cbn [after] in E. subst w. repeat split; auto.
    + rewrite <- !app_assoc. cbn. auto.
    + right. destruct Hu' as [->|[u0 ->]]; [exists (u ++ l); rewrite <- !app_assoc; auto|]. exists (u ++ l ++ NL :: u0). rewrite <- !app_assoc. cbn. auto.
Qed.
Lemma line_order : forall f u1 l1 v1 u2 l2 v2, is_line f u1 l1 v1 -> is_line f u2 l2 v2 -> (List.length u1 < List.length u2)%nat ->
  exists w, u2 = u1 ++ l1 ++ NL :: w /\ is_line (after v1) w l2 v2.
Proof.
  intros f u1 l1 v1 u2 l2 v2 [E1 [Hl1 [Hu1 Hv1]]] [E2 [Hl2 [Hu2 Hv2]]] Hlt.
  rewrite E1 in E2. clear E1.
  assert (X : exists x, u2 = u1 ++ x).
  { exists (skipn (List.length u1) u2). rewrite <- (firstn_skipn (List.length u1) u2) at 1. f_equal.
    pose proof (f_equal (firstn (List.length u1)) E2) as K. rewrite firstn_app, firstn_all, Nat.sub_diag, app_nil_r in K. cbn in K. rewrite app_nil_r in K || idtac.
    rewrite firstn_app in K. replace (List.length u1 - List.length u2)%nat with O in K by lia. cbn in K. rewrite app_nil_r in K. auto. }
  destruct X as [x ->]. rewrite <- app_assoc in E2. apply app_inv_head in E2. rewrite app_length in Hlt.
  destruct Hu2 as [K|[u' K]]; [apply app_eq_nil in K; destruct K as [-> ->]; cbn in Hlt; lia|].
  assert (Hx : x <> []) by (intros ->; cbn in Hlt; lia).
  destruct (exists_last Hx) as [x' [c ->]]. rewrite app_assoc in K. apply app_inj_tail in K. destruct K as [_ ->].
  assert (Y : exists y, x' = l1 ++ y).
  { clear - E2 Hl1. revert l1 E2 Hl1. induction x' as [|a x IH]; intros [|b l1] E2 Hl1; cbn [app] in E2.
    - exists []; auto.
    - inversion E2; subst. exfalso; apply Hl1; left; auto.
    - exists (a :: x); auto.
    - inversion E2; subst. destruct (IH l1) as [y ->]; auto; [intros K; apply Hl1; right; auto|]. exists y; auto. }
  destruct Y as [y ->]. rewrite <- !app_assoc in E2. apply app_inv_head in E2.
  destruct Hv1 as [->|[v' ->]]; [destruct y; discriminate|]. cbn [after].
  destruct y as [|b y].
  - exists []. cbn in E2. inversion E2; subst. split; [rewrite <- !app_assoc; auto|]. repeat split; auto.
  - cbn [app] in E2. inversion E2; subst. exists (y ++ [NL]). split; [rewrite <- !app_assoc; auto|]. repeat split; auto; [|right; exists y; auto].
    rewrite <- !app_assoc. auto.
Qed.

(** ** two criteria that can be computed *)
Lemma no_line : forall f key, ~ In NUL key -> ~ In NL key -> key <> [] -> existsb (hit key) (lines f) = false ->
  forall u l v, is_line f u l v -> ~ mentions l key.
Proof.
  intros f key H0 H1 HN HE u l v HL HM.
  assert (Hl : l <> []) by (intros ->; exact (mentions_ne _ HN HM)).
  assert (K : existsb (hit key) (lines f) = true); [|congruence].
  apply existsb_exists. exists (entry l v). split; [|apply hit_entry; auto].
  rewrite (line_split _ _ _ _ HL Hl). apply in_or_app. right. left. auto.
Qed.
Lemma only_line : forall f key u l v, ~ In NUL key -> ~ In NL key -> key <> [] -> is_line f u l v ->
  existsb (hit key) (lines u) = false -> existsb (hit key) (lines (after v)) = false ->
  forall u' l' v', is_line f u' l' v' -> mentions l' key -> u' = u.
Proof.
  intros f key u l v H0 H1 HN HL E1 E2 u' l' v' HL' HM'.
  destruct (Nat.lt_trichotomy (List.length u') (List.length u)) as [D|[D|D]].
  - exfalso. destruct (line_order _ _ _ _ _ _ _ HL' HL D) as [w [E _]].
    apply (no_line u key H0 H1 HN E1 u' l' (NL :: w)); auto. destruct HL' as [_ [A1 [A2 _]]]. repeat split; auto. right. exists w. auto.
  - destruct HL as [E _], HL' as [E' _]. rewrite E in E'.
    pose proof (f_equal (firstn (List.length u)) E') as K. rewrite firstn_app, firstn_all, Nat.sub_diag in K. cbn [firstn] in K. rewrite app_nil_r in K.
    rewrite <- D in K. rewrite firstn_app, firstn_all, Nat.sub_diag in K. cbn [firstn] in K. rewrite app_nil_r in K. auto.
  - exfalso. destruct (line_order _ _ _ _ _ _ _ HL HL' D) as [w [_ HL2]].
    apply (no_line _ key H0 H1 HN E2 _ _ _ HL2 HM').
Qed.

Section Keys.
Variables (f key : bytes).
Hypothesis K0 : ~ In NUL key.
Hypothesis K1 : ~ In NL key.
Hypothesis KN : key <> [].

Definition overlong (l : bytes) : Prop := exists u v, is_line f u l v /\ 100 <= blen (cstr (entry l v)).

Lemma blen_fits : forall l, fits l = true <-> blen l < 100.
Proof. intros. unfold fits, DEST_SIZE. apply Z.ltb_lt. Qed.

(** no line mentions the key *)
Lemma onepara_missing : (forall u l v, is_line f u l v -> ~ mentions l key) -> read_onepara (Some f) key = OK (inl (NotFound key)).
Proof.
  intros H. unfold read_onepara. rewrite scan_lines_spec.
  assert (E : filter (hit key) (lines f) = []).
  { destruct (filter (hit key) (lines f)) as [|e r] eqn:E; auto. exfalso.
    assert (In e (filter (hit key) (lines f))) as He by (rewrite E; left; auto). apply filter_In in He. destruct He as [He Hh].
    destruct (hit_line f key e K0 K1 He Hh) as [u [l [v [HL [HM _]]]]]. eapply H; eauto. }
  rewrite E. cbn. reflexivity.
Qed.
(** exactly one line mentions it *)
Lemma onepara_once : forall u l v, is_line f u l v -> mentions l key ->
  (forall u' l' v', is_line f u' l' v' -> mentions l' key -> u' = u) ->
  read_onepara (Some f) key = if fits (cstr (entry l v)) then OK (inr (cstr (entry l v))) else Stop OutOfBounds.
Proof.
  intros u l v HL HM HU. unfold read_onepara. rewrite scan_lines_spec.
  assert (Hne : l <> []) by (intros ->; eapply (mentions_ne key KN); eauto).
  rewrite (line_split f u l v HL Hne).
  assert (E1 : filter (hit key) (lines u) = []).
  { destruct (filter (hit key) (lines u)) as [|e r] eqn:E; auto. exfalso.
    assert (In e (filter (hit key) (lines u))) as He by (rewrite E; left; auto). apply filter_In in He. destruct He as [He Hh].
    destruct (hit_line u key e K0 K1 He Hh) as [u' [l' [v' [HL' [HM' _]]]]].
    assert (l' <> []) by (intros ->; eapply (mentions_ne key KN); eauto).
    destruct (line_before _ _ _ _ _ _ _ HL HL') as [X Y]; auto. pose proof (HU _ _ _ X HM'). subst. lia. }
  assert (E2 : filter (hit key) (lines (after v)) = []).
  { destruct (filter (hit key) (lines (after v))) as [|e r] eqn:E; auto. exfalso.
    assert (In e (filter (hit key) (lines (after v)))) as He by (rewrite E; left; auto). apply filter_In in He. destruct He as [He Hh].
    destruct (hit_line _ key e K0 K1 He Hh) as [u' [l' [v' [HL' [HM' _]]]]].
    assert (l' <> []) by (intros ->; eapply (mentions_ne key KN); eauto).
    pose proof (line_after _ _ _ _ _ _ _ HL HL' H) as X. pose proof (HU _ _ _ X HM') as Y.
    apply (f_equal (@List.length _)) in Y. rewrite !app_length in Y. cbn in Y. lia. }
  rewrite filter_app. cbn [filter]. rewrite (proj2 (hit_entry l v key K0 K1) HM), E1, E2. cbn [app forallb map last List.length].
  rewrite andb_true_r. destruct (fits (cstr (entry l v))); reflexivity.
Qed.
(** two lines mention it and none of those that do is too long *)
Lemma onepara_twice : forall u1 l1 v1 u2 l2 v2, is_line f u1 l1 v1 -> mentions l1 key -> is_line f u2 l2 v2 -> mentions l2 key ->
  u1 <> u2 -> (forall u l v, is_line f u l v -> mentions l key -> blen (cstr (entry l v)) < 100) ->
  read_onepara (Some f) key = OK (inl (Duplicate key)).
Proof.
  assert (W : forall u1 l1 v1 u2 l2 v2, is_line f u1 l1 v1 -> mentions l1 key -> is_line f u2 l2 v2 -> mentions l2 key ->
    (List.length u1 < List.length u2)%nat -> (forall u l v, is_line f u l v -> mentions l key -> blen (cstr (entry l v)) < 100) ->
    read_onepara (Some f) key = OK (inl (Duplicate key))).
  { intros u1 l1 v1 u2 l2 v2 L1 M1 L2 M2 Hlt HS. unfold read_onepara. rewrite scan_lines_spec.
    assert (EF : forallb (fun l => fits (cstr l)) (filter (hit key) (lines f)) = true).
    { apply forallb_forall. intros e He. apply filter_In in He. destruct He as [He Hh].
      destruct (hit_line f key e K0 K1 He Hh) as [u [l [v [HL [HM ->]]]]]. apply blen_fits. eauto. }
    rewrite EF. cbn [rbind].
    assert (N1 : l1 <> []) by (intros ->; eapply (mentions_ne key KN); eauto).
    assert (N2 : l2 <> []) by (intros ->; eapply (mentions_ne key KN); eauto).
    destruct (line_order _ _ _ _ _ _ _ L1 L2 Hlt) as [w [_ L3]].
    assert (C : (2 <= List.length (filter (hit key) (lines f)))%nat).
    { rewrite (line_split f u1 l1 v1 L1 N1), (line_split _ _ _ _ L3 N2).
      rewrite filter_app. cbn [filter]. rewrite (proj2 (hit_entry l1 v1 key K0 K1) M1).
      rewrite filter_app. cbn [filter]. rewrite (proj2 (hit_entry l2 v2 key K0 K1) M2).
      rewrite app_length. cbn [List.length]. rewrite app_length. cbn [List.length]. lia. }
    destruct (Z.ltb_spec 1 (0 + Z.of_nat (List.length (filter (hit key) (lines f))))); [reflexivity|lia]. }
  intros u1 l1 v1 u2 l2 v2 L1 M1 L2 M2 Hne HS.
  destruct (Nat.lt_total (List.length u1) (List.length u2)) as [H|[H|H]].
  - eapply (W u1 l1 v1 u2 l2 v2); eauto.
  - exfalso. apply Hne. destruct L1 as [E1 _], L2 as [E2 _]. rewrite E1 in E2.
    clear - E2 H. revert u2 E2 H. induction u1 as [|a u IH]; intros [|b u2] E H; cbn in *; try discriminate; auto.
    inversion E; subst. f_equal. apply IH; auto.
  - eapply (W u2 l2 v2 u1 l1 v1); eauto.
Qed.
(** some line that mentions it does not fit in the buffer *)
Lemma onepara_long : forall u l v, is_line f u l v -> mentions l key -> 100 <= blen (cstr (entry l v)) ->
  read_onepara (Some f) key = Stop OutOfBounds.
Proof.
  intros u l v HL HM HB. unfold read_onepara. rewrite scan_lines_spec.
  assert (EF : forallb (fun l => fits (cstr l)) (filter (hit key) (lines f)) = false).
  { apply not_true_is_false. intros T. rewrite forallb_forall in T.
    assert (Hne : l <> []) by (intros ->; eapply (mentions_ne key KN); eauto).
    assert (In (entry l v) (filter (hit key) (lines f))) as Hin.
    { apply filter_In. split; [|apply hit_entry; auto]. rewrite (line_split f u l v HL Hne). apply in_or_app; right; left; auto. }
    apply T in Hin. apply blen_fits in Hin. lia. }
  rewrite EF. reflexivity.
Qed.
End Keys.

(** ** after the colon *)
Lemma upto_app : forall d k c t, (forall x, In x k -> d x = false) -> d c = true -> upto d (k ++ c :: t) = (k, c :: t).
Proof.
  induction k as [|a k IH]; intros c t H Hc; cbn [app upto].
  - rewrite Hc. auto.
  - rewrite (H a) by (left; auto). rewrite IH; auto. intros; apply H; right; auto.
Qed.
Lemma upto_all : forall d k, (forall x, In x k -> d x = false) -> upto d k = (k, []).
Proof.
  induction k as [|a k IH]; intros H; cbn [upto]; auto. rewrite (H a) by (left; auto). rewrite IH; auto. intros; apply H; right; auto.
Qed.
Lemma after_colon_ok : forall k t, k <> [] -> ~ In COLON k -> blen k < 100 -> after_colon (k ++ COLON :: t) = OK (Some t).
Proof.
  intros k t Hk Hc Hl. unfold after_colon. rewrite upto_app.
  - destruct k; [congruence|]. rewrite (proj2 (blen_fits _) Hl). auto.
  - intros x Hx. apply ch_neq. intros E. rewrite <- E in Hx. auto.
  - apply ch_refl.
Qed.

(** the value text of the only line that mentions the key *)
Section Value.
Variables (f : bytes) (key : string).
Hypothesis K0 : ~ In NUL (lit key).
Hypothesis K1 : ~ In NL (lit key).
Hypothesis KN : lit key <> [].
Variables (u k t v : bytes).
Hypothesis HL : is_line f u (k ++ COLON :: t) v.
Hypothesis HM : mentions k (lit key).
Hypothesis HC : ~ In COLON k.
Hypothesis HZ : ~ In NUL k.
Hypothesis HU : forall u' l' v', is_line f u' l' v' -> mentions l' (lit key) -> u' = u.
Hypothesis HB : blen (k ++ COLON :: t) < 99.

Lemma to_scan_ok : exists t', to_scan (Some f) key = OK (Some (cstr (t ++ t'))) /\ (t' = [] \/ t' = [NL]).
Proof.
  assert (HM' : mentions (k ++ COLON :: t) (lit key)) by (apply mentions_app; auto).
  unfold to_scan. rewrite (onepara_once f (lit key) K0 K1 KN u _ v HL HM' HU).
  assert (E : entry (k ++ COLON :: t) v = k ++ COLON :: t ++ match v with [] => [] | _ => [NL] end).
  { unfold entry. destruct v; [rewrite app_nil_r; auto|]. rewrite <- app_assoc. auto. }
  rewrite E. rewrite cstr_app by auto.
  assert (Hbk : blen k < 99). { unfold blen in *. rewrite app_length in HB. lia. }
  assert (F : fits (k ++ cstr (COLON :: t ++ match v with [] => [] | _ => [NL] end)) = true).
  { apply blen_fits. unfold blen in *. rewrite app_length in *. pose proof (cstr_len (COLON :: t ++ match v with [] => [] | _ => [NL] end)).
    cbn [List.length] in *. rewrite app_length in H. destruct v; cbn [List.length] in *; lia. }
  rewrite F. cbn [rbind]. cbn [cstr]. change (ch COLON NUL) with false. cbn iota.
  exists (match v with [] => [] | _ => [NL] end). split; [|destruct v; auto].
  apply after_colon_ok; auto; [|lia]. intros ->. eapply mentions_ne; eauto.
Qed.
End Value.

(** a line  k : spaces number rest  *)
Definition value_line (f : bytes) (key : string) (v : Z) : Prop :=
  exists u k w s t z, is_line f u (k ++ COLON :: w ++ s ++ t) z /\
    mentions k (lit key) /\ ~ In COLON k /\ ~ In NUL k /\
    spaces w /\ written s v /\ no_digit t /\ blen (k ++ COLON :: w ++ s ++ t) < 99 /\
    forall u' l' z', is_line f u' l' z' -> mentions l' (lit key) -> u' = u.
Definition plain_key (key : string) : Prop := lit key <> [] /\ ~ In NUL (lit key) /\ ~ In NL (lit key).

Lemma nospace_nul : forall w, spaces w -> ~ In NUL w.
Proof. intros w H K. unfold spaces in H. rewrite Forall_forall in H. apply H in K. vm_compute in K. discriminate. Qed.
Lemma no_digit_cstr : forall t, no_digit t -> no_digit (cstr t).
Proof. intros [|c t] H; [exact I|]. cbn [cstr]. destruct (ch c NUL); [exact I|exact H]. Qed.

Lemma value_scan : forall f key v, plain_key key -> value_line f key v ->
  exists x, to_scan (Some f) key = OK (Some x) /\ scan_int x = Some v.
Proof.
  intros f key v [KN [K0 K1]] [u [k [w [s [t [z [HL [HM [HC [HZ [Hw [Hs [Ht [HB HU]]]]]]]]]]]]]].
  destruct (to_scan_ok f key K0 K1 KN u k (w ++ s ++ t) z HL HM HC HZ HU HB) as [t' [E Ht']].
  eexists. split; [exact E|]. rewrite <- !app_assoc.
  assert (Hsn : ~ In NUL s).
  { intros K. pose proof (written_chars _ _ Hs) as F. rewrite Forall_forall in F. apply F in K. tauto. }
  rewrite cstr_app by (apply nospace_nul; auto). rewrite cstr_app by auto.
  apply scan_int_written; auto. apply no_digit_cstr.
  destruct t as [|c t]; [|exact Ht]. destruct Ht' as [->| ->]; [exact I|reflexivity].
Qed.
Lemma read_d_ok : forall f key v, plain_key key -> value_line f key v -> INT_MIN <= v <= INT_MAX -> read_d (Some f) key = OK v.
Proof.
  intros f key v HK HV Hr. destruct (value_scan f key v HK HV) as [x [E1 E2]]. unfold read_d. rewrite E1. cbn [rbind]. rewrite E2. apply i32_ok; auto.
Qed.
Lemma read_u_ok : forall f key v, plain_key key -> value_line f key v -> - UINT_MOD < v < UINT_MOD -> read_u (Some f) key = OK (v mod UINT_MOD).
Proof.
  intros f key v HK HV Hr. destruct (value_scan f key v HK HV) as [x [E1 E2]]. unfold read_u. rewrite E1. cbn [rbind]. rewrite E2.
  destruct (Z.ltb_spec (- UINT_MOD) v); [|lia]. destruct (Z.ltb_spec v UINT_MOD); [|lia]. reflexivity.
Qed.

(** ** tokens *)

(** The tokens of a string for the delimiter set d: maximal runs of other bytes, in order. *)
Inductive tokens (d : ascii -> bool) : bytes -> list bytes -> Prop :=
| tok_none : forall g, (forall c, In c g -> d c = true) -> tokens d g []
| tok_one : forall g t rest ts, (forall c, In c g -> d c = true) -> t <> [] -> (forall c, In c t -> d c = false) ->
    (rest = [] \/ exists c r, rest = c :: r /\ d c = true) -> tokens d rest ts -> tokens d (g ++ t ++ rest) (t :: ts).

Lemma skip_delim_app : forall d g t, (forall c, In c g -> d c = true) -> skip_delim d (g ++ t) = skip_delim d t.
Proof.
  induction g as [|c g IH]; intros t H; cbn [app skip_delim]; auto. rewrite (H c) by (left; auto). apply IH. intros; apply H; right; auto.
Qed.
Lemma strtok_none : forall d g, (forall c, In c g -> d c = true) -> strtok d g = None.
Proof. intros d g H. unfold strtok. rewrite <- (app_nil_r g), skip_delim_app by auto. reflexivity. Qed.
Lemma strtok_one : forall d g t rest, (forall c, In c g -> d c = true) -> t <> [] -> (forall c, In c t -> d c = false) ->
  (rest = [] \/ exists c r, rest = c :: r /\ d c = true) ->
  strtok d (g ++ t ++ rest) = Some (t, after rest).
Proof.
  intros d g t rest Hg Ht Hd Hr. unfold strtok. rewrite skip_delim_app by auto.
  assert (E : skip_delim d (t ++ rest) = t ++ rest).
  { destruct t as [|c t]; [congruence|]. cbn [app skip_delim]. rewrite (Hd c) by (left; auto). auto. }
  rewrite E. assert (E2 : upto d (t ++ rest) = (t, rest)).
  { destruct Hr as [->|[c [r [-> Hc]]]]; [rewrite app_nil_r; apply upto_all; auto|apply upto_app; auto]. }
  destruct (t ++ rest) eqn:E3; [destruct t; [congruence|discriminate]|]. rewrite E2. destruct rest; auto.
Qed.
(** the rest that strtok keeps has lost one delimiter; it has the same tokens *)
Lemma tokens_after : forall d rest ts, (rest = [] \/ exists c r, rest = c :: r /\ d c = true) -> tokens d rest ts -> tokens d (after rest) ts.
Proof.
  intros d rest ts [->|[c [r [-> Hc]]]] H; auto. cbn [after].
  remember (c :: r) as l eqn:El. revert El. destruct H as [g Hg|g t rest ts Hg Ht Hd Hr H]; intros El.
  - subst g. constructor. intros; apply Hg; right; auto.
  - destruct g as [|x g].
    + destruct t as [|y t]; [congruence|]. cbn in El. inversion El; subst. rewrite (Hd c) in Hc by (left; auto). discriminate.
    + cbn in El. inversion El; subst. apply tok_one; auto. intros; apply Hg; right; auto.
Qed.

(** ** the whole file *)

(** every value of a configuration that was read *)
Lemma read_input_ini_inv : forall {A : Arith} (scan_lf : bytes -> option (num A)) atof f i, read_input_ini scan_lf atof f = OK i ->
  read_d f "N_parm" = OK (i_N_parm i) /\
  read_d f "N_iter" = OK (i_N_iter i) /\
  read_d f "N_stoptune" = OK (i_N_stoptune i) /\
  read_d f "N_begintune" = OK (i_N_begintune i) /\
  read_d f "Tune_Ladder" = OK (i_Tune_Ladder i) /\
  read_d f "N_stopTuneLadder" = OK (i_N_stopTuneLadder i) /\
  read_f scan_lf f "scale_tune_ladder" = OK (i_scale_tune_ladder i) /\
  read_f scan_lf f "zero_stretch" = OK (i_zero_stretch i) /\
  read_d f "N_beta" = OK (i_N_beta i) /\
  read_d f "Fout_Len" = OK (i_Fout_Len i) /\
  read_s f "FoutPre" = OK (i_FoutPre i) /\
  read_s f "FoutSuf" = OK (i_FoutSuf i) /\
  read_s f "results_dir" = OK (i_results_dir i) /\
  read_beta_values atof f (i_N_beta i) = OK (i_Beta_Values i) /\
  read_s f "Data_file" = OK (i_Data_file i) /\
  read_d f "ndim_data" = OK (i_ndim_data i) /\
  read_delim f = OK (i_Delimiter i) /\
  read_f scan_lf f "init_gp_ratio" = OK (i_init_gp_ratio i) /\
  read_u f "init_rand_seed" = OK (i_init_rand_seed i) /\
  read_u f "i_save_begin" = OK (i_i_save_begin i) /\
  read_d f "n_iter_a_stack" = OK (i_n_iter_a_stack i) /\
  read_d f "n_iter_a_batch_base" = OK (i_n_iter_a_batch_base i) /\
  read_d f "n_iter_a_batch_rand" = OK (i_n_iter_a_batch_rand i) /\
  read_d f "n_iter_in_tune" = OK (i_n_iter_in_tune i) /\
  read_f scan_lf f "ar_ok_lower" = OK (i_ar_ok_lower i) /\
  read_f scan_lf f "ar_ok_upper" = OK (i_ar_ok_upper i) /\
  read_f scan_lf f "ar_best" = OK (i_ar_best i) /\
  read_f scan_lf f "ar_accept_diff" = OK (i_ar_accept_diff i) /\
  read_f scan_lf f "sigma_scale_half_ratio" = OK (i_sigma_scale_half_ratio i) /\
  read_f scan_lf f "sigma_scale_min" = OK (i_sigma_scale_min i) /\
  read_f scan_lf f "sigma_scale_max" = OK (i_sigma_scale_max i) /\
  read_f scan_lf f "sigma_jumpin_ratio" = OK (i_sigma_jumpin_ratio i) /\
  read_d f "N_swap" = OK (i_N_swap i) /\
  read_d f "Swapmode" = OK (i_Swapmode i).
Proof.
  intros A scan_lf atof f i H. unfold read_input_ini in H.
  repeat (apply rbind_ok in H; let a := fresh "a" in let E := fresh "E" in destruct H as [a [E H]]).
  injection H as <-. cbn [i_N_parm i_N_iter i_N_stoptune i_N_begintune i_Tune_Ladder i_N_stopTuneLadder i_scale_tune_ladder i_zero_stretch i_N_beta
    i_Fout_Len i_FoutPre i_FoutSuf i_results_dir i_Beta_Values i_Data_file i_ndim_data i_Delimiter i_init_gp_ratio i_init_rand_seed i_i_save_begin
    i_n_iter_a_stack i_n_iter_a_batch_base i_n_iter_a_batch_rand i_n_iter_in_tune i_ar_ok_lower i_ar_ok_upper i_ar_best i_ar_accept_diff
    i_sigma_scale_half_ratio i_sigma_scale_min i_sigma_scale_max i_sigma_jumpin_ratio i_N_swap i_Swapmode].
  repeat (split; [assumption|]). assumption.
Qed.
(** the keys of input.ini *)
Definition keys : list string := ["N_parm"; "N_iter"; "N_stoptune"; "N_begintune"; "Tune_Ladder"; "N_stopTuneLadder"; "scale_tune_ladder"; "zero_stretch"; "N_beta"; "Fout_Len"; "FoutPre"; "FoutSuf"; "results_dir"; "Beta_Values"; "Data_file"; "ndim_data"; "Delimiter"; "init_gp_ratio"; "init_rand_seed"; "i_save_begin"; "n_iter_a_stack"; "n_iter_a_batch_base"; "n_iter_a_batch_rand"; "n_iter_in_tune"; "ar_ok_lower"; "ar_ok_upper"; "ar_best"; "ar_accept_diff"; "sigma_scale_half_ratio"; "sigma_scale_min"; "sigma_scale_max"; "sigma_jumpin_ratio"; "N_swap"; "Swapmode"]%string.
Lemma to_scan_null : forall f key m, read_onepara f (lit key) = OK (inl m) -> to_scan f key = Stop NullPtr.
Proof. intros f key m E. unfold to_scan. rewrite E. reflexivity. Qed.
Lemma to_scan_stop : forall f key e, read_onepara f (lit key) = Stop e -> to_scan f key = Stop e.
Proof. intros f key e E. unfold to_scan. rewrite E. reflexivity. Qed.
(** a key whose line could not be fetched stops the reading *)
Lemma read_input_ini_stops : forall {A : Arith} (scan_lf : bytes -> option (num A)) atof f key, In key keys ->
  (forall l, read_onepara f (lit key) <> OK (inr l)) -> exists e, read_input_ini scan_lf atof f = Stop e.
Proof.
  intros A scan_lf atof f key Hk Hn. destruct (read_input_ini scan_lf atof f) as [i|e] eqn:E; [|eauto]. exfalso.
  assert (T : forall o, to_scan f key <> OK o).
  { intros o K. unfold to_scan in K. destruct (read_onepara f (lit key)) as [[m|l]|] eqn:Er; try discriminate. exact (Hn l eq_refl). }
  apply read_input_ini_inv in E.
  repeat match type of E with _ /\ _ => let X := fresh "X" in destruct E as [X E] end.
  cbn [keys In] in Hk.
  repeat (destruct Hk as [<-|Hk]; [
    first [ match goal with X : read_d f _ = OK _ |- _ => unfold read_d in X; apply rbind_ok in X; destruct X as [o [X _]]; exact (T o X) end
          | match goal with X : read_u f _ = OK _ |- _ => unfold read_u in X; apply rbind_ok in X; destruct X as [o [X _]]; exact (T o X) end
          | match goal with X : read_s f _ = OK _ |- _ => unfold read_s in X; apply rbind_ok in X; destruct X as [o [X _]]; exact (T o X) end
          | match goal with X : read_f scan_lf f _ = OK _ |- _ => unfold read_f in X; apply rbind_ok in X; destruct X as [o [X _]]; exact (T o X) end
          | match goal with X : read_delim f = OK _ |- _ => unfold read_delim, read_s in X; apply rbind_ok in X; destruct X as [o [X _]];
                            apply rbind_ok in X; destruct X as [o' [X _]]; exact (T o' X) end
          | match goal with X : read_beta_values _ f _ = OK _ |- _ => unfold read_beta_values in X; apply rbind_ok in X; destruct X as [[m|l] [X Y]]; [discriminate|exact (Hn l X)] end ] |]).
  destruct Hk.
Qed.

(** a word *)
Lemma read_s_ok : forall f key u k w s t z, plain_key key -> is_line f u (k ++ COLON :: w ++ s ++ t) z ->
  mentions k (lit key) -> ~ In COLON k -> ~ In NUL k -> spaces w -> s <> [] -> (forall c, In c s -> isspace c = false /\ c <> NUL) ->
  match t with [] => True | c :: _ => isspace c = true end -> blen (k ++ COLON :: w ++ s ++ t) < 99 ->
  (forall u' l' z', is_line f u' l' z' -> mentions l' (lit key) -> u' = u) -> read_s (Some f) key = OK (Some s).
Proof.
  intros f key u k w s t z [KN [K0 K1]] HL HM HC HZ Hw Hs Hc Ht HB HU.
  destruct (to_scan_ok f key K0 K1 KN u k (w ++ s ++ t) z HL HM HC HZ HU HB) as [t' [E Ht']].
  unfold read_s. rewrite E. cbn [rbind]. rewrite <- !app_assoc.
  rewrite cstr_app by (apply nospace_nul; auto). rewrite cstr_app by (intros K; apply Hc in K; tauto).
  unfold scan_word. rewrite skip_space_app by auto.
  assert (E1 : forall x, match x with [] => True | c :: _ => isspace c = true end -> nonspace (s ++ x) = s).
  { intros x Hx. clear - Hc Hx. induction s as [|c s IH]; cbn [app nonspace].
    - destruct x; auto. cbn [nonspace]. rewrite Hx. auto.
    - rewrite (proj1 (Hc c (or_introl eq_refl))). rewrite IH; auto. intros; apply Hc; right; auto. }
  assert (E2 : forall x, skip_space (s ++ x) = s ++ x).
  { intros x. destruct s as [|c s]; [congruence|]. cbn [app skip_space]. rewrite (proj1 (Hc c (or_introl eq_refl))). auto. }
  rewrite E2, E1.
  - destruct s as [|c s]; [congruence|]. assert (Fi : fits (c :: s) = true).
    { apply blen_fits. unfold blen in *. rewrite !app_length in HB. cbn [List.length] in *. rewrite !app_length in HB. cbn [List.length] in *. lia. }
    rewrite Fi. reflexivity.
  - destruct t as [|c t].
    + destruct Ht' as [->| ->]; cbn; auto.
    + cbn [app cstr]. destruct (ch c NUL); auto.
Qed.

Lemma read_u_range : forall f key v, read_u f key = OK v -> 0 <= v < UINT_MOD.
Proof.
  intros f key v H. unfold read_u in H. apply rbind_ok in H. destruct H as [o [_ H]].
  destruct o as [t|]; [|injection H as <-; unfold UINT_MOD; lia]. destruct (scan_int t) as [z|]; [|injection H as <-; unfold UINT_MOD; lia].
  destruct (_ && _); [|discriminate]. injection H as <-. unfold u32. apply Z.mod_pos_bound. reflexivity.
Qed.
