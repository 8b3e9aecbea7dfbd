(** Facts about the byte-string functions of Bytes.v. *)
From Coq Require Import ZArith Ascii String List Bool Lia.
From Verif Require Import Base Bytes.
Import ListNotations.
Open Scope Z_scope.

Lemma ch_eq : forall a b, ch a b = true <-> a = b.
Proof. intros. apply Ascii.eqb_eq. Qed.
Lemma ch_neq : forall a b, ch a b = false <-> a <> b.
Proof. intros. apply Ascii.eqb_neq. Qed.
Lemma ch_refl : forall a, ch a a = true.
Proof. intros. apply ch_eq; auto. Qed.

(** ** numbers *)

(** Decimal notation: [digs s v], s is a non-empty sequence of digits with value v; [written s v], with an optional sign. *)
Inductive digs : bytes -> Z -> Prop :=
| digs_one : forall d, 0 <= d < 10 -> digs [ascii_of_nat (Z.to_nat (48 + d))] d
| digs_more : forall s v d, digs s v -> 0 <= d < 10 -> digs (s ++ [ascii_of_nat (Z.to_nat (48 + d))]) (10 * v + d).
Inductive written : bytes -> Z -> Prop :=
| written_plain : forall s v, digs s v -> written s v
| written_plus : forall s v, digs s v -> written ("+"%char :: s) v
| written_minus : forall s v, digs s v -> written ("-"%char :: s) (- v).

Definition no_digit (l : bytes) : Prop := match l with [] => True | c :: _ => digit c = None end.

Lemma ten : forall d, 0 <= d < 10 -> d = 0 \/ d = 1 \/ d = 2 \/ d = 3 \/ d = 4 \/ d = 5 \/ d = 6 \/ d = 7 \/ d = 8 \/ d = 9.
Proof. intros; lia. Qed.
Lemma digit_dchar : forall d, 0 <= d < 10 -> digit (dchar d) = Some d.
Proof. intros d H. destruct (ten d H) as [->|[->|[->|[->|[->|[->|[->|[->|[->| ->]]]]]]]]]; reflexivity. Qed.
Lemma digit_dchar' : forall d, 0 <= d < 10 -> digit (ascii_of_nat (Z.to_nat (48 + d))) = Some d.
Proof. exact digit_dchar. Qed.

Lemma digits_app : forall s v, digs s v -> forall acc t,
  digits acc (s ++ t) = digits (10 ^ Z.of_nat (List.length s) * acc + v) t.
Proof.
  induction 1 as [d Hd|s v d Hs IH Hd]; intros acc t.
  - cbn [app digits]. rewrite digit_dchar' by auto. reflexivity.
  - rewrite <- app_assoc. rewrite IH. cbn [app digits]. rewrite digit_dchar' by auto. f_equal.
    rewrite app_length. cbn [List.length]. rewrite Nat2Z.inj_add, Z.pow_add_r by lia. change (10 ^ Z.of_nat 1) with 10. ring.
Qed.
Lemma digits_stop : forall acc t, no_digit t -> digits acc t = acc.
Proof. intros acc [|c t] H; cbn [digits no_digit] in *; auto. rewrite H; auto. Qed.
Lemma digs_head : forall s v, digs s v -> exists d s', s = dchar d :: s' /\ 0 <= d < 10.
Proof.
  induction 1 as [d Hd|s v d Hs IH Hd].
  - exists d, []. split; [reflexivity|auto].
  - destruct IH as [d' [s' [-> H']]]. exists d', (s' ++ [ascii_of_nat (Z.to_nat (48 + d))]). split; [reflexivity|auto].
Qed.
Lemma unsigned_part_digs : forall s v t, digs s v -> no_digit t -> unsigned_part (s ++ t) = Some v.
Proof.
  intros s v t H Ht. pose proof (digits_app s v H 0 t) as E. rewrite (digits_stop _ t Ht) in E.
  destruct (digs_head _ _ H) as [d [s' [-> Hd]]]. cbn [app] in *. unfold unsigned_part.
  rewrite digit_dchar by auto. rewrite E. f_equal. lia.
Qed.
Lemma dchar_facts : forall d, 0 <= d < 10 -> isspace (dchar d) = false /\ ch (dchar d) "-"%char = false /\ ch (dchar d) "+"%char = false
  /\ ch COLON (dchar d) = false /\ ch (dchar d) NUL = false /\ ch (dchar d) NL = false.
Proof. intros d H. destruct (ten d H) as [->|[->|[->|[->|[->|[->|[->|[->|[->| ->]]]]]]]]]; vm_compute; auto 10. Qed.

Definition spaces (l : bytes) : Prop := Forall (fun c => isspace c = true) l.
Lemma skip_space_app : forall w t, spaces w -> skip_space (w ++ t) = skip_space t.
Proof. intros w t H. induction H as [|c w Hc Hw IH]; cbn [app skip_space]; auto. rewrite Hc. auto. Qed.

Lemma scan_int_written : forall w s v t, spaces w -> written s v -> no_digit t -> scan_int (w ++ s ++ t) = Some v.
Proof.
  intros w s v t Hw Hs Ht. unfold scan_int. rewrite skip_space_app by auto.
  destruct Hs as [s v H|s v H|s v H].
  - pose proof (unsigned_part_digs _ _ _ H Ht) as E. destruct (digs_head _ _ H) as [d [s' [-> Hd]]].
    destruct (dchar_facts d Hd) as [H1 [H2 [H3 _]]]. cbn [app skip_space] in *. rewrite H1, H2, H3. exact E.
  - cbn [app skip_space]. change (isspace "+"%char) with false. cbn iota.
    change (ch "+" "-") with false. change (ch "+" "+") with true. cbn iota. apply unsigned_part_digs; auto.
  - cbn [app skip_space]. change (isspace "-"%char) with false. cbn iota.
    change (ch "-" "-") with true. cbn iota. rewrite (unsigned_part_digs _ _ _ H Ht). reflexivity.
Qed.

(** printf("%d") writes decimal notation *)
Lemma dec_pos_digs : forall fuel z acc, 0 <= z < 2 ^ Z.of_nat fuel ->
  exists s, dec_pos fuel z acc = s ++ acc /\ digs s z \/ fuel = O.
Proof.
  induction fuel as [|k IH]; intros z acc Hz; [exists []; right; auto|].
  cbn [dec_pos]. destruct (Z.ltb_spec z 10).
  - exists [dchar z]. left. split; auto. apply digs_one. lia.
  - assert (Hq : 0 <= z / 10 < 2 ^ Z.of_nat k).
    { split; [apply Z.div_pos; lia|]. apply Z.div_lt_upper_bound; [lia|]. rewrite Nat2Z.inj_succ, Z.pow_succ_r in Hz by lia. nia. }
    destruct (IH (z / 10) (dchar (z mod 10) :: acc) Hq) as [s [[E Hs]|E]].
    + exists (s ++ [dchar (z mod 10)]). left. split.
      * rewrite E, <- app_assoc. reflexivity.
      * rewrite (Z.div_mod z 10) at 2 by lia. apply digs_more; auto. apply Z.mod_pos_bound; lia.
    + subst k. cbn in Hq. assert (z / 10 = 0) by lia. exfalso. pose proof (Z.div_mod z 10 ltac:(lia)). pose proof (Z.mod_pos_bound z 10 ltac:(lia)). lia.
Qed.
Lemma dec_nonneg : forall z, 0 <= z -> digs (dec_pos (Z.to_nat (Z.log2 z + 1)) z []) z.
Proof.
  intros z Hz. destruct (dec_pos_digs (Z.to_nat (Z.log2 z + 1)) z []) as [s [[E Hs]|E]].
  - pose proof (Z.log2_nonneg z). rewrite Z2Nat.id by lia. destruct (Z.eq_dec z 0) as [->|]; [cbn; lia|].
    pose proof (Z.log2_spec z ltac:(lia)). replace (Z.log2 z + 1) with (Z.succ (Z.log2 z)) by lia. lia.
  - rewrite E, app_nil_r. exact Hs.
  - pose proof (Z.log2_nonneg z). lia.
Qed.
Lemma dec_written : forall z, written (dec z) z.
Proof.
  intros z. unfold dec. destruct (Z.ltb_spec z 0).
  - assert (W : written ("-"%char :: dec_pos (Z.to_nat (Z.log2 (- z) + 1)) (- z) []) (- - z)) by (apply written_minus, dec_nonneg; lia).
    rewrite Z.opp_involutive in W. exact W.
  - apply written_plain. apply dec_nonneg. lia.
Qed.
Lemma written_inj : forall s v w, written s v -> written s w -> v = w.
Proof.
  intros s v w H1 H2. pose proof (scan_int_written [] s v [] (Forall_nil _) H1 I). pose proof (scan_int_written [] s w [] (Forall_nil _) H2 I). congruence.
Qed.
Lemma dec_inj : forall z z', dec z = dec z' -> z = z'.
Proof. intros z z' E. pose proof (dec_written z). pose proof (dec_written z'). rewrite E in H. eapply written_inj; eauto. Qed.

Lemma digs_chars : forall s v, digs s v -> Forall (fun c => exists d, 0 <= d < 10 /\ c = dchar d) s.
Proof.
  induction 1 as [d Hd|s v d Hs IH Hd].
  - repeat constructor. exists d; auto.
  - apply Forall_app; split; auto. repeat constructor. exists d; auto.
Qed.
Lemma written_chars : forall s v, written s v -> Forall (fun c => c <> NUL /\ c <> NL /\ c <> COLON) s.
Proof.
  intros s v H. assert (G : forall s v, digs s v -> Forall (fun c => c <> NUL /\ c <> NL /\ c <> COLON) s).
  { intros s0 v0 H0. eapply Forall_impl; [|exact (digs_chars _ _ H0)]. intros c [d [Hd ->]].
    destruct (dchar_facts d Hd) as [_ [_ [_ [A1 [A2 A3]]]]]. repeat split; intros E.
    - rewrite E in A2. discriminate.
    - rewrite E in A3. discriminate.
    - rewrite E in A1. discriminate. }
  destruct H; eauto; constructor; eauto; repeat split; discriminate.
Qed.

(** ** searching *)
Lemma prefix_spec : forall p l, prefix p l = true <-> exists t, l = p ++ t.
Proof.
  induction p as [|a p IH]; intros l; cbn [prefix].
  - split; [exists l; auto|auto].
  - destruct l as [|b l].
    + split; [discriminate|]. intros [t E]. discriminate.
    + rewrite andb_true_iff, ch_eq, IH. split.
      * intros [-> [t ->]]. exists t. auto.
      * intros [t E]. inversion E. split; auto. exists t; auto.
Qed.
Lemma strstr_spec : forall l p, strstr l p = true <-> exists x y, l = x ++ p ++ y.
Proof.
  induction l as [|a l IH]; intros p.
  - cbn [strstr]. rewrite orb_false_r, prefix_spec. split.
    + intros [t E]. exists [], t. auto.
    + intros [x [y E]]. destruct x; [|discriminate]. exists y; auto.
  - cbn [strstr]. rewrite orb_true_iff, prefix_spec, IH. split.
    + intros [[t E]|[x [y E]]]; [exists [], t; auto|]. exists (a :: x), y. rewrite E. auto.
    + intros [x [y E]]. destruct x as [|c x].
      * left. exists y. auto.
      * right. inversion E. exists x, y. auto.
Qed.

Lemma cstr_app : forall x t, ~ In NUL x -> cstr (x ++ t) = x ++ cstr t.
Proof.
  induction x as [|c x IH]; intros t H; cbn [app cstr]; auto.
  destruct (ch c NUL) eqn:E; [apply ch_eq in E; exfalso; apply H; left; auto|]. rewrite IH; auto. intros K; apply H; right; auto.
Qed.
Lemma cstr_id : forall x, ~ In NUL x -> cstr x = x.
Proof. intros x H. rewrite <- (app_nil_r x) at 1. rewrite cstr_app by auto. apply app_nil_r. Qed.
Lemma cstr_prefix : forall l, exists t, l = cstr l ++ t /\ ~ In NUL (cstr l).
Proof.
  induction l as [|c l [t [E N]]]; [exists []; auto|]. cbn [cstr]. destruct (ch c NUL) eqn:Ec.
  - exists (c :: l). split; auto.
  - exists t. split; [cbn; f_equal; auto|]. intros [K|K]; [rewrite K in Ec; discriminate|auto].
Qed.
Lemma cstr_len : forall l, (List.length (cstr l) <= List.length l)%nat.
Proof. induction l as [|c l IH]; cbn [cstr List.length]; auto. destruct (ch c NUL); cbn [List.length]; lia. Qed.

(** what strstr sees: an occurrence before which there is no NUL *)
Definition mentions (l key : bytes) : Prop := exists x y, l = x ++ key ++ y /\ ~ In NUL x.
Lemma strstr_mentions : forall l key, ~ In NUL key -> strstr (cstr l) key = true <-> mentions l key.
Proof.
  intros l key Hk. rewrite strstr_spec. split.
  - intros [x [y E]]. destruct (cstr_prefix l) as [t [El Nl]]. exists x, (y ++ t). split.
    + rewrite El, E, <- !app_assoc. auto.
    + intros K. apply Nl. rewrite E. apply in_or_app; auto.
  - intros [x [y [-> Hx]]]. exists x, (cstr y). rewrite !cstr_app; auto.
Qed.

(** ** lines *)

(** l is a line of f, without its newline, with u before it and v after it (v starts with the newline of l) *)
Definition is_line (f u l v : bytes) : Prop :=
  f = u ++ l ++ v /\ ~ In NL l /\ (u = [] \/ exists u', u = u' ++ [NL]) /\ (v = [] \/ exists v', v = NL :: v').

Lemma lines_plain : forall l, ~ In NL l -> l <> [] -> lines l = [l].
Proof.
  induction l as [|c l IH]; intros H H0; [congruence|]. cbn [lines].
  destruct (ch c NL) eqn:E; [apply ch_eq in E; exfalso; apply H; left; auto|].
  destruct l as [|d l]; auto. rewrite IH; auto; [|discriminate]. intros K; apply H; right; auto.
Qed.
Lemma lines_cons : forall l t, ~ In NL l -> lines (l ++ NL :: t) = (l ++ [NL]) :: lines t.
Proof.
  induction l as [|c l IH]; intros t H; cbn [app lines]; [reflexivity|].
  destruct (ch c NL) eqn:E; [apply ch_eq in E; exfalso; apply H; left; auto|]. rewrite IH; auto. intros K; apply H; right; auto.
Qed.
Lemma split_nl : forall f, (~ In NL f) \/ exists l t, f = l ++ NL :: t /\ ~ In NL l.
Proof.
  induction f as [|c f IH]; [left; auto|]. destruct (ch c NL) eqn:E.
  - apply ch_eq in E. subst. right. exists [], f. auto.
  - destruct IH as [H|[l [t [-> H]]]].
    + left. intros [K|K]; [apply ch_neq in E; congruence|auto].
    + right. exists (c :: l), t. split; auto. intros [K|K]; [apply ch_neq in E; congruence|auto].
Qed.
Lemma lines_concat : forall f, concat (lines f) = f.
Proof.
  induction f as [|c f IH]; cbn [lines]; auto. destruct (ch c NL) eqn:E.
  - cbn [concat app]. rewrite IH. auto.
  - destruct (lines f); cbn [concat app] in *; rewrite <- IH; auto.
Qed.
Lemma lines_nl_app : forall f t, f = [] \/ (exists f', f = f' ++ [NL]) -> lines (f ++ t) = lines f ++ lines t.
Proof.
  induction f as [|c f IH]; intros t H; [reflexivity|].
  destruct H as [H|[f' H]]; [discriminate|]. cbn [app lines]. destruct (ch c NL) eqn:E.
  - rewrite IH; [reflexivity|]. destruct f' as [|d f'].
    + cbn in H. inversion H. auto.
    + cbn in H. inversion H. right; exists f'; auto.
  - destruct f' as [|d f']; [cbn in H; inversion H; subst; rewrite ch_refl in E; discriminate|]. cbn [app] in H. injection H as <- ->.
    rewrite IH by (right; exists f'; auto).
    destruct (lines (f' ++ [NL])) eqn:El; [|reflexivity].
    exfalso. pose proof (lines_concat (f' ++ [NL])) as K. rewrite El in K. cbn in K. destruct f'; discriminate.
Qed.
(** every line the reader sees is a line of the file *)
Lemma lines_are_lines : forall f e, In e (lines f) -> exists u l v,
  is_line f u l v /\ (e = l ++ [NL] /\ (exists v', v = NL :: v') \/ e = l /\ v = [] /\ l <> []).
Proof.
  intros f. remember (List.length f) as n eqn:En. revert f En. induction n as [n IH] using lt_wf_ind. intros f En e He.
  destruct (split_nl f) as [H|[l [t [-> H]]]].
  - destruct f as [|c f]; [destruct He|]. rewrite lines_plain in He by (auto; discriminate). destruct He as [<-|[]].
    exists [], (c :: f), []. split; [|right; repeat split; auto; discriminate].
    repeat split; auto. cbn. rewrite app_nil_r. auto.
  - rewrite lines_cons in He by auto. destruct He as [<-|He].
    + exists [], l, (NL :: t). split; [|left; eauto]. repeat split; auto. right; eauto.
    + rewrite app_length in En. cbn in En. destruct (IH (List.length t) ltac:(lia) t eq_refl e He) as [u [l' [v [[E [K1 [K2 K3]]] D]]]].
      exists ((l ++ [NL]) ++ u), l', v. split; auto. repeat split; auto.
      * rewrite E, <- !app_assoc. auto.
      * right. destruct K2 as [->|[u' ->]]; [exists l; rewrite app_nil_r; auto|]. exists (l ++ [NL] ++ u'). rewrite <- !app_assoc. auto.
Qed.
