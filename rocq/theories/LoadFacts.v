(** What the loader of Loader.v returns. *)
From Coq Require Import ZArith Ascii String List Bool Lia.
From Verif Require Import Base Arith Bytes BytesFacts Mh Prog Readin ReadFacts Loader SeqTotal.
Import ListNotations.
Open Scope Z_scope.

Definition nls (b : bytes) : Z := Z.of_nat (List.length (filter (fun c => ch c NL) b)).
(** the file with the given lines, each ended by a newline *)
Definition unlines (ls : list bytes) : bytes := concat (map (fun l => l ++ [NL]) ls).

Lemma nls_app : forall a b, nls (a ++ b) = nls a + nls b.
Proof. intros. unfold nls. rewrite filter_app, app_length. lia. Qed.
Lemma nls_none : forall l, ~ In NL l -> nls l = 0.
Proof.
  intros l H. unfold nls. assert (E : filter (fun c => ch c NL) l = []); [|rewrite E; auto].
  induction l as [|c l IH]; auto. cbn [filter]. destruct (ch c NL) eqn:Ec; [apply ch_eq in Ec; exfalso; apply H; left; auto|].
  apply IH. intros K; apply H; right; auto.
Qed.
Lemma nls_unlines : forall ls : list bytes, Forall (fun l => ~ In NL l) ls -> nls (unlines ls) = Z.of_nat (List.length ls).
Proof.
  intros ls H. induction H as [|l ls Hl H IH]; auto. unfold unlines in *. cbn [map concat List.length]. rewrite !nls_app, IH, nls_none by auto.
  change (nls [NL]) with 1. lia.
Qed.
Lemma lines_unlines : forall (ls : list bytes) (last : bytes), Forall (fun l => ~ In NL l) ls -> ~ In NL last ->
  lines (unlines ls ++ last) = map (fun l => l ++ [NL]) ls ++ match last with [] => [] | _ => [last] end.
Proof.
  intros ls last H Hl. induction H as [|l ls Hl0 H IH].
  - cbn [unlines map concat app]. destruct last as [|c r]; [reflexivity|]. apply lines_plain; auto. discriminate.
  - unfold unlines in *. cbn [map concat]. rewrite <- !app_assoc. cbn [app]. rewrite lines_cons by auto. rewrite IH. reflexivity.
Qed.

Lemma count_nl_ok : forall b k, ~ In xFF b -> 0 <= k -> k + nls b <= INT_MAX -> count_nl b k = OK (k + nls b).
Proof.
  induction b as [|c b IH]; intros k Hx Hk Hb.
  - cbn [count_nl]. change (nls []) with 0. f_equal. lia.
  - cbn [count_nl]. destruct (ch c xFF) eqn:E; [apply ch_eq in E; exfalso; apply Hx; left; auto|].
    assert (Hx' : ~ In xFF b) by (intros K; apply Hx; right; auto).
    assert (En : nls (c :: b) = (if ch c NL then 1 else 0) + nls b).
    { unfold nls. cbn [filter]. destruct (ch c NL); cbn [List.length]; lia. }
    rewrite En in *. assert (0 <= nls b) by (unfold nls; lia). destruct (ch c NL).
    + rewrite i32_ok by (unfold INT_MIN; lia). cbn [rbind]. rewrite IH by (auto; lia). f_equal. lia.
    + rewrite IH by (auto; lia). f_equal.
Qed.
Lemma count_nl_ff : forall p q k, ~ In xFF p -> 0 <= k -> k + nls p <= INT_MAX -> count_nl (p ++ xFF :: q) k = OK (k + nls p).
Proof.
  induction p as [|c b IH]; intros q k Hx Hk Hb.
  - cbn [count_nl app]. rewrite ch_refl. change (nls []) with 0. f_equal. lia.
  - cbn [count_nl app]. destruct (ch c xFF) eqn:E; [apply ch_eq in E; exfalso; apply Hx; left; auto|].
    assert (Hx' : ~ In xFF b) by (intros K; apply Hx; right; auto).
    assert (En : nls (c :: b) = (if ch c NL then 1 else 0) + nls b).
    { unfold nls. cbn [filter]. destruct (ch c NL); cbn [List.length]; lia. }
    rewrite En in *. assert (0 <= nls b) by (unfold nls; lia). destruct (ch c NL).
    + rewrite i32_ok by (unfold INT_MIN; lia). cbn [rbind]. rewrite IH by (auto; lia). f_equal. lia.
    + rewrite IH by (auto; lia). f_equal.
Qed.
Lemma split_ff : forall f, In xFF f -> exists p q, f = p ++ xFF :: q /\ ~ In xFF p.
Proof.
  induction f as [|c f IH]; [intros []|]. intros H. destruct (ch c xFF) eqn:E.
  - apply ch_eq in E. subst. exists [], f. auto.
  - destruct H as [H|H]; [apply ch_neq in E; congruence|]. destruct (IH H) as [p [q [-> Hp]]].
    exists (c :: p), q. split; auto. intros [K|K]; [apply ch_neq in E; congruence|auto].
Qed.

(** the newline goes with the last token, or is one *)
Lemma tokens_nl : forall d l ts, tokens d l ts -> exists ts', tokens d (l ++ [NL]) ts' /\ (List.length ts <= List.length ts')%nat /\
  forall j t, nth_error ts j = Some t -> nth_error ts' j = Some t \/ nth_error ts' j = Some (t ++ [NL]).
Proof.
  intros d l ts H. destruct (d NL) eqn:E.
  - exists ts. split; [|split; auto]. induction H as [g Hg|g t rest ts Hg Ht Hd Hr H IH].
    + constructor. intros c K. apply in_app_or in K. destruct K as [K|[<-|[]]]; auto.
    + rewrite <- !app_assoc. apply tok_one; auto. destruct Hr as [->|[c [r [-> Hc]]]]; right; [exists NL, []; auto|exists c, (r ++ [NL]); auto].
  - induction H as [g Hg|g t rest ts Hg Ht Hd Hr H IH].
    + exists [[NL]]. split; [|split; [cbn; lia|]].
      * rewrite <- (app_nil_r (g ++ [NL])), <- app_assoc. apply tok_one; auto; [discriminate| |constructor; intros c []].
        intros c [<-|[]]; auto.
      * intros [|j] t K; discriminate.
    + destruct Hr as [->|Hr].
      * assert (ts = []). { inversion H as [|g' t' r' ts0 H1 H2 H3 H4 H5 H6]; auto. destruct t'; [congruence|]. destruct g'; discriminate. }
        subst ts. exists [t ++ [NL]]. split; [|split; [cbn; lia|]].
        -- rewrite app_nil_r, <- app_assoc. replace (g ++ t ++ [NL]) with (g ++ (t ++ [NL]) ++ []) by (rewrite app_nil_r; auto). apply tok_one; auto.
           ++ destruct t; discriminate.
           ++ intros c K. apply in_app_or in K. destruct K as [K|[<-|[]]]; auto.
        -- intros [|j] x K; [right; inversion K; auto|]. destruct j; discriminate.
      * destruct IH as [ts' [T [L N]]]. exists (t :: ts'). split; [|split; [cbn; lia|]].
        -- rewrite <- !app_assoc. apply tok_one; auto. right. destruct Hr as [c [r [-> Hc]]]. exists c, (r ++ [NL]); auto.
        -- intros [|j] x K; [left; auto|]. apply N. exact K.
Qed.

Section Load.
Context {A : Arith}.
Notation num := (num A).
Variable atof : bytes -> num.
Variable delim : bytes.
Notation d := (is_delim delim).

Definition filled (D : list num) (m : nat) : list (option num) := map Some D ++ repeat None m.
Lemma lset_filled : forall D m x, lset (filled D (Datatypes.S m)) (List.length D) (Some x) = filled (D ++ [x]) m.
Proof. induction D as [|y D IH]; intros m x; [reflexivity|]. cbn. f_equal. apply IH. Qed.
Lemma filled_len : forall D m, List.length (filled D m) = (List.length D + m)%nat.
Proof. intros. unfold filled. rewrite app_length, map_length, repeat_length. auto. Qed.
Lemma zset_filled : forall D m x q, q = Z.of_nat (List.length D) -> zset (filled D (Datatypes.S m)) q (Some x) = OK (filled (D ++ [x]) m).
Proof.
  intros D m x q ->. rewrite zset_ok by (rewrite filled_len; lia). rewrite Nat2Z.id, lset_filled. auto.
Qed.
Lemma zset_full : forall D x q, q = Z.of_nat (List.length D) -> zset (filled D 0) q (Some x) = Stop OutOfBounds.
Proof.
  intros D x q ->. unfold zset. rewrite filled_len. destruct (Z.ltb_spec (Z.of_nat (List.length D)) 0); [lia|].
  destruct (Z.leb_spec (Z.of_nat (List.length D + 0)) (Z.of_nat (List.length D))); [reflexivity|lia].
Qed.
Lemma all_cells_filled : forall D, all_cells (filled D 0) = OK D.
Proof. unfold filled. induction D as [|x D IH]; [reflexivity|]. cbn [map app all_cells cell rbind] in *. rewrite IH. reflexivity. Qed.

Lemma strtok_tokens : forall l t ts, tokens d l (t :: ts) -> exists rest, strtok d l = Some (t, rest) /\ tokens d rest ts.
Proof.
  intros l t ts H. inversion H as [|g t' rest ts' Hg Ht Hd Hr H' E1 E2]; subst.
  exists (after rest). split; [apply strtok_one; auto|apply tokens_after; auto].
Qed.

(** one line with at least ndim tokens, room for it in the array *)
Lemma read_line_ok : forall D m l ts iline ndim, tokens d (cstr l) ts -> 1 <= ndim -> ndim <= Z.of_nat (List.length ts) ->
  Z.of_nat (List.length D) = iline * ndim -> 0 <= iline -> (iline + 1) * ndim <= INT_MAX ->
  read_line atof delim (filled D (Z.to_nat ndim + m)) iline ndim l = OK (filled (D ++ map atof (firstn (Z.to_nat ndim) ts)) m).
Proof.
  intros D m l ts iline ndim HT Hn Hl HD Hi Hb. unfold read_line.
  destruct ts as [|t ts]; [cbn in Hl; lia|].
  destruct (strtok_tokens _ _ _ HT) as [r0 [E0 T0]]. rewrite E0. unfold store at 1.
  rewrite i32_ok by (unfold INT_MIN; nia). cbn [rbind]. rewrite i32_ok by (unfold INT_MIN; nia). cbn [rbind].
  destruct (Z.to_nat ndim) as [|k] eqn:Ek; [lia|]. cbn [plus]. rewrite zset_filled by lia. cbn [rbind].
  replace (Z.to_nat (ndim - 1)) with k by lia.
  destruct (for_from_ok (fun j s => exists i, j = 1 + Z.of_nat i /\ (i <= k)%nat /\ tokens d (snd s) (skipn i ts) /\
      fst s = filled (D ++ atof t :: map atof (firstn i ts)) (k - i + m))
      (fun j s => store atof (fst s) iline ndim j (strtok d (snd s))) k 1 (filled (D ++ [atof t]) (k + m), r0)) as [[a r] [E [i [Ei [_ [_ Ea]]]]]].
  - exists O. split; [lia|]. split; [lia|]. split; [exact T0|]. cbn [firstn map fst]. f_equal. lia.
  - intros j [a r] Hj [i [Ei [Hik [HTi Ea]]]]. cbn [fst snd] in *.
    assert (Hik' : (i < k)%nat) by lia.
    assert (Hts : (i < List.length ts)%nat) by (cbn [List.length] in Hl; lia).
    destruct (skipn i ts) as [|x xs] eqn:Es; [apply (f_equal (@List.length _)) in Es; rewrite skipn_length in Es; cbn in Es; lia|].
    destruct (strtok_tokens _ _ _ HTi) as [r' [E1 T1]]. rewrite E1. unfold store.
    rewrite i32_ok by (unfold INT_MIN; nia). cbn [rbind]. rewrite i32_ok by (unfold INT_MIN; nia). cbn [rbind].
    rewrite Ea. replace (k - i + m)%nat with (Datatypes.S (k - Datatypes.S i + m)) by lia.
    assert (Efi : List.length (firstn i ts) = i) by (rewrite firstn_length; lia).
    rewrite zset_filled.
    2:{ rewrite app_length. cbn [List.length]. rewrite map_length, Efi. lia. }
    cbn [rbind]. eexists. split; [reflexivity|]. exists (Datatypes.S i). split; [lia|]. split; [lia|]. cbn [fst snd].
    assert (Ex : ts = firstn i ts ++ x :: xs) by (rewrite <- Es; symmetry; apply firstn_skipn).
    split.
    + rewrite Ex at 1. rewrite skipn_app, Efi. replace (Datatypes.S i - i)%nat with 1%nat by lia.
      rewrite (skipn_all2 (firstn i ts)) by lia. exact T1.
    + f_equal. rewrite <- app_assoc. cbn [app]. f_equal. f_equal.
      rewrite Ex at 2. rewrite firstn_app, Efi. replace (Datatypes.S i - i)%nat with 1%nat by lia.
      rewrite (firstn_all2 (firstn i ts)) by lia. rewrite map_app. reflexivity.
  - rewrite E. cbn [rbind]. f_equal. cbn [fst] in Ea. rewrite Ea. assert (i = k) by lia. subst i.
    replace (k - k + m)%nat with m by lia. reflexivity.
Qed.
(** a line with a token, no room left *)
Lemma read_line_oob : forall D l t ts iline ndim, tokens d (cstr l) (t :: ts) ->
  Z.of_nat (List.length D) = iline * ndim -> Z.of_nat (List.length D) <= INT_MAX ->
  read_line atof delim (filled D 0) iline ndim l = Stop OutOfBounds.
Proof.
  intros D l t ts iline ndim HT HD Hb. unfold read_line.
  destruct (strtok_tokens _ _ _ HT) as [r0 [E0 T0]]. rewrite E0. unfold store at 1.
  rewrite i32_ok by (unfold INT_MIN; lia). cbn [rbind]. rewrite i32_ok by (unfold INT_MIN; lia). cbn [rbind].
  rewrite zset_full by lia. reflexivity.
Qed.

Definition row_of (ndim : Z) (ts : list bytes) : list num := map atof (firstn (Z.to_nat ndim) ts).
Definition good (ndim : Z) (l : bytes) (ts : list bytes) : Prop := tokens d (cstr l) ts /\ ndim <= Z.of_nat (List.length ts).

Lemma row_len : forall ndim ts, 0 <= ndim <= Z.of_nat (List.length ts) -> Z.of_nat (List.length (row_of ndim ts)) = ndim.
Proof. intros. unfold row_of. rewrite map_length, firstn_length. lia. Qed.

Lemma read_lines_ok : forall ndim, 1 <= ndim -> forall ls tss D iline m, Forall2 (good ndim) ls tss -> 0 <= iline ->
  Z.of_nat (List.length D) = iline * ndim -> (iline + Z.of_nat (List.length ls)) * ndim <= INT_MAX ->
  m = (List.length ls * Z.to_nat ndim)%nat ->
  read_lines atof delim (filled D m) iline ndim ls = OK (filled (D ++ concat (map (row_of ndim) tss)) 0).
Proof.
  intros ndim Hn ls. induction ls as [|l ls IH]; intros tss D iline m HF Hi HD Hb ->; inversion HF; subst.
  - cbn. rewrite app_nil_r. auto.
  - destruct H1 as [HT Hl]. cbn [read_lines List.length] in *.
    replace (Datatypes.S (List.length ls) * Z.to_nat ndim)%nat with (Z.to_nat ndim + List.length ls * Z.to_nat ndim)%nat by lia.
    rewrite (read_line_ok D _ l y iline ndim) by (auto; nia). cbn [rbind].
    rewrite i32_ok by (unfold INT_MIN; nia). cbn [rbind].
    rewrite (IH l' _ (iline + 1)); auto; try lia.
    + f_equal. f_equal. rewrite <- app_assoc. reflexivity.
    + rewrite app_length, Nat2Z.inj_add, HD. fold (row_of ndim y). rewrite row_len by lia. lia.
Qed.
Lemma read_lines_oob : forall ndim, 1 <= ndim -> forall ls tss D iline k, Forall2 (good ndim) ls tss -> 0 <= iline ->
  Z.of_nat (List.length D) = iline * ndim -> (iline + Z.of_nat (List.length ls)) * ndim <= INT_MAX ->
  (k < List.length ls)%nat ->
  read_lines atof delim (filled D (k * Z.to_nat ndim)) iline ndim ls = Stop OutOfBounds.
Proof.
  intros ndim Hn ls. induction ls as [|l ls IH]; intros tss D iline k HF Hi HD Hb Hk; inversion HF; subst; [cbn in Hk; lia|].
  destruct H1 as [HT Hl]. cbn [read_lines List.length] in *. destruct k as [|k].
  - destruct y as [|t ts]; [cbn in Hl; lia|]. cbn [Nat.mul]. rewrite (read_line_oob D l t ts iline ndim); auto. nia.
  - cbn [Nat.mul]. rewrite (read_line_ok D _ l y iline ndim) by (auto; nia). cbn [rbind].
    rewrite i32_ok by (unfold INT_MIN; nia). cbn [rbind].
    apply (IH l' _ (iline + 1)); auto; try lia.
    rewrite app_length, Nat2Z.inj_add, HD. fold (row_of ndim y). rewrite row_len by lia. lia.
Qed.

Lemma fresh_filled : forall size, fresh size = filled [] (Z.to_nat size).
Proof. reflexivity. Qed.

Lemma read_data_ok : forall f ndim tss, 1 <= ndim -> Forall2 (good ndim) (lines f) tss ->
  Z.of_nat (List.length (lines f)) * ndim <= INT_MAX ->
  read_data atof delim (Some f) ndim (Z.of_nat (List.length (lines f))) = OK (concat (map (row_of ndim) tss)).
Proof.
  intros f ndim tss Hn HF Hb. unfold read_data. rewrite i32_ok by (unfold INT_MIN; nia). cbn [rbind].
  destruct (Z.ltb_spec (Z.of_nat (List.length (lines f)) * ndim) 0); [nia|].
  rewrite fresh_filled. rewrite (read_lines_ok ndim Hn (lines f) tss [] 0); auto; try lia; try (cbn; lia).
  cbn [rbind app]. apply all_cells_filled.
Qed.
Lemma read_data_oob : forall f ndim tss k, 1 <= ndim -> Forall2 (good ndim) (lines f) tss ->
  Z.of_nat (List.length (lines f)) * ndim <= INT_MAX -> 0 <= k < Z.of_nat (List.length (lines f)) ->
  read_data atof delim (Some f) ndim k = Stop OutOfBounds.
Proof.
  intros f ndim tss k Hn HF Hb Hk. unfold read_data. rewrite i32_ok by (unfold INT_MIN; nia). cbn [rbind].
  destruct (Z.ltb_spec (k * ndim) 0); [nia|].
  rewrite fresh_filled. replace (Z.to_nat (k * ndim)) with (Z.to_nat k * Z.to_nat ndim)%nat by (rewrite Z2Nat.inj_mul; lia).
  rewrite (read_lines_oob ndim Hn (lines f) tss [] 0); auto; try lia; try (cbn; lia).
Qed.

(** the array keeps its length *)
Lemma zset_length : forall {X} (l l' : list X) i v, zset l i v = OK l' -> List.length l' = List.length l.
Proof.
  intros X l l' i v H. unfold zset in H. destruct (i <? 0); [discriminate|]. destruct (_ <=? i); [discriminate|].
  injection H as <-. apply lset_length.
Qed.
Lemma store_length : forall arr iline ndim j o arr' rest, store atof arr iline ndim j o = OK (arr', rest) -> List.length arr' = List.length arr.
Proof.
  intros arr iline ndim j [[tok r]|] arr' rest H; [|discriminate]. unfold store in H.
  apply rbind_ok in H. destruct H as [p [_ H]]. apply rbind_ok in H. destruct H as [q [_ H]]. apply rbind_ok in H. destruct H as [x [E H]].
  injection H as <- _. eapply zset_length; eauto.
Qed.
Lemma read_line_length : forall arr iline ndim l arr', read_line atof delim arr iline ndim l = OK arr' -> List.length arr' = List.length arr.
Proof.
  intros arr iline ndim l arr' H. unfold read_line in H. apply rbind_ok in H. destruct H as [[a1 r1] [E1 H]]. apply store_length in E1.
  apply rbind_ok in H. destruct H as [[a2 r2] [E2 H]]. injection H as <-.
  change (List.length (fst (a2, r2)) = List.length arr). rewrite <- E1. change (List.length a1) with (List.length (fst (a1, r1))).
  revert E2. generalize (a1, r1), (a2, r2), 1, (Z.to_nat (ndim - 1)). intros s s' i m. revert s i.
  induction m as [|m IH]; intros s i E; cbn [for_from] in E; [injection E as <-; auto|].
  apply rbind_ok in E. destruct E as [[a r] [E E']]. apply store_length in E. rewrite <- E. apply (IH (a, r) _ E').
Qed.
Lemma read_lines_length : forall ls arr iline ndim arr', read_lines atof delim arr iline ndim ls = OK arr' -> List.length arr' = List.length arr.
Proof.
  induction ls as [|l ls IH]; intros arr iline ndim arr' H; cbn [read_lines] in H; [injection H as <-; auto|].
  apply rbind_ok in H. destruct H as [a [E H]]. apply rbind_ok in H. destruct H as [k [_ H]].
  rewrite (IH _ _ _ _ H). eapply read_line_length; eauto.
Qed.
Lemma all_cells_length : forall (l : list (option num)) l', all_cells l = OK l' -> List.length l' = List.length l.
Proof.
  induction l as [|o l IH]; intros l' H; cbn [all_cells] in H; [injection H as <-; auto|].
  apply rbind_ok in H. destruct H as [x [_ H]]. apply rbind_ok in H. destruct H as [y [E H]]. injection H as <-. cbn [List.length]. auto.
Qed.
Lemma read_data_length : forall f ndim nl arr, read_data atof delim f ndim nl = OK arr -> Z.of_nat (List.length arr) = nl * ndim.
Proof.
  intros f ndim nl arr H. unfold read_data in H. apply rbind_ok in H. destruct H as [size [E H]].
  unfold i32 in E. destruct (_ && _); [|discriminate]. injection E as <-. destruct f as [b|]; [|discriminate].
  destruct (Z.ltb_spec (nl * ndim) 0); [discriminate|]. apply rbind_ok in H. destruct H as [a [E H]].
  apply all_cells_length in H. apply read_lines_length in E. rewrite H, E. unfold fresh. rewrite repeat_length. lia.
Qed.
End Load.

(** what get_nlines_of_file returns *)
Lemma count_nl_any : forall b k, 0 <= k -> k + nls b <= INT_MAX ->
  exists m, count_nl b k = OK (k + m) /\ 0 <= m <= nls b /\ (~ In xFF b -> m = nls b).
Proof.
  intros b k Hk Hb. destruct (in_dec ascii_dec xFF b) as [Hi|Hi].
  - destruct (split_ff b Hi) as [p [q [-> Hp]]]. rewrite nls_app in Hb. exists (nls p).
    assert (0 <= nls (xFF :: q)) by (unfold nls; lia). split; [apply count_nl_ff; auto; lia|]. rewrite nls_app. split; [unfold nls in *; lia|].
    intros K. exfalso. auto.
  - exists (nls b). split; [apply count_nl_ok; auto|]. split; [unfold nls; lia|auto].
Qed.
(** with a byte 0xFF the line that has it is not counted *)
Lemma nls_ff_last : forall (p q last : bytes) (ls : list bytes), ~ In xFF p -> p ++ xFF :: q = unlines ls ++ last -> Forall (fun l => ~ In NL l) ls -> ~ In NL last ->
  nls p < Z.of_nat (List.length ls) + (match last with [] => 0 | _ => 1 end).
Proof.
  intros p q last ls. revert p. induction ls as [|l ls IH]; intros p Hp E Hls Hl.
  - cbn in E. cbn [List.length]. destruct last as [|c last]; [destruct p; discriminate|].
    rewrite nls_none; [lia|]. intros K. apply Hl. rewrite <- E. apply in_or_app; auto.
  - inversion Hls as [|? ? H1 H2]; subst. unfold unlines in E. cbn [map concat] in E. rewrite <- !app_assoc in E. cbn [app] in E.
    change (concat (map (fun l => l ++ [NL]) ls)) with (unlines ls) in E.
    (* is the newline of l inside p? *)
    assert (D : (exists p', p = l ++ NL :: p') \/ ~ In NL p).
    { clear - E H1 Hp. revert p Hp E. induction l as [|c l IHl]; intros p Hp E.
      - destruct p as [|x p]; [right; intros []|]. cbn in E. injection E as -> E. left. exists p. auto.
      - destruct p as [|x p]; [right; intros []|]. cbn in E. injection E as -> E.
        destruct (IHl ltac:(intros K; apply H1; right; auto) p ltac:(intros K; apply Hp; right; auto) E) as [[p' ->]|K].
        + left. exists p'. auto.
        + right. intros [X|X]; [apply H1; left; auto|auto]. }
    destruct D as [[p' ->]|D].
    + rewrite nls_app, (nls_none l) by auto.
      assert (E1 : nls (NL :: p') = 1 + nls p') by (unfold nls; cbn [filter]; rewrite ch_refl; cbn [List.length]; lia).
      rewrite E1. rewrite <- !app_assoc in E. apply app_inv_head in E. cbn [app] in E. injection E as E.
      specialize (IH p' ltac:(intros K; apply Hp; apply in_or_app; right; right; auto) E H2 Hl). cbn [List.length]. lia.
    + rewrite nls_none by auto. cbn [List.length]. destruct last; lia.
Qed.
