(** read_beta_values on the only line that mentions Beta_Values. *)
From Coq Require Import ZArith Ascii String List Bool Lia.
From Verif Require Import Base Arith Bytes BytesFacts Mh Prog Readin ReadFacts Loader LoadFacts.
Import ListNotations.
Open Scope Z_scope.

Definition comma (c : ascii) : bool := ch ","%char c.

Section Beta.
Context {A : Arith}.
Variable atof : bytes -> num A.

Lemma beta_loop_ok : forall ts fuel rest (D : list (num A)) m, tokens comma rest ts -> (List.length rest < fuel)%nat ->
  beta_loop atof fuel rest (filled D m) (Z.of_nat (List.length D)) =
    if (List.length ts <=? m)%nat then OK (filled (D ++ map atof ts) (m - List.length ts), Z.of_nat (List.length D + List.length ts))
    else Stop OutOfBounds.
Proof.
  induction ts as [|t ts IH]; intros fuel rest D m HT Hf; (destruct fuel as [|fuel]; [lia|]); cbn [beta_loop].
  - change (ch ",") with comma. inversion HT; subst. rewrite strtok_none by auto. cbn [List.length Nat.leb map].
    rewrite app_nil_r, Nat.sub_0_r, Nat.add_0_r. reflexivity.
  - change (ch ",") with comma. inversion HT as [|g t' rest' ts' Hg Ht Hd Hr H' E1 E2]; subst.
    rewrite strtok_one by auto. destruct m as [|m].
    + rewrite zset_full by auto. reflexivity.
    + rewrite zset_filled by auto. cbn [rbind].
      replace (Z.of_nat (List.length D) + 1) with (Z.of_nat (List.length (D ++ [atof t]))) by (rewrite app_length; cbn; lia).
      rewrite IH.
      * cbn [List.length Nat.leb]. destruct (List.length ts <=? m)%nat; [|reflexivity].
        rewrite <- app_assoc. cbn [app map Nat.sub]. f_equal. f_equal. rewrite app_length. cbn [List.length]. lia.
      * apply tokens_after; auto.
      * rewrite !app_length in Hf. destruct t; [congruence|]. cbn [List.length] in Hf. destruct rest'; cbn [after List.length] in *; lia.
Qed.
(** the only line that mentions Beta_Values is  k : text *)
Definition beta_line (f text : bytes) : Prop :=
  exists u k z, is_line f u (k ++ COLON :: text) z /\ mentions k (lit "Beta_Values") /\ ~ In COLON k /\ ~ In NUL (k ++ COLON :: text) /\
    blen (k ++ COLON :: text) < 99 /\
    forall u' l' z', is_line f u' l' z' -> mentions l' (lit "Beta_Values") -> u' = u.

Lemma beta_para : forall f text, beta_line f text -> exists k t', read_onepara (Some f) (lit "Beta_Values") = OK (inr (k ++ COLON :: text ++ t')) /\
  (t' = [] \/ t' = [NL]) /\ k <> [] /\ ~ In COLON k.
Proof.
  intros f text [u [k [z [HL [HM [HC [HZ [HB HU]]]]]]]].
  assert (K0 : ~ In NUL (lit "Beta_Values")) by (cbn; intros K; repeat destruct K as [K|K]; try discriminate; auto).
  assert (K1 : ~ In NL (lit "Beta_Values")) by (cbn; intros K; repeat destruct K as [K|K]; try discriminate; auto).
  rewrite (onepara_once f (lit "Beta_Values") K0 K1 ltac:(discriminate) u _ z HL (mentions_app _ _ _ HM) HU).
  assert (E : entry (k ++ COLON :: text) z = k ++ COLON :: text ++ match z with [] => [] | _ => [NL] end).
  { unfold entry. destruct z; [rewrite app_nil_r; auto|]. rewrite <- app_assoc. auto. }
  rewrite E, cstr_id.
  2:{ intros K. apply in_app_or in K. destruct K as [K|K]; [apply HZ, in_or_app; auto|]. destruct K as [K|K]; [discriminate|].
      apply in_app_or in K. destruct K as [K|K]; [apply HZ, in_or_app; right; right; auto|]. destruct z; [destruct K|]. destruct K as [K|[]]; discriminate. }
  assert (Fi : fits (k ++ COLON :: text ++ match z with [] => [] | _ => [NL] end) = true).
  { apply blen_fits. unfold blen in *. rewrite app_length in *. cbn [List.length] in *. rewrite app_length. destruct z; cbn [List.length]; lia. }
  rewrite Fi. exists k, (match z with [] => [] | _ => [NL] end). split; auto. split; [destruct z; auto|]. split; auto.
  intros ->. eapply mentions_ne; [|exact HM]. discriminate.
Qed.

(** entries separated by commas *)
Fixpoint join (es : list bytes) : bytes :=
  match es with [] => [] | [e] => e | e :: t => e ++ ","%char :: join t end.
Definition entry_ok (e : bytes) : Prop := e <> [] /\ ~ In ","%char e.
Lemma entry_comma : forall e, entry_ok e -> forall c, In c e -> comma c = false.
Proof. intros e [_ H] c Hc. apply ch_neq. intros E. rewrite <- E in Hc. auto. Qed.
Lemma tokens_join : forall t', (t' = [] \/ t' = [NL]) -> forall es, (forall t, In t es -> atof (t ++ [NL]) = atof t) -> es <> [] -> Forall entry_ok es ->
  exists ts, tokens comma (join es ++ t') ts /\ List.length ts = List.length es /\ map atof ts = map atof es.
Proof.
  intros t' Ht' es Hat Hne HF. induction HF as [|e es He HF IH]; [exfalso; apply Hne; reflexivity|].
  assert (Hnl : forall c, In c t' -> comma c = false).
  { intros c Hc. destruct Ht' as [->| ->]; [destruct Hc|]. destruct Hc as [<-|[]]. reflexivity. }
  destruct es as [|e2 es].
  - exists [e ++ t']. split; [|split; auto].
    + cbn [join]. replace (e ++ t') with ([] ++ (e ++ t') ++ []) at 1 by (cbn [app]; apply app_nil_r). apply (tok_one comma [] (e ++ t') []); [intros c []| | |left; auto|].
      * destruct He as [He _]. destruct e; [congruence|discriminate].
      * intros c Hc. apply in_app_or in Hc. destruct Hc as [Hc|Hc]; [eapply entry_comma; eauto|auto].
      * constructor. intros c [].
    + cbn [map]. f_equal. destruct Ht' as [->| ->]; [rewrite app_nil_r; auto|apply Hat; left; auto].
  - destruct IH as [ts [T1 [T2 T3]]]; [intros; apply Hat; right; auto|discriminate|]. exists (e :: ts). split; [|split; [exact (f_equal Datatypes.S T2)|exact (f_equal (cons (atof e)) T3)]].
    change (join (e :: e2 :: es)) with (e ++ ","%char :: join (e2 :: es)). rewrite <- app_assoc.
    apply (tok_one comma [] e ((","%char :: join (e2 :: es)) ++ t')); [intros c []| | | |].
    + apply He.
    + intros c Hc. eapply entry_comma; eauto.
    + right. exists ","%char, (join (e2 :: es) ++ t'). split; reflexivity.
    + cbn [app]. revert T1. generalize (join (e2 :: es) ++ t'). intros l T1. inversion T1 as [g Hg|g t r ts0 H1 H2 H3 H4 H5]; subst.
      * constructor. intros c [<-|Hc]; auto.
      * apply (tok_one comma (","%char :: g) t r); auto. intros c [<-|Hc]; auto.
Qed.
Lemma beta_values : forall f es N, (forall t, In t es -> atof (t ++ [NL]) = atof t) -> es <> [] -> Forall entry_ok es -> beta_line f (join es) ->
  read_beta_values atof (Some f) N =
    if Z.of_nat (List.length es) =? N then OK (Some (map atof es))
    else if Z.of_nat (List.length es) <? N then OK None else Stop OutOfBounds.
Proof.
  intros f es N Hat Hne HF HB. destruct (beta_para f _ HB) as [k [t' [E [Ht' [Hk Hc]]]]].
  unfold read_beta_values. rewrite E. cbn [rbind].
  assert (ES : strtok (ch COLON) (k ++ COLON :: join es ++ t') = Some (k, join es ++ t')).
  { apply (strtok_one (ch COLON) [] k (COLON :: join es ++ t')).
    - intros c [].
    - exact Hk.
    - intros c K. apply ch_neq. intros X. rewrite <- X in K. auto.
    - right. exists COLON, (join es ++ t'). split; [auto|apply ch_refl]. }
  rewrite ES. destruct (tokens_join t' Ht' es Hat Hne HF) as [ts [T1 [T2 T3]]].
  rewrite fresh_filled. rewrite (beta_loop_ok ts _ _ [] (Z.to_nat N) T1) by lia.
  cbn [app List.length plus]. rewrite T2. clear T2. revert T3. generalize (map atof ts) as vs. intros vs ->.
  assert (Hpos : (0 < List.length es)%nat) by (destruct es; [congruence|cbn; lia]).
  generalize dependent (List.length es). intros L Hpos. destruct (Nat.leb_spec L (Z.to_nat N)).
  - cbn [rbind app List.length plus]. destruct (Z.eqb_spec (Z.of_nat L) N).
    + replace (Z.to_nat N - L)%nat with O by lia. rewrite all_cells_filled. reflexivity.
    + destruct (Z.ltb_spec (Z.of_nat L) N); [reflexivity|lia].
  - cbn [rbind]. destruct (Z.eqb_spec (Z.of_nat L) N); [lia|].
    destruct (Z.ltb_spec (Z.of_nat L) N); [lia|reflexivity].
Qed.
End Beta.
