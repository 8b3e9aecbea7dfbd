(** What the texts of Printf.v denote. *)
From Coq Require Import ZArith Ascii String List Bool Reals Lia Lra Psatz.
From Flocq Require Import Core IEEE754.BinarySingleNaN.
From Verif Require Import Base Arith B64 Bytes BytesFacts ReadFacts Mh Prog System Printf.
Import ListNotations.
Open Scope Z_scope.
Open Scope list_scope.

(** ** rounding a fraction *)
Lemma rne_cases : forall p q, 0 < q -> (rne p q = p / q /\ 2 * (p mod q) <= q) \/ (rne p q = p / q + 1 /\ q <= 2 * (p mod q)).
Proof.
  intros p q Hq. unfold rne. destruct (Z.compare_spec (2 * (p mod q)) q); [|left; lia|right; lia].
  destruct (Z.even (p / q)); [left|right]; lia.
Qed.
Lemma rne_err : forall p q, 0 < q -> 2 * Z.abs (p - q * rne p q) <= q.
Proof.
  intros p q Hq. pose proof (Z.div_mod p q ltac:(lia)) as E. pose proof (Z.mod_pos_bound p q Hq).
  destruct (rne_cases p q Hq) as [[-> K]|[-> K]]; rewrite E at 1; nia.
Qed.
Lemma rne_ge : forall p q a, 0 < q -> a * q <= p -> a <= rne p q.
Proof.
  intros p q a Hq H. assert (a <= p / q) by (apply Z.div_le_lower_bound; lia).
  destruct (rne_cases p q Hq) as [[-> K]|[-> K]]; lia.
Qed.
Lemma rne_le : forall p q b, 0 < q -> p <= b * q -> rne p q <= b.
Proof.
  intros p q b Hq H. pose proof (Z.div_mod p q ltac:(lia)) as E. pose proof (Z.mod_pos_bound p q Hq).
  destruct (rne_cases p q Hq) as [[-> K]|[-> K]]; [apply Z.div_le_upper_bound; lia|].
  assert (K2 : p / q <= b) by (apply Z.div_le_upper_bound; lia). destruct (Z.eq_dec (p / q) b) as [E2|E2]; [rewrite E2 in E; lia|lia].
Qed.

(** ** digits *)
Lemma dec_pos_len : forall fuel z acc, 1 <= z < 2 ^ Z.of_nat fuel ->
  exists s, dec_pos fuel z acc = s ++ acc /\ 1 <= blen s /\ 10 ^ (blen s - 1) <= z < 10 ^ blen s.
Proof.
  induction fuel as [|k IH]; intros z acc Hz; [cbn in Hz; lia|].
  cbn [dec_pos]. destruct (Z.ltb_spec z 10).
  - exists [dchar z]. split; [reflexivity|]. unfold blen. cbn [List.length Z.of_nat Pos.of_succ_nat]. cbn [Z.sub Z.opp Z.add Z.pos_sub]. lia.
  - assert (Hq : 1 <= z / 10 < 2 ^ Z.of_nat k).
    { split; [apply Z.div_le_lower_bound; lia|]. apply Z.div_lt_upper_bound; [lia|]. rewrite Nat2Z.inj_succ, Z.pow_succ_r in Hz by lia. nia. }
    destruct (IH (z / 10) (dchar (z mod 10) :: acc) Hq) as [s [E [Hl Hs]]].
    exists (s ++ [dchar (z mod 10)]). split; [rewrite E, <- app_assoc; reflexivity|].
    unfold blen in *. rewrite app_length, Nat2Z.inj_add. change (Z.of_nat (List.length [dchar (z mod 10)])) with 1.
    split; [lia|]. replace (Z.of_nat (List.length s) + 1 - 1) with (Z.succ (Z.of_nat (List.length s) - 1)) by lia.
    rewrite Z.pow_succ_r, Z.pow_add_r by lia. change (10 ^ 1) with 10.
    pose proof (Z.div_mod z 10 ltac:(lia)). pose proof (Z.mod_pos_bound z 10 ltac:(lia)). lia.
Qed.
Lemma ndig_spec : forall z, 1 <= z -> 1 <= ndig z /\ 10 ^ (ndig z - 1) <= z < 10 ^ ndig z.
Proof.
  intros z Hz. unfold ndig, dec. destruct (Z.ltb_spec z 0); [lia|].
  destruct (dec_pos_len (Z.to_nat (Z.log2 z + 1)) z []) as [s [E K]].
  - pose proof (Z.log2_nonneg z). rewrite Z2Nat.id by lia. pose proof (Z.log2_spec z ltac:(lia)).
    replace (Z.log2 z + 1) with (Z.succ (Z.log2 z)) by lia. lia.
  - rewrite E, app_nil_r. exact K.
Qed.
Lemma padded_app : forall w z acc, padded w z acc = padded w z [] ++ acc.
Proof.
  induction w as [|w IH]; intros z acc; [reflexivity|]. cbn [padded]. rewrite IH, (IH _ [_]), <- app_assoc. reflexivity.
Qed.
Lemma padded_len : forall w z, List.length (padded w z []) = w.
Proof. induction w as [|w IH]; intros z; [reflexivity|]. cbn [padded]. rewrite padded_app, app_length, IH. cbn. lia. Qed.
Lemma padded_digs : forall w z, 0 <= z < 10 ^ Z.of_nat (S w) -> digs (padded (S w) z []) z.
Proof.
  induction w as [|w IH]; intros z Hz.
  - cbn [padded]. change (10 ^ Z.of_nat 1) with 10 in Hz. rewrite Z.mod_small by lia. apply digs_one. lia.
  - remember (S w) as v. cbn [padded]. rewrite padded_app. subst v. rewrite (Z.div_mod z 10) at 3 by lia. apply digs_more.
    + apply IH. split; [apply Z.div_pos; lia|]. apply Z.div_lt_upper_bound; [lia|].
      rewrite (Nat2Z.inj_succ (S w)), Z.pow_succ_r in Hz by lia. lia.
    + apply Z.mod_pos_bound. lia.
Qed.
Lemma dec_digs : forall z, 0 <= z -> digs (dec z) z.
Proof. intros z Hz. unfold dec. destruct (Z.ltb_spec z 0); [lia|]. apply dec_nonneg. auto. Qed.
Lemma digs_ne : forall s v, digs s v -> s <> [].
Proof. intros s v H. destruct (digs_head _ _ H) as [d [s' [-> _]]]. discriminate. Qed.
Lemma digs_one' : forall d, 0 <= d < 10 -> digs [dchar d] d.
Proof. intros d Hd. apply digs_one. auto. Qed.

(** ** the exponent *)
Lemma exp10_spec : forall p q, 0 < p -> 0 < q -> let x := exp10 p q in
  (0 <= x /\ 10 ^ x * q <= p < 10 ^ (x + 1) * q) \/ (x < 0 /\ q <= p * 10 ^ (- x) /\ p * 10 ^ (- x - 1) < q).
Proof.
  intros p q Hp Hq. unfold exp10. destruct (Z.leb_spec q p).
  - left. assert (Hz : 1 <= p / q) by (apply Z.div_le_lower_bound; lia). destruct (ndig_spec _ Hz) as [Hn [H1 H2]].
    replace (ndig (p / q) - 1 + 1) with (ndig (p / q)) by lia. split; [lia|].
    pose proof (Z.div_mod p q ltac:(lia)). pose proof (Z.mod_pos_bound p q Hq). nia.
  - right. assert (Hz : 1 <= (q - 1) / p) by (apply Z.div_le_lower_bound; lia). destruct (ndig_spec _ Hz) as [Hn [H1 H2]].
    replace (- - ndig ((q - 1) / p)) with (ndig ((q - 1) / p)) by lia. split; [lia|].
    pose proof (Z.div_mod (q - 1) p ltac:(lia)). pose proof (Z.mod_pos_bound (q - 1) p Hp). nia.
Qed.

(** ** in the reals *)
Open Scope R_scope.
Notation ten k := (powerRZ 10 k).
Lemma ten_pos : forall k, 0 < ten k.
Proof. intros k. apply powerRZ_lt. lra. Qed.
Lemma ten_add : forall a b, ten (a + b) = ten a * ten b.
Proof. intros. apply powerRZ_add. lra. Qed.
Lemma ten_Z : forall k, (0 <= k)%Z -> IZR (10 ^ k) = ten k.
Proof.
  intros k Hk. rewrite <- (Z2Nat.id k Hk) at 1. rewrite <- pow_IZR, pow_powerRZ, Z2Nat.id; auto.
Qed.
Lemma ten_opp : forall k, ten (- k) * ten k = 1.
Proof. intros k. rewrite <- ten_add. replace (- k + k)%Z with 0%Z by lia. reflexivity. Qed.

Lemma exp10_R : forall p q, (0 < p)%Z -> (0 < q)%Z -> ten (exp10 p q) * IZR q <= IZR p < ten (exp10 p q + 1) * IZR q.
Proof.
  intros p q Hp Hq. set (x := exp10 p q). destruct (exp10_spec p q Hp Hq) as [[H0 [H1 H2]]|[H0 [H1 H2]]]; fold x in H0, H1, H2.
  - apply IZR_le in H1. apply IZR_lt in H2. rewrite mult_IZR, ten_Z in H1, H2 by lia. auto.
  - apply IZR_le in H1. apply IZR_lt in H2. rewrite mult_IZR, ten_Z in H1, H2 by lia. pose proof (ten_pos x) as P.
    pose proof (ten_opp x) as E. split.
    + apply (Rmult_le_compat_l (ten x)) in H1; [|lra]. replace (ten x * (IZR p * ten (- x))) with (IZR p * (ten (- x) * ten x)) in H1 by ring.
      rewrite E in H1. lra.
    + pose proof (ten_pos (x + 1)) as P1. apply (Rmult_lt_compat_l (ten (x + 1))) in H2; [|lra].
      replace (- x - 1)%Z with (- (x + 1))%Z in H2 by lia.
      replace (ten (x + 1) * (IZR p * ten (- (x + 1)))) with (IZR p * (ten (- (x + 1)) * ten (x + 1))) in H2 by ring.
      rewrite ten_opp in H2. lra.
Qed.

(** thirteen digits: relative error at most 5 in the last-but-none place *)
Lemma rne_R : forall p q, (0 < q)%Z -> Rabs (IZR (rne p q) - IZR p / IZR q) <= 1 / 2.
Proof.
  intros p q Hq. pose proof (rne_err p q Hq) as H. apply IZR_le in H. rewrite mult_IZR, abs_IZR, minus_IZR, mult_IZR in H.
  assert (Pq : 0 < IZR q) by (apply IZR_lt; auto).
  apply Rmult_le_reg_r with (IZR q); auto. rewrite <- (Rabs_pos_eq (IZR q)) at 2 by lra. rewrite <- Rabs_mult.
  replace ((IZR (rne p q) - IZR p / IZR q) * IZR q) with (- (IZR p - IZR q * IZR (rne p q))) by (field; lra).
  rewrite Rabs_Ropp. lra.
Qed.
Lemma sci_spec : forall p q, (0 < p)%Z -> (0 < q)%Z -> let (d, k) := sci p q in
  (10 ^ 12 <= d < 10 ^ 13)%Z /\ Rabs (IZR d * ten (k - 12) - IZR p / IZR q) <= 5 / 10000000000000 * (IZR p / IZR q).
Proof.
  intros p q Hp Hq. unfold sci. set (x := exp10 p q). pose proof (exp10_R p q Hp Hq) as HX. pose proof (exp10_spec p q Hp Hq) as HZ.
  cbv zeta in HZ. fold x in HX, HZ.
  assert (Pp : 0 < IZR p) by (apply IZR_lt; auto). assert (Pq : 0 < IZR q) by (apply IZR_lt; auto).
  set (r := IZR p / IZR q). assert (HR : ten x <= r < ten (x + 1)).
  { unfold r. split; [apply Rmult_le_reg_r with (IZR q)|apply Rmult_lt_reg_r with (IZR q)]; auto; replace (IZR p / IZR q * IZR q) with (IZR p) by (field; lra); apply HX. }
  set (d := if (x <=? 12)%Z then rne (p * 10 ^ (12 - x)) q else rne p (q * 10 ^ (x - 12))).
  assert (K : (10 ^ 12 <= d <= 10 ^ 13)%Z /\ Rabs (IZR d - r * ten (12 - x)) <= 1 / 2).
  { unfold d. destruct (Z.leb_spec x 12) as [Hx|Hx].
    - assert (PT : (0 < 10 ^ (12 - x))%Z) by (apply Z.pow_pos_nonneg; lia).
      assert (B : (10 ^ 12 * q <= p * 10 ^ (12 - x) /\ p * 10 ^ (12 - x) <= 10 ^ 13 * q)%Z).
      { destruct HZ as [[H0 [H1 H2]]|[H0 [H1 H2]]].
        - replace (10 ^ 12)%Z with (10 ^ x * 10 ^ (12 - x))%Z by (rewrite <- Z.pow_add_r by lia; f_equal; lia).
          replace (10 ^ 13)%Z with (10 ^ (x + 1) * 10 ^ (12 - x))%Z by (rewrite <- Z.pow_add_r by lia; f_equal; lia). nia.
        - replace (10 ^ (12 - x))%Z with (10 ^ 12 * 10 ^ (- x))%Z by (rewrite <- Z.pow_add_r by lia; f_equal; lia). split; [nia|].
          replace (10 ^ (- x))%Z with (10 * 10 ^ (- x - 1))%Z by (rewrite <- Z.pow_succ_r by lia; f_equal; lia).
          change (10 ^ 13)%Z with (10 ^ 12 * 10)%Z. nia. }
      split; [split; [apply rne_ge|apply rne_le]; lia|].
      replace (r * ten (12 - x)) with (IZR (p * 10 ^ (12 - x)) / IZR q); [apply rne_R; auto|].
      rewrite mult_IZR, ten_Z by lia. unfold r. field. lra.
    - assert (PT : (0 < 10 ^ (x - 12))%Z) by (apply Z.pow_pos_nonneg; lia). assert (PQ : (0 < q * 10 ^ (x - 12))%Z) by nia.
      destruct HZ as [[H0 [H1 H2]]|[H0 _]]; [|lia].
      assert (B : (10 ^ 12 * (q * 10 ^ (x - 12)) <= p /\ p <= 10 ^ 13 * (q * 10 ^ (x - 12)))%Z).
      { replace (10 ^ x)%Z with (10 ^ 12 * 10 ^ (x - 12))%Z in H1 by (rewrite <- Z.pow_add_r by lia; f_equal; lia).
        replace (10 ^ (x + 1))%Z with (10 ^ 13 * 10 ^ (x - 12))%Z in H2 by (rewrite <- Z.pow_add_r by lia; f_equal; lia). nia. }
      split; [split; [apply rne_ge|apply rne_le]; lia|].
      replace (r * ten (12 - x)) with (IZR p / IZR (q * 10 ^ (x - 12))); [apply rne_R; auto|].
      rewrite mult_IZR, ten_Z by lia. replace (12 - x)%Z with (- (x - 12))%Z by lia. pose proof (ten_pos (x - 12)) as P.
      unfold r. pose proof (ten_opp (x - 12)) as E.
      apply Rmult_eq_reg_r with (ten (x - 12)); [|lra]. rewrite Rmult_assoc, E. field. lra. }
  destruct K as [Kd Ke].
  assert (KE : Rabs (IZR d * ten (x - 12) - r) <= 5 / 10000000000000 * r).
  { pose proof (ten_pos (x - 12)) as P. replace (IZR d * ten (x - 12) - r) with ((IZR d - r * ten (12 - x)) * ten (x - 12)).
    - rewrite Rabs_mult, (Rabs_pos_eq (ten (x - 12))) by lra.
      assert (E12 : ten (x - 12) * 1000000000000 = ten x).
      { change 1000000000000 with (IZR (10 ^ 12)). rewrite ten_Z, <- ten_add by lia. f_equal. lia. }
      apply Rle_trans with (1 / 2 * ten (x - 12)); [apply Rmult_le_compat_r; lra|]. lra.
    - replace (12 - x)%Z with (- (x - 12))%Z by lia. pose proof (ten_opp (x - 12)) as E.
      replace ((IZR d - r * ten (- (x - 12))) * ten (x - 12)) with (IZR d * ten (x - 12) - r * (ten (- (x - 12)) * ten (x - 12))) by ring. rewrite E. ring. }
  destruct (Z.eqb_spec d (10 ^ 13)) as [E|E].
  - split; [lia|]. replace (IZR (10 ^ 12) * ten (x + 1 - 12)) with (IZR d * ten (x - 12)); [exact KE|].
    rewrite E, !ten_Z, <- !ten_add by lia. f_equal. lia.
  - split; [lia|exact KE].
Qed.

(** ** reading the texts back *)
Open Scope Z_scope.
Definition nondigit (c : ascii) : bool := match digit c with Some _ => false | None => true end.
(** The number a decimal text denotes (C11 7.22.1.3): optional minus, digits, point, digits, optional exponent.  (M, k) is M * 10^k. *)
Definition read_abs (l : bytes) : option (Z * Z) :=
  let (a, l1) := upto nondigit l in
  match a, l1 with
  | _ :: _, c :: l2 =>
      if ch c "."%char then
        let (b, l3) := upto nondigit l2 in
        match l3 with
        | [] => Some (digits 0 (a ++ b), - blen b)
        | e :: l4 => if ch e "e"%char then option_map (fun k => (digits 0 (a ++ b), k - blen b)) (scan_int l4) else None
        end
      else None
  | _, _ => None
  end.
Definition read_dec (l : bytes) : option (Z * Z) :=
  match l with
  | c :: t => if ch c "-"%char then option_map (fun mk => (- fst mk, snd mk)) (read_abs t) else read_abs l
  | [] => None
  end.
Definition den (mk : Z * Z) : R := (IZR (fst mk) * powerRZ 10 (snd mk))%R.

Lemma digs_nondigit : forall s v, digs s v -> forall c, In c s -> nondigit c = false.
Proof.
  intros s v H c Hc. pose proof (digs_chars _ _ H) as F. rewrite Forall_forall in F. destruct (F c Hc) as [d [Hd ->]].
  unfold nondigit. rewrite digit_dchar by auto. reflexivity.
Qed.
Lemma digs_two : forall a va b vb, digs a va -> digs b vb -> digits 0 (a ++ b) = va * 10 ^ blen b + vb.
Proof.
  intros a va b vb Ha Hb. rewrite (digits_app a va Ha). rewrite <- (app_nil_r b) at 1. rewrite (digits_app b vb Hb). cbn [digits].
  unfold blen. ring.
Qed.
Lemma read_abs_fix : forall a va b vb, digs a va -> digs b vb -> read_abs (a ++ lit "." ++ b) = Some (va * 10 ^ blen b + vb, - blen b).
Proof.
  intros a va b vb Ha Hb. unfold read_abs. change (lit "." ++ b) with ("."%char :: b).
  rewrite (upto_app nondigit a "."%char b (digs_nondigit _ _ Ha) eq_refl). rewrite (upto_all nondigit b (digs_nondigit _ _ Hb)).
  destruct a as [|c a]; [destruct (digs_ne _ _ Ha eq_refl)|]. rewrite ch_refl. rewrite (digs_two _ _ _ _ Ha Hb). reflexivity.
Qed.
Lemma read_abs_exp : forall a va b vb e k, digs a va -> digs b vb -> written e k ->
  read_abs (a ++ lit "." ++ b ++ lit "e" ++ e) = Some (va * 10 ^ blen b + vb, k - blen b).
Proof.
  intros a va b vb e k Ha Hb He. unfold read_abs. change (lit "." ++ b ++ lit "e" ++ e) with ("."%char :: b ++ "e"%char :: e).
  rewrite (upto_app nondigit a "."%char (b ++ "e"%char :: e) (digs_nondigit _ _ Ha) eq_refl).
  rewrite (upto_app nondigit b "e"%char e (digs_nondigit _ _ Hb) eq_refl).
  destruct a as [|c a]; [destruct (digs_ne _ _ Ha eq_refl)|]. rewrite !ch_refl. rewrite (digs_two _ _ _ _ Ha Hb).
  pose proof (scan_int_written [] e k [] (Forall_nil _) He I) as E. cbn [app] in E. rewrite app_nil_r in E. rewrite E. reflexivity.
Qed.
Lemma read_dec_sign : forall s a t mk, a <> [] -> (forall c t', a = c :: t' -> ch c "-"%char = false) -> read_abs (a ++ t) = Some mk ->
  read_dec (minus s ++ a ++ t) = Some (if s then - fst mk else fst mk, snd mk).
Proof.
  intros s a t mk Ha Hc E. destruct s; cbn [minus].
  - change (lit "-" ++ a ++ t) with ("-"%char :: a ++ t). unfold read_dec. rewrite ch_refl, E. reflexivity.
  - cbn [app]. destruct a as [|c a]; [congruence|]. cbn [app] in *. unfold read_dec. rewrite (Hc c a eq_refl), E. destruct mk; reflexivity.
Qed.
Lemma digs_nominus : forall a va, digs a va -> forall c t, a = c :: t -> ch c "-"%char = false.
Proof.
  intros a va H c t E. destruct (digs_head _ _ H) as [d [s' [E' Hd]]]. rewrite E' in E. inversion E; subst. apply (dchar_facts d Hd).
Qed.
Lemma sign_written : forall x l, digs l (Z.abs x) -> written ((if x <? 0 then lit "-" else lit "+") ++ l) x.
Proof.
  intros x l D. destruct (Z.ltb_spec x 0).
  - replace x with (- Z.abs x) by lia. apply (written_minus l (Z.abs x)). exact D.
  - replace x with (Z.abs x) by lia. apply (written_plus l (Z.abs x)). exact D.
Qed.
Lemma exp_written : forall x, exists e, exp_text x = lit "e" ++ e /\ written e x.
Proof.
  intros x. unfold exp_text. eexists. split; [reflexivity|]. apply sign_written.
  destruct (Z.ltb_spec (Z.abs x) 100); [apply padded_digs; change (10 ^ Z.of_nat 2) with 100; lia|apply dec_digs; lia].
Qed.

(** ** the conversions *)
Lemma frac_R : forall m e, let (p, q) := frac m e in 0 < p /\ 0 < q /\ (IZR p / IZR q = IZR (Zpos m) * bpow radix2 e)%R.
Proof.
  intros m e. unfold frac. destruct (Z.leb_spec 0 e).
  - split; [assert (0 < 2 ^ e) by (apply Z.pow_pos_nonneg; lia); nia|]. split; [lia|].
    rewrite mult_IZR. change (2 ^ e) with (Zpower radix2 e). rewrite IZR_Zpower by lia. field.
  - assert (P : 0 < 2 ^ (- e)) by (apply Z.pow_pos_nonneg; lia). split; [lia|]. split; [exact P|].
    change (2 ^ (- e)) with (Zpower radix2 (- e)). rewrite IZR_Zpower by lia. rewrite bpow_opp. field.
    apply Rgt_not_eq, bpow_gt_0.
Qed.
Lemma B2R_frac : forall s m e H, let (p, q) := frac m e in
  B2R (B754_finite (prec := prec) (emax := emax) s m e H) = (if s then - (IZR p / IZR q) else IZR p / IZR q)%R.
Proof.
  intros s m e H. pose proof (frac_R m e) as K. destruct (frac m e) as [p q]. destruct K as [_ [_ K]]. cbn [B2R]. unfold F2R. cbn [Fnum Fexp].
  rewrite K. destruct s; cbn [cond_Zopp]; [rewrite opp_IZR; ring|reflexivity].
Qed.
Lemma signed : forall (s : bool) a r e, (Rabs (a - r) <= e -> Rabs ((if s then - a else a) - (if s then - r else r)) <= e)%R.
Proof. intros s a r e H. destruct s; auto. replace (- a - - r)%R with (- (a - r))%R by ring. rewrite Rabs_Ropp. auto. Qed.

Lemma print_e_reads : forall nan (x : b64), is_finite x = true -> exists mk, read_dec (print_e nan x) = Some mk /\
  (Rabs (den mk - B2R x) <= 5 / 10000000000000 * Rabs (B2R x))%R /\ (B2R x <> 0%R -> 10 ^ 12 <= Z.abs (fst mk) < 10 ^ 13).
Proof.
  intros nan x Hx. destruct x as [s|s| |s m e H]; try discriminate Hx.
  - exists (0, -12). split; [destruct s; reflexivity|]. cbn [B2R]. unfold den. cbn [fst snd]. rewrite Rmult_0_l, Rminus_0_r, Rabs_R0.
    split; [lra|]. intros K. lra.
  - cbn [print_e]. pose proof (B2R_frac s m e H) as EB. pose proof (frac_R m e) as F. destruct (frac m e) as [p q]. destruct F as [Pp [Pq _]].
    pose proof (sci_spec p q Pp Pq) as S. destruct (sci p q) as [d k]. destruct S as [Hd He].
    destruct (exp_written k) as [et [-> Ht]].
    assert (D1 : digs [dchar (d / 10 ^ 12)] (d / 10 ^ 12)).
    { apply digs_one'. split; [apply Z.div_pos; lia|]. apply Z.div_lt_upper_bound; lia. }
    assert (D2 : digs (padded 12 (d mod 10 ^ 12) []) (d mod 10 ^ 12)) by (apply padded_digs; apply Z.mod_pos_bound; lia).
    eexists. split; [apply (read_dec_sign s); [discriminate|apply (digs_nominus _ _ D1)|apply (read_abs_exp _ _ _ _ _ _ D1 D2 Ht)]|].
    unfold blen. rewrite padded_len. change (Z.of_nat 12) with 12. cbn [fst snd].
    replace (d / 10 ^ 12 * 10 ^ 12 + d mod 10 ^ 12) with d by (pose proof (Z.div_mod d (10 ^ 12) ltac:(lia)); lia).
    split; [|intros _; destruct s; lia].
    rewrite EB. unfold den. cbn [fst snd].
    replace (IZR (if s then - d else d) * powerRZ 10 (k - 12))%R with (if s then - (IZR d * powerRZ 10 (k - 12)) else IZR d * powerRZ 10 (k - 12))%R
      by (destruct s; [rewrite opp_IZR; ring|reflexivity]).
    replace (Rabs (if s then - (IZR p / IZR q) else IZR p / IZR q)) with (IZR p / IZR q)%R; [apply signed; exact He|].
    assert (0 < IZR p / IZR q)%R by (apply Rdiv_lt_0_compat; apply IZR_lt; auto). destruct s; [rewrite Rabs_Ropp|]; rewrite Rabs_pos_eq; lra.
Qed.
Lemma print_f_reads : forall nan (x : b64), is_finite x = true -> exists M, read_dec (print_f nan x) = Some (M, -6) /\
  (Rabs (den (M, (-6)%Z) - B2R x) <= 5 / 10000000)%R.
Proof.
  intros nan x Hx. destruct x as [s|s| |s m e H]; try discriminate Hx.
  - exists 0. split; [destruct s; reflexivity|]. cbn [B2R]. unfold den. cbn [fst snd]. rewrite Rmult_0_l, Rminus_0_r, Rabs_R0. lra.
  - cbn [print_f]. pose proof (B2R_frac s m e H) as EB. pose proof (frac_R m e) as F. destruct (frac m e) as [p q]. destruct F as [Pp [Pq _]].
    set (k := rne (p * 10 ^ 6) q). assert (K0 : 0 <= k) by (apply rne_ge; lia).
    assert (D1 : digs (dec (k / 10 ^ 6)) (k / 10 ^ 6)) by (apply dec_digs, Z.div_pos; lia).
    assert (D2 : digs (padded 6 (k mod 10 ^ 6) []) (k mod 10 ^ 6)) by (apply padded_digs; apply Z.mod_pos_bound; lia).
    exists (if s then - k else k). split.
    + rewrite (read_dec_sign s _ _ _ (digs_ne _ _ D1) (digs_nominus _ _ D1) (read_abs_fix _ _ _ _ D1 D2)).
      unfold blen. rewrite padded_len. change (Z.of_nat 6) with 6. cbn [fst snd].
      replace (k / 10 ^ 6 * 10 ^ 6 + k mod 10 ^ 6) with k by (pose proof (Z.div_mod k (10 ^ 6) ltac:(lia)); lia). reflexivity.
    + rewrite EB. unfold den. cbn [fst snd].
      replace (IZR (if s then - k else k) * powerRZ 10 (-6)%Z)%R with (if s then - (IZR k * powerRZ 10 (-6)) else IZR k * powerRZ 10 (-6))%R
        by (destruct s; [rewrite opp_IZR; ring|reflexivity]).
      apply signed. pose proof (rne_R (p * 10 ^ 6) q Pq) as E. fold k in E. rewrite mult_IZR in E. change (10 ^ 6) with 1000000 in E.
      assert (T : powerRZ 10 (-6) = (1 / 1000000)%R).
      { pose proof (ten_opp 6) as E6. rewrite <- (ten_Z 6) in E6 by lia. change (10 ^ 6) with 1000000 in E6. change (- (6)) with (-6) in E6. lra. }
      rewrite T. assert (Q : (0 < IZR q)%R) by (apply IZR_lt; auto).
      replace (IZR k * (1 / 1000000) - IZR p / IZR q)%R with ((IZR k - IZR p * 1000000 / IZR q) * (1 / 1000000))%R by (field; lra).
      rewrite Rabs_mult, (Rabs_pos_eq (1 / 1000000)) by lra. lra.
Qed.
