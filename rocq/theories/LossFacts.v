(** Texts of which the ends of some pieces were lost: lines, fields and counters. *)
From Coq Require Import ZArith Arith Ascii String List Bool Lia.
From Flocq Require Import Core IEEE754.BinarySingleNaN.
From Verif Require Import Base Arith B64 Bytes BytesFacts ReadFacts Rand Mh Prog System LoadFacts Printf PrintFacts TextRuns.
Import ListNotations.
Open Scope Z_scope.
Open Scope list_scope.

(** The texts pieces one after another, each cut off somewhere (possibly not at all, possibly at once). *)
Inductive lossy : list bytes -> bytes -> Prop :=
| lossy_nil : lossy [] []
| lossy_cons : forall kept lost ps t, lossy ps t -> lossy ((kept ++ lost) :: ps) (kept ++ t).

Lemma lossy_whole : forall ps, lossy ps (concat ps).
Proof. induction ps as [|p ps IH]; [constructor|]. cbn [concat]. rewrite <- (app_nil_r p) at 1. constructor. exact IH. Qed.

(** ** lines *)
Lemma unlines_app : forall a b, unlines (a ++ b) = unlines a ++ unlines b.
Proof. intros. unfold unlines. rewrite map_app, concat_app. reflexivity. Qed.
Lemma unlines_cons : forall l ls, unlines (l :: ls) = l ++ NL :: unlines ls.
Proof. intros. unfold unlines. cbn [map concat]. rewrite <- app_assoc. reflexivity. Qed.
Lemma unlines_concat : forall gs : list (list bytes), unlines (concat gs) = concat (map unlines gs).
Proof. induction gs as [|g gs IH]; [reflexivity|]. cbn [concat map]. rewrite unlines_app, IH. reflexivity. Qed.
Lemma nl_split : forall (a b x y : bytes), ~ In NL a -> ~ In NL b -> a ++ NL :: x = b ++ NL :: y -> a = b /\ x = y.
Proof.
  induction a as [|c a IH]; intros [|d b] x y Ha Hb E; cbn [app] in E.
  - injection E as E. auto.
  - exfalso. apply Hb. left. injection E as E _. auto.
  - exfalso. apply Ha. left. injection E as E _. auto.
  - injection E as -> E. destruct (IH b x y) as [-> ->]; auto; intros H; [apply Ha|apply Hb]; right; exact H.
Qed.
Lemma unlines_unique : forall A B q, Forall (fun l => ~ In NL l) A -> Forall (fun l => ~ In NL l) B -> ~ In NL q -> unlines A ++ q = unlines B -> A = B /\ q = [].
Proof.
  induction A as [|a A IH]; intros [|b B] q HA HB Hq E.
  - split; [reflexivity|]. exact E.
  - exfalso. apply Hq. rewrite unlines_cons in E. change (unlines [] ++ q) with q in E. rewrite E. apply in_or_app. right. left. reflexivity.
  - rewrite unlines_cons in E. destruct a; discriminate.
  - rewrite !unlines_cons, <- app_assoc in E. cbn [app] in E. inversion HA; inversion HB; subst.
    destruct (nl_split _ _ _ _ H1 H5 E) as [-> E']. destruct (IH B q) as [-> ->]; auto.
Qed.

(** what is kept of one session: whole lines and a piece of the next *)
Definition kept_of (g : list bytes) (x : list bytes * bytes) : Prop :=
  exists j, fst x = firstn j g /\ ~ In NL (snd x) /\ (snd x = [] \/ exists l rest, In l g /\ l = snd x ++ rest).
Lemma lossy_kept : forall gs t, Forall (Forall (fun l => ~ In NL l)) gs -> lossy (map unlines gs) t ->
  exists xs, Forall2 kept_of gs xs /\ t = concat (map (fun x => unlines (fst x) ++ snd x) xs).
Proof.
  induction gs as [|g gs IH]; intros t C H; cbn [map] in H; inversion H as [|kept lost ps t' H' E1 E2]; subst.
  - exists []. split; [constructor|reflexivity].
  - inversion C as [|? ? C1 C2]; subst. destruct (IH t' C2 H') as [xs [F E]].
    destruct (cut_lines g (List.length kept) C1) as [j [part [E2 [N P]]]].
    rewrite <- E1, firstn_app, Nat.sub_diag, firstn_all, app_nil_r in E2.
    exists ((firstn j g, part) :: xs). split; [constructor; [|exact F]|].
    + exists j. cbn [fst snd]. split; [reflexivity|]. split; [exact N|]. destruct P as [P|[l [rest [P1 P2]]]]; [auto|right]. exists l, rest. split; [apply (nth_error_In _ _ P1)|exact P2].
    + cbn [map concat fst snd]. rewrite <- E, <- E2. reflexivity.
Qed.

(** the lines of the kept text: a piece goes in front of the next whole line *)
Fixpoint glue (pend : bytes) (xs : list (list bytes * bytes)) : list (bytes * bytes) * bytes :=
  match xs with
  | [] => ([], pend)
  | (k, p) :: r =>
      match k with
      | [] => glue (pend ++ p) r
      | l :: k' => let (ls, q) := glue p r in ((pend, l) :: map (pair []) k' ++ ls, q)
      end
  end.
Definition paste (x : bytes * bytes) : bytes := fst x ++ snd x.
Lemma map_snd_pair : forall (k : list bytes), map snd (map (pair (@nil ascii)) k) = k.
Proof. induction k as [|l k IH]; [reflexivity|]. cbn [map snd]. rewrite IH. reflexivity. Qed.
Lemma map_paste_pair : forall (k : list bytes), map paste (map (pair (@nil ascii)) k) = k.
Proof. induction k as [|l k IH]; [reflexivity|]. cbn [map]. rewrite IH. reflexivity. Qed.
Lemma glue_text : forall xs pend, pend ++ concat (map (fun x => unlines (fst x) ++ snd x) xs) = unlines (map paste (fst (glue pend xs))) ++ snd (glue pend xs).
Proof.
  induction xs as [|[k p] xs IH]; intros pend; cbn [glue map concat fst snd]; [rewrite app_nil_r; reflexivity|]. destruct k as [|l k].
  - rewrite <- IH. cbn [unlines map concat app]. rewrite app_assoc. reflexivity.
  - specialize (IH p). destruct (glue p xs) as [ls q] eqn:E. cbn [fst snd] in *. cbn [map]. rewrite map_app, map_paste_pair, !unlines_cons, unlines_app. unfold paste at 1. cbn [fst snd].
    rewrite <- !app_assoc. cbn [app]. rewrite <- !app_assoc. rewrite IH. reflexivity.
Qed.
Lemma glue_lines : forall xs pend, map snd (fst (glue pend xs)) = concat (map fst xs).
Proof.
  induction xs as [|[k p] xs IH]; intros pend; cbn [glue map concat fst snd]; [reflexivity|]. destruct k as [|l k]; [apply IH|].
  specialize (IH p). destruct (glue p xs) as [ls q]. cbn [fst snd map app] in *. f_equal. rewrite map_app, map_snd_pair. f_equal. exact IH.
Qed.
(** the pieces in front are pieces, one after another *)
Lemma glue_pieces : forall (P : bytes -> Prop), P [] -> (forall a b, P a -> P b -> P (a ++ b)) -> forall xs pend, P pend -> Forall (fun x => P (snd x)) xs ->
  Forall (fun x => P (fst x)) (fst (glue pend xs)) /\ P (snd (glue pend xs)).
Proof.
  intros P P0 PA. induction xs as [|[k p] xs IH]; intros pend Hp H; cbn [glue]; [split; [constructor|exact Hp]|]. inversion H as [|? ? H1 H2]; subst. destruct k as [|l k]; [apply IH; auto|].
  destruct (IH p H1 H2) as [K1 K2]. destruct (glue p xs) as [ls q]. cbn [fst snd] in *. split; [|exact K2]. constructor; [exact Hp|]. apply Forall_app. split; [|exact K1].
  apply Forall_forall. intros x Hx. apply in_map_iff in Hx. destruct Hx as [y [<- _]]. exact P0.
Qed.

(** ** fields *)
Lemma strtok_first : forall d l t ts, tokens d l (t :: ts) -> exists rest, strtok d l = Some (t, rest) /\ tokens d rest ts.
Proof.
  intros d l t ts H. inversion H as [|g t' rest ts' Hg Ht Hd Hr H' E1 E2]; subst.
  exists (after rest). split; [apply strtok_one; auto|apply tokens_after; auto].
Qed.
Lemma tokens_unique : forall d l ts, tokens d l ts -> forall us, tokens d l us -> ts = us.
Proof.
  intros d l ts. revert l. induction ts as [|t ts IH]; intros l H us K.
  - destruct us as [|u us]; [reflexivity|]. destruct (strtok_first d l u us K) as [rest [E _]]. inversion H as [g Hg|]; subst. rewrite strtok_none in E by exact Hg. discriminate.
  - destruct (strtok_first d l t ts H) as [rest [E H']]. destruct us as [|u us].
    + inversion K as [g Hg|]; subst. rewrite strtok_none in E by exact Hg. discriminate.
    + destruct (strtok_first d l u us K) as [rest' [E' K']]. rewrite E in E'. injection E' as -> ->. f_equal. apply (IH rest'); auto.
Qed.
(** the number of fields: a field begins at every other byte after the start or a blank *)
Fixpoint ntok (d : ascii -> bool) (b : bool) (l : bytes) : nat :=
  match l with
  | [] => 0
  | c :: t => if d c then ntok d true t else ((if b then 1 else 0) + ntok d false t)%nat
  end.
Fixpoint endb (d : ascii -> bool) (b : bool) (l : bytes) : bool := match l with [] => b | c :: t => endb d (d c) t end.
Lemma ntok_app : forall d l b r, ntok d b (l ++ r) = (ntok d b l + ntok d (endb d b l) r)%nat.
Proof. intros d. induction l as [|c l IH]; intros b r; cbn [app ntok endb]; [reflexivity|]. destruct (d c); rewrite IH; lia. Qed.
Lemma ntok_delims : forall d g b, (forall c, In c g -> d c = true) -> ntok d b g = 0%nat.
Proof. intros d. induction g as [|c g IH]; intros b H; cbn [ntok]; [reflexivity|]. rewrite (H c) by (left; auto). apply IH. intros; apply H; right; auto. Qed.
Lemma endb_delims : forall d g, (forall c, In c g -> d c = true) -> endb d true g = true.
Proof. intros d. induction g as [|c g IH]; intros H; cbn [endb]; [reflexivity|]. rewrite (H c) by (left; auto). apply IH. intros; apply H; right; auto. Qed.
Lemma ntok_solid : forall d t, (forall c, In c t -> d c = false) -> ntok d false t = 0%nat.
Proof. intros d. induction t as [|c g IH]; intros H; cbn [ntok]; [reflexivity|]. rewrite (H c) by (left; auto). apply IH. intros; apply H; right; auto. Qed.
Lemma ntok_swap : forall d r, (r = [] \/ exists c r', r = c :: r' /\ d c = true) -> forall b b', ntok d b r = ntok d b' r.
Proof. intros d r [->|[c [r' [-> Hc]]]] b b'; [reflexivity|]. cbn [ntok]. rewrite Hc. reflexivity. Qed.
Lemma ntok_tokens : forall d l ts, tokens d l ts -> ntok d true l = List.length ts.
Proof.
  intros d l ts H. induction H as [g Hg|g t rest ts Hg Ht Hd Hr H IH]; [apply ntok_delims, Hg|].
  rewrite ntok_app, endb_delims by exact Hg. rewrite ntok_delims by exact Hg. destruct t as [|c t]; [congruence|]. cbn [app ntok List.length]. rewrite (Hd c) by (left; auto).
  rewrite ntok_app, (ntok_swap d rest Hr _ true), IH, ntok_solid by (intros; apply Hd; right; auto). reflexivity.
Qed.
Lemma ntok_solid_only : forall d p, endb d false p = false -> ntok d false p = 0%nat -> forall c, In c p -> d c = false.
Proof.
  intros d. assert (Z : forall p, endb d true p = false -> ntok d true p <> 0%nat).
  { induction p as [|c p IH]; cbn [endb ntok]; intros E; [discriminate|]. destruct (d c) eqn:Ec; [apply IH, E|lia]. }
  induction p as [|c p IH]; intros E N c' []; cbn [endb ntok] in *.
  - subst c'. destruct (d c) eqn:Ec; [|reflexivity]. exfalso. apply (Z p); auto.
  - destruct (d c) eqn:Ec; [exfalso; apply (Z p); auto|]. apply IH; auto.
Qed.
(** A piece that begins with a field, in front of a line that does: if the number of fields stays the piece has no blank. *)
Lemma piece_solid : forall d pend l, (pend = [] \/ exists c r, pend = c :: r /\ d c = false) -> (exists c r, l = c :: r /\ d c = false) ->
  ntok d true (pend ++ l) = ntok d true l -> forall c, In c pend -> d c = false.
Proof.
  intros d pend l [->|[c0 [r [-> Hc]]]] [c1 [l' [-> Hl]]] E c Hin; [destruct Hin|].
  cbn [app ntok] in E. rewrite Hc, Hl in E. rewrite ntok_app in E. cbn [ntok] in E. rewrite Hl in E.
  destruct (endb d false r) eqn:Ee; [lia|]. destruct Hin as [<-|Hin]; [exact Hc|]. apply (ntok_solid_only d r Ee); [lia|exact Hin].
Qed.

(** ** counters *)
Fixpoint upfrom (a : Z) (n : nat) : list Z := match n with O => [] | Datatypes.S k => a :: upfrom (a + 1) k end.
Lemma upfrom_len : forall n a, List.length (upfrom a n) = n.
Proof. induction n as [|n IH]; intros a; [reflexivity|]. cbn [upfrom List.length]. rewrite IH. reflexivity. Qed.
Lemma upfrom_app : forall m n a, upfrom a (m + n) = upfrom a m ++ upfrom (a + Z.of_nat m) n.
Proof.
  induction m as [|m IH]; intros n a; cbn [Nat.add upfrom app]; [rewrite Z.add_0_r; reflexivity|]. rewrite IH. f_equal. f_equal. f_equal. lia.
Qed.
Lemma upfrom_in : forall n a x, In x (upfrom a n) <-> a <= x < a + Z.of_nat n.
Proof.
  induction n as [|n IH]; intros a x; cbn [upfrom In]; [lia|]. rewrite IH. lia.
Qed.
Lemma upfrom_split : forall n a l1 l2, upfrom a n = l1 ++ l2 -> l1 = upfrom a (List.length l1) /\ l2 = upfrom (a + Z.of_nat (List.length l1)) (List.length l2).
Proof.
  intros n a l1 l2 E. assert (En : n = (List.length l1 + List.length l2)%nat) by (rewrite <- app_length, <- E, upfrom_len; reflexivity).
  rewrite En, upfrom_app in E. assert (K : forall (a b c d : list Z), List.length a = List.length c -> a ++ b = c ++ d -> a = c /\ b = d).
  { clear. induction a as [|x a IH]; intros b [|y c] d L E; try discriminate L; cbn in *; [auto|]. injection E as -> E. injection L as L. destruct (IH b c d L E) as [-> ->]. auto. }
  destruct (K _ _ _ _ ltac:(rewrite upfrom_len; reflexivity) E) as [K1 K2]. auto.
Qed.

(** sessions of counters, each cut off *)
Inductive cutoff {X} : list (list X) -> list (list X) -> Prop :=
| cutoff_nil : cutoff [] []
| cutoff_cons : forall j g gs ks, cutoff gs ks -> cutoff (g :: gs) (firstn j g :: ks).
Lemma cutoff_map : forall {X Y} (f : X -> Y) gs ks, cutoff gs ks -> cutoff (map (map f) gs) (map (map f) ks).
Proof. induction 1 as [|j g gs ks H IH]; cbn [map]; [constructor|]. rewrite <- firstn_map. constructor. exact IH. Qed.
Lemma cutoff_in : forall {X} (gs ks : list (list X)), cutoff gs ks -> forall x, In x (concat ks) -> In x (concat gs).
Proof.
  induction 1 as [|j g gs ks H IH]; intros x Hx; [exact Hx|]. cbn [concat] in *. apply in_app_or in Hx. apply in_or_app. destruct Hx as [Hx|Hx]; [left|right; auto].
  rewrite <- (firstn_skipn j g). apply in_or_app. left. exact Hx.
Qed.
Lemma cutoff_len : forall {X} (gs ks : list (list X)), cutoff gs ks -> (List.length (concat ks) <= List.length (concat gs))%nat.
Proof. induction 1 as [|j g gs ks H IH]; [reflexivity|]. cbn [concat]. rewrite !app_length, firstn_length. lia. Qed.
Lemma cutoff_full : forall {X} (gs ks : list (list X)), cutoff gs ks -> (List.length (concat gs) <= List.length (concat ks))%nat -> ks = gs.
Proof.
  induction 1 as [|j g gs ks H IH]; intros L; [reflexivity|]. cbn [concat] in L. rewrite !app_length, firstn_length in L.
  pose proof (cutoff_len _ _ H) as K. f_equal; [apply firstn_all2; lia|apply IH; lia].
Qed.

(** If what is kept begins with 0 and goes on a', a' + 1, ... to the last counter, with a' at most the last of the second session, then everything was kept. *)
Lemma counters_whole : forall a n g1 gs ks a' m, 0 < a -> g1 <> [] -> concat (g1 :: gs) = upfrom a n ->
  cutoff ([0] :: g1 :: gs) ks -> concat ks = 0 :: upfrom a' m -> a' + Z.of_nat m = a + Z.of_nat n ->
  (0 < m)%nat -> a' < a + Z.of_nat (List.length g1) -> ks = [0] :: g1 :: gs.
Proof.
  intros a n g1 gs ks a' m Ha Hg EU HC EK Em Hm Hb. apply cutoff_full; [exact HC|]. rewrite EK.
  change (concat ([0] :: g1 :: gs)) with (0 :: concat (g1 :: gs)). rewrite EU. cbn [List.length]. rewrite !upfrom_len.
  inversion HC as [|j g gs' ks' HC' E1 E2]; subst. inversion HC' as [|j1 g' gs'' ks'' HC'' E1 E2]; subst.
  assert (P : forall x, In x (concat ks'') -> a + Z.of_nat (List.length g1) <= x).
  { intros x Hx. apply (cutoff_in _ _ HC'') in Hx. cbn [concat] in EU. symmetry in EU. apply upfrom_split in EU. destruct EU as [_ EU]. rewrite EU in Hx. apply upfrom_in in Hx. lia. }
  assert (E0 : concat (firstn j1 g1 :: ks'') = upfrom a' m).
  { destruct j as [|j]; cbn [firstn concat app] in EK.
    - exfalso. assert (H0 : In 0 (concat (firstn j1 g1 :: ks''))) by (cbn [concat]; rewrite EK; left; reflexivity).
      apply (cutoff_in _ _ (cutoff_cons j1 g1 gs ks'' HC'')) in H0. rewrite EU in H0. apply upfrom_in in H0. lia.
    - destruct j; cbn [firstn] in EK; injection EK as EK; exact EK. }
  cbn [concat] in EU. symmetry in EU. apply upfrom_split in EU. destruct EU as [Eg _].
  destruct j1 as [|j1].
  - exfalso. cbn [firstn concat app] in E0. assert (H1 : In a' (concat ks'')) by (rewrite E0; apply upfrom_in; lia). specialize (P _ H1). lia.
  - destruct g1 as [|x g1]; [congruence|]. cbn [List.length upfrom] in Eg. injection Eg as Ex _. cbn [firstn concat app] in E0. destruct m as [|m]; [lia|]. cbn [upfrom] in E0. injection E0 as E0 _. lia.
Qed.

(** ** newlines *)
Lemma unlines_end : forall g kept lost, unlines g = kept ++ lost -> nls lost = 0 -> lost = [].
Proof.
  intros g kept lost E N. destruct (rev lost) as [|c r] eqn:Er; [rewrite <- (rev_involutive lost), Er; reflexivity|]. exfalso.
  assert (El : lost = rev r ++ [c]) by (rewrite <- (rev_involutive lost), Er; reflexivity). subst lost.
  destruct g as [|l g] using rev_ind; [destruct kept; [destruct (rev r)|]; discriminate|].
  rewrite unlines_app in E. unfold unlines at 2 in E. cbn [map concat] in E. rewrite app_nil_r, !app_assoc in E. apply app_inj_tail in E. destruct E as [_ <-].
  rewrite nls_app in N. change (nls [NL]) with 1 in N. unfold nls in N. lia.
Qed.
(** If as many newlines are there as there were lines, nothing was lost. *)
Lemma lossy_count : forall gs t, Forall (Forall (fun l => ~ In NL l)) gs -> lossy (map unlines gs) t ->
  nls t <= Z.of_nat (List.length (concat gs)) /\ (nls t = Z.of_nat (List.length (concat gs)) -> t = unlines (concat gs)).
Proof.
  induction gs as [|g gs IH]; intros t C H; cbn [map] in H; inversion H as [|kept lost ps t' H' E1 E2]; subst.
  - split; [cbn; lia|reflexivity].
  - inversion C as [|? ? C1 C2]; subst. destruct (IH t' C2 H') as [K1 K2]. cbn [concat]. rewrite app_length, nls_app.
    pose proof (nls_unlines g C1) as N. rewrite <- E1, nls_app in N. assert (P : 0 <= nls lost) by (unfold nls; lia).
    unfold bytes in *. split; [lia|]. intros E.
    assert (L : lost = []) by (apply (unlines_end g kept); [auto|lia]). subst lost. rewrite app_nil_r in E1. rewrite unlines_app, <- E1, K2 by lia. reflexivity.
Qed.
