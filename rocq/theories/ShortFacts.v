(** Input files that are cut short: what the readers of readin.c and data_loader.c make of them. *)
From Coq Require Import ZArith Ascii String List Bool Lia.
From Verif Require Import Base Arith Bytes BytesFacts Mh Prog Readin ReadFacts Loader LoadFacts.
Import ListNotations.
Open Scope Z_scope.
Open Scope list_scope.

(** [init_of l l']: l' is the beginning of l, of any length *)
Definition init_of (l l' : bytes) : Prop := exists r, l = l' ++ r.

(** the lines of the first j bytes: some lines of the file, and possibly the beginning of one more *)
Lemma lines_firstn : forall b j, exists k, lines (firstn j b) = firstn k (lines b) \/
  (exists p l, p <> [] /\ nth_error (lines b) k = Some l /\ init_of l p /\ lines (firstn j b) = firstn k (lines b) ++ [p]).
Proof.
  induction b as [|c b IH]; intros j.
  - exists O. left. destruct j; reflexivity.
  - destruct j as [|j]; [exists O; left; reflexivity|]. cbn [firstn lines]. destruct (IH j) as [k HK]. destruct (ch c NL) eqn:E.
    + exists (Datatypes.S k). destruct HK as [HK|[p [l [Hp [Hn [Hi HK]]]]]]; [left; cbn [firstn]; rewrite HK; auto|].
      right. exists p, l. split; [auto|]. split; [auto|]. split; [auto|]. cbn [firstn app]. rewrite HK. auto.
    + destruct HK as [HK|[p [l [Hp [Hn [Hi HK]]]]]].
      * rewrite HK. destruct k as [|k].
        -- cbn [firstn]. exists O. right. destruct (lines b) as [|l ls] eqn:El.
           ++ exists [c], [c]. split; [discriminate|]. split; [reflexivity|]. split; [exists []; reflexivity|reflexivity].
           ++ exists [c], (c :: l). split; [discriminate|]. split; [reflexivity|]. split; [exists l; reflexivity|reflexivity].
        -- destruct (lines b) as [|l ls] eqn:El.
           ++ cbn [firstn]. exists 1%nat. left. reflexivity.
           ++ cbn [firstn]. exists (Datatypes.S k). left. reflexivity.
      * rewrite HK. destruct k as [|k].
        -- cbn [firstn app]. exists O. right. destruct (lines b) as [|l0 ls]; [discriminate|]. cbn [nth_error] in Hn. injection Hn as ->.
           exists (c :: p), (c :: l). split; [discriminate|]. split; [reflexivity|]. split; [destruct Hi as [r ->]; exists r; reflexivity|reflexivity].
        -- destruct (lines b) as [|l0 ls]; [discriminate|]. cbn [firstn app]. exists (Datatypes.S k). right.
           exists p, l. split; [auto|]. split; [exact Hn|]. split; [auto|]. reflexivity.
Qed.

(** a file of whole lines of another file *)
Lemma lines_prefix : forall b k, lines (concat (firstn k (lines b))) = firstn k (lines b).
Proof.
  induction b as [|c b IH]; intros k; [destruct k; reflexivity|]. cbn [lines]. destruct (ch c NL) eqn:E.
  - destruct k as [|k]; [reflexivity|]. cbn [firstn concat app lines]. rewrite E, IH. reflexivity.
  - destruct k as [|k]; [reflexivity|]. specialize (IH (Datatypes.S k)).
    destruct (lines b) as [|l ls]; cbn [firstn concat app lines] in *; rewrite E.
    + rewrite firstn_nil in *. cbn [concat lines app] in *. reflexivity.
    + rewrite IH. reflexivity.
Qed.

Lemma cstr_init : forall l p, init_of l p -> init_of (cstr l) (cstr p).
Proof.
  intros l p [r ->]. induction p as [|c p IH]; [exists (cstr r); reflexivity|]. cbn [app cstr]. destruct (ch c NUL); [exists []; reflexivity|].
  destruct IH as [s Hs]. exists s. rewrite Hs. reflexivity.
Qed.
Lemma prefix_init : forall n p r, prefix n p = true -> prefix n (p ++ r) = true.
Proof.
  induction n as [|a n IH]; intros p r H; [reflexivity|]. destruct p as [|b p]; [discriminate|]. cbn [prefix app] in *.
  apply andb_true_iff in H as [H1 H2]. rewrite H1, IH; auto.
Qed.
Lemma strstr_init : forall l p n, init_of l p -> strstr p n = true -> strstr l n = true.
Proof.
  intros l p n [r ->] H. induction p as [|c p IH].
  - cbn [strstr app] in *. rewrite orb_false_r in H. destruct n; [|discriminate]. destruct r; reflexivity.
  - cbn [strstr app] in *. apply orb_true_iff in H. apply orb_true_iff. destruct H as [H|H]; [left; apply (prefix_init n (c :: p) r); auto|right; auto].
Qed.

Lemma firstn_split : forall {X} k (l : list X), l = firstn k l ++ skipn k l.
Proof. intros. symmetry. apply firstn_skipn. Qed.

(** the result of read_onepara, by the lines that hold the name *)
Lemma onepara_spec : forall b name,
  read_onepara (Some b) name =
    if forallb (fun l => fits (cstr l)) (filter (hit name) (lines b))
    then OK (match filter (hit name) (lines b) with [] => inl (NotFound name) | [l] => inr (cstr l) | _ => inl (Duplicate name) end)
    else Stop OutOfBounds.
Proof.
  intros b name. unfold read_onepara. rewrite scan_lines_spec. destruct (forallb _ _); [|reflexivity]. cbn [rbind].
  destruct (filter (hit name) (lines b)) as [|l [|l2 ls]]; [reflexivity|reflexivity|]. cbn [List.length].
  destruct (Z.ltb_spec 1 (0 + Z.of_nat (Datatypes.S (Datatypes.S (List.length ls))))); [reflexivity|lia].
Qed.

(** whole lines *)
Lemma onepara_lines : forall b k name l, read_onepara (Some b) name = OK (inr l) ->
  read_onepara (Some (concat (firstn k (lines b)))) name = OK (inr l) \/ read_onepara (Some (concat (firstn k (lines b)))) name = OK (inl (NotFound name)).
Proof.
  intros b k name l H. rewrite onepara_spec in *. rewrite lines_prefix.
  assert (E : filter (hit name) (lines b) = filter (hit name) (firstn k (lines b)) ++ filter (hit name) (skipn k (lines b)))
    by (rewrite <- filter_app, firstn_skipn; auto).
  destruct (filter (hit name) (firstn k (lines b))) as [|x xs] eqn:E1; [right; reflexivity|left].
  rewrite E in H. rewrite forallb_app in H. destruct (forallb _ (x :: xs)); [|discriminate]. cbn [andb] in H.
  destruct (forallb _ _); [|discriminate]. cbn [app] in H. destruct (xs ++ _) eqn:E2; [|discriminate].
  apply app_eq_nil in E2 as [-> _]. exact H.
Qed.
(** any number of bytes *)
Lemma onepara_bytes : forall b j name l, read_onepara (Some b) name = OK (inr l) ->
  (exists l', read_onepara (Some (firstn j b)) name = OK (inr l') /\ (l' = l \/
     (init_of l l' /\ exists u q, firstn j b = concat u ++ q /\ u = firstn (List.length u) (lines b) /\ cstr q = l'))) \/
  read_onepara (Some (firstn j b)) name = OK (inl (NotFound name)).
Proof.
  intros b j name l H. destruct (lines_firstn b j) as [k [HK|[p [lk [Hp [Hn [Hi HK]]]]]]].
  - assert (Ec : firstn j b = concat (firstn k (lines b))) by (rewrite <- HK; symmetry; apply lines_concat).
    rewrite Ec. destruct (onepara_lines b k name l H) as [G|G]; [left; exists l; auto|right; auto].
  - rewrite onepara_spec in *. rewrite HK.
    assert (E : filter (hit name) (lines b) = filter (hit name) (firstn k (lines b)) ++ filter (hit name) (skipn k (lines b)))
      by (rewrite <- filter_app, firstn_skipn; auto).
    assert (Es : skipn k (lines b) = lk :: skipn (Datatypes.S k) (lines b)).
    { clear - Hn. revert k Hn. induction (lines b) as [|x xs IH]; intros [|k] Hn; try discriminate; cbn in *; [injection Hn as ->; auto|apply IH; auto]. }
    rewrite Es in E. rewrite filter_app. rewrite E in H. clear E Es. cbn [filter] in *.
    destruct (hit name p) eqn:Ep.
    + assert (El : hit name lk = true) by (unfold hit in *; eapply strstr_init; [apply cstr_init; eauto|auto]).
      rewrite El in H. rewrite forallb_app in *. cbn [forallb] in *. destruct (forallb _ (filter _ (firstn k _))) eqn:E1; [|discriminate].
      destruct (fits (cstr lk)) eqn:Ef; [|discriminate]. cbn [andb] in *. destruct (forallb _ (filter _ (skipn _ _))); [|discriminate].
      destruct (filter (hit name) (firstn k (lines b))) as [|x xs]; [|destruct xs; discriminate]. cbn [app] in *.
      destruct (filter (hit name) (skipn (Datatypes.S k) (lines b))); [|discriminate]. injection H as <-. left.
      assert (Fp : fits (cstr p) = true).
      { unfold fits, blen in *. destruct (cstr_init _ _ Hi) as [r Hr]. rewrite Hr in Ef. rewrite app_length in Ef. apply Z.ltb_lt in Ef. apply Z.ltb_lt. lia. }
      rewrite Fp. cbn [andb]. exists (cstr p). split; [reflexivity|]. right. split; [apply cstr_init; auto|].
      exists (firstn k (lines b)), p. split; [|split; [|reflexivity]].
      * rewrite <- (lines_concat (firstn j b)), HK, concat_app. cbn [concat]. rewrite app_nil_r. reflexivity.
      * assert (Hk : (k < List.length (lines b))%nat) by (apply nth_error_Some; congruence).
        rewrite firstn_length. f_equal. lia.
    + rewrite app_nil_r. rewrite forallb_app in H. destruct (filter (hit name) (firstn k (lines b))) as [|x xs] eqn:E1; [right; reflexivity|left].
      destruct (forallb _ (x :: xs)); [|discriminate]. cbn [andb] in H. destruct (forallb _ _); [|discriminate]. cbn [app] in H.
      exists l. split; [|auto]. destruct xs as [|y ys]; [|discriminate]. cbn [app] in H.
      destruct (if hit name lk then _ else _); [exact H|discriminate].
Qed.

(** the value read, or a stop on the NULL pointer *)
Definition same_or_null {X} (a a' : res X) : Prop := forall v, a = OK v -> a' = OK v \/ a' = Stop NullPtr.
Lemma son_refl : forall {X} (a : res X), same_or_null a a.
Proof. intros X a v H; auto. Qed.
Lemma son_bind : forall {X Y} (a a' : res X) (f f' : X -> res Y), same_or_null a a' -> (forall v, same_or_null (f v) (f' v)) ->
  same_or_null (rbind a f) (rbind a' f').
Proof.
  intros X Y a a' f f' H Hf v E. destruct a as [x|e]; [|discriminate]. cbn [rbind] in E. destruct (H x eq_refl) as [-> | ->]; [|right; reflexivity].
  cbn [rbind]. apply Hf; auto.
Qed.

(** [f'] has the first lines of [f] *)
Definition whole_lines (f f' : file_t) : Prop := exists b k, f = Some b /\ f' = Some (concat (firstn k (lines b))).
Lemma son_scan : forall f f' name, whole_lines f f' -> same_or_null (to_scan f name) (to_scan f' name).
Proof.
  intros f f' name [b [k [-> ->]]] v H. unfold to_scan in *. destruct (read_onepara (Some b) (lit name)) as [[m|l]|e] eqn:E; try discriminate.
  cbn [rbind] in H. destruct (onepara_lines b k _ _ E) as [-> | ->]; [left; exact H|right; reflexivity].
Qed.
Section Vals.
Context {A : Arith}.
Notation num := (num A).
Variable scan_lf : bytes -> option num.
Variable atof : bytes -> num.
Variables f f' : file_t.
Hypothesis W : whole_lines f f'.
Lemma son_d : forall name, same_or_null (read_d f name) (read_d f' name).
Proof. intros. apply son_bind; [apply son_scan; auto|intros; apply son_refl]. Qed.
Lemma son_u : forall name, same_or_null (read_u f name) (read_u f' name).
Proof. intros. apply son_bind; [apply son_scan; auto|intros; apply son_refl]. Qed.
Lemma son_s : forall name, same_or_null (read_s f name) (read_s f' name).
Proof. intros. apply son_bind; [apply son_scan; auto|intros; apply son_refl]. Qed.
Lemma son_f : forall name, same_or_null (read_f scan_lf f name) (read_f scan_lf f' name).
Proof. intros. apply son_bind; [apply son_scan; auto|intros; apply son_refl]. Qed.
Lemma son_delim : same_or_null (read_delim f) (read_delim f').
Proof. apply son_bind; [apply son_s|intros; apply son_refl]. Qed.
Lemma son_betas : forall n, same_or_null (read_beta_values atof f n) (read_beta_values atof f' n).
Proof.
  intros n v H. unfold read_beta_values in *. destruct W as [b [k [-> ->]]]. destruct (read_onepara (Some b) (lit "Beta_Values")) as [[m|l]|e] eqn:E; try discriminate.
  destruct (onepara_lines b k _ _ E) as [-> | ->]; [left; exact H|right; reflexivity].
Qed.
End Vals.

(** readin.c opens the file anew for every entry (readin.c:95), so each entry can meet another failure: [src key] is what the
    call for [key] gets to see.  Otherwise read_input_ini of Readin.v. *)
Section From.
Context {A : Arith}.
Variable scan_lf : bytes -> option (num A).
Variable atof : bytes -> num A.
Definition read_input_ini_from (src : string -> file_t) : res (ini (A := A)) :=
  let* N_parm := read_d (src "N_parm"%string) "N_parm" in
  let* N_iter := read_d (src "N_iter"%string) "N_iter" in
  let* N_stoptune := read_d (src "N_stoptune"%string) "N_stoptune" in
  let* N_begintune := read_d (src "N_begintune"%string) "N_begintune" in
  let* Tune_Ladder := read_d (src "Tune_Ladder"%string) "Tune_Ladder" in
  let* N_stopTuneLadder := read_d (src "N_stopTuneLadder"%string) "N_stopTuneLadder" in
  let* scale_tune_ladder := read_f scan_lf (src "scale_tune_ladder"%string) "scale_tune_ladder" in
  let* zero_stretch := read_f scan_lf (src "zero_stretch"%string) "zero_stretch" in
  let* N_beta := read_d (src "N_beta"%string) "N_beta" in
  let* Fout_Len := read_d (src "Fout_Len"%string) "Fout_Len" in
  let* FoutPre := read_s (src "FoutPre"%string) "FoutPre" in
  let* FoutSuf := read_s (src "FoutSuf"%string) "FoutSuf" in
  let* results_dir := read_s (src "results_dir"%string) "results_dir" in
  let* Beta_Values := read_beta_values atof (src "Beta_Values"%string) N_beta in
  let* Data_file := read_s (src "Data_file"%string) "Data_file" in
  let* ndim_data := read_d (src "ndim_data"%string) "ndim_data" in
  let* Delimiter := read_delim (src "Delimiter"%string) in
  let* init_gp_ratio := read_f scan_lf (src "init_gp_ratio"%string) "init_gp_ratio" in
  let* init_rand_seed := read_u (src "init_rand_seed"%string) "init_rand_seed" in
  let* i_save_begin := read_u (src "i_save_begin"%string) "i_save_begin" in
  let* n_iter_a_stack := read_d (src "n_iter_a_stack"%string) "n_iter_a_stack" in
  let* n_iter_a_batch_base := read_d (src "n_iter_a_batch_base"%string) "n_iter_a_batch_base" in
  let* n_iter_a_batch_rand := read_d (src "n_iter_a_batch_rand"%string) "n_iter_a_batch_rand" in
  let* n_iter_in_tune := read_d (src "n_iter_in_tune"%string) "n_iter_in_tune" in
  let* ar_ok_lower := read_f scan_lf (src "ar_ok_lower"%string) "ar_ok_lower" in
  let* ar_ok_upper := read_f scan_lf (src "ar_ok_upper"%string) "ar_ok_upper" in
  let* ar_best := read_f scan_lf (src "ar_best"%string) "ar_best" in
  let* ar_accept_diff := read_f scan_lf (src "ar_accept_diff"%string) "ar_accept_diff" in
  let* sigma_scale_half_ratio := read_f scan_lf (src "sigma_scale_half_ratio"%string) "sigma_scale_half_ratio" in
  let* sigma_scale_min := read_f scan_lf (src "sigma_scale_min"%string) "sigma_scale_min" in
  let* sigma_scale_max := read_f scan_lf (src "sigma_scale_max"%string) "sigma_scale_max" in
  let* sigma_jumpin_ratio := read_f scan_lf (src "sigma_jumpin_ratio"%string) "sigma_jumpin_ratio" in
  let* N_swap := read_d (src "N_swap"%string) "N_swap" in
  let* Swapmode := read_d (src "Swapmode"%string) "Swapmode" in
  OK (mkIni N_parm N_iter N_stoptune N_begintune Tune_Ladder N_stopTuneLadder scale_tune_ladder zero_stretch N_beta
        Fout_Len FoutPre FoutSuf results_dir Beta_Values Data_file ndim_data Delimiter init_gp_ratio init_rand_seed
        i_save_begin n_iter_a_stack n_iter_a_batch_base n_iter_a_batch_rand n_iter_in_tune ar_ok_lower ar_ok_upper
        ar_best ar_accept_diff sigma_scale_half_ratio sigma_scale_min sigma_scale_max sigma_jumpin_ratio N_swap Swapmode).
Lemma from_one : forall f, read_input_ini_from (fun _ => f) = read_input_ini scan_lf atof f.
Proof. reflexivity. Qed.
Fixpoint read_parm_range_from (src : string -> file_t) (keys : list (string * string)) : res (list (num A * num A)) :=
  match keys with
  | [] => OK []
  | (kmin, kmax) :: t =>
      let* lo := read_f scan_lf (src kmin) kmin in
      let* hi := read_f scan_lf (src kmax) kmax in
      let* r := read_parm_range_from src t in OK ((lo, hi) :: r)
  end.
Lemma range_one : forall f keys, read_parm_range_from (fun _ => f) keys = read_parm_range scan_lf f keys.
Proof. intros f keys. induction keys as [|[a b] t IH]; [reflexivity|]. cbn [read_parm_range_from read_parm_range]. rewrite IH. reflexivity. Qed.
Lemma son_ini : forall f src, (forall k, whole_lines f (src k)) -> same_or_null (read_input_ini scan_lf atof f) (read_input_ini_from src).
Proof.
  intros f src W. unfold read_input_ini, read_input_ini_from.
  repeat (apply son_bind; [first [apply son_d; apply W|apply son_u; apply W|apply son_s; apply W|apply son_f; apply W|apply son_delim; apply W|apply son_betas; apply W]|intros ?]).
  apply son_refl.
Qed.
Lemma son_range : forall f src keys, (forall k, whole_lines f (src k)) -> same_or_null (read_parm_range scan_lf f keys) (read_parm_range_from src keys).
Proof.
  intros f src keys W. induction keys as [|[a b] t IH]; [apply son_refl|]. cbn [read_parm_range_from read_parm_range].
  apply son_bind; [apply son_f; apply W|intros ?]. apply son_bind; [apply son_f; apply W|intros ?]. apply son_bind; [exact IH|intros ?]. apply son_refl.
Qed.
End From.

(** ** the data file *)
Section Data.
Context {A : Arith}.
Notation num := (num A).
Variables (atof : bytes -> num) (delim : bytes).
Lemma read_lines_part : forall ndim, 1 <= ndim -> forall ls tss D iline m, Forall2 (good delim ndim) ls tss -> 0 <= iline ->
  Z.of_nat (List.length D) = iline * ndim -> (iline + Z.of_nat (List.length ls)) * ndim <= INT_MAX ->
  read_lines atof delim (filled D (List.length ls * Z.to_nat ndim + m)) iline ndim ls = OK (filled (D ++ concat (map (row_of atof ndim) tss)) m).
Proof.
  intros ndim Hn ls. induction ls as [|l ls IH]; intros tss D iline m HF Hi HD Hb; inversion HF; subst.
  - cbn. rewrite app_nil_r. auto.
  - destruct H1 as [HT Hl]. cbn [read_lines List.length] in *.
    replace (Datatypes.S (List.length ls) * Z.to_nat ndim + m)%nat with (Z.to_nat ndim + (List.length ls * Z.to_nat ndim + m))%nat by lia.
    rewrite (read_line_ok atof delim D _ l y iline ndim) by (auto; nia). cbn [rbind].
    rewrite i32_ok by (unfold INT_MIN; nia). cbn [rbind].
    rewrite (IH l' _ (iline + 1)); auto; try lia.
    + f_equal. f_equal. rewrite <- app_assoc. reflexivity.
    + rewrite app_length, Nat2Z.inj_add, HD. fold (row_of atof ndim y). rewrite row_len by lia. lia.
Qed.
Lemma all_cells_hole : forall (D : list num) m, all_cells (filled D (Datatypes.S m)) = Stop Uninit.
Proof. intros D m. unfold filled. induction D as [|x D IH]; [reflexivity|]. cbn [map app all_cells cell rbind] in *. rewrite IH. reflexivity. Qed.
Lemma rows_length : forall ndim ls tss, 0 <= ndim -> Forall2 (good delim ndim) ls tss ->
  List.length (concat (map (row_of atof ndim) tss)) = (List.length ls * Z.to_nat ndim)%nat.
Proof.
  intros ndim ls tss Hn H. induction H as [|l ts ls tss [_ Hg] H IH]; [reflexivity|]. cbn [map concat List.length]. rewrite app_length, IH.
  pose proof (row_len atof ndim ts). lia.
Qed.
End Data.
