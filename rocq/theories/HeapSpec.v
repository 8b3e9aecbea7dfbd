(** What each function of Heap.v needs and leaves. *)
From Coq Require Import ZArith List Bool Lia.
From Verif Require Import Heap HeapFacts.
Import ListNotations.
Open Scope Z_scope.
Open Scope hcmd.

Lemma upd_same : forall R v q, upd R v q v = q.
Proof. intros. unfold upd. destruct (pv_eq v v); congruence. Qed.
Lemma upd_other : forall R v w q, v <> w -> upd R v q w = R w.
Proof. intros. unfold upd. destruct (pv_eq v w); congruence. Qed.
Lemma req_refl : forall q, req_le q q.
Proof. intros [| |a b c]; cbn; auto. repeat split; lia. Qed.
Fixpoint dead (R : spec) (l : list pv) : Prop := match l with [] => True | v :: l' => R v = Dead /\ dead R l' end.

Ltac simp := repeat first [rewrite upd_same | rewrite upd_other by (discriminate || congruence)].
Ltac opend := repeat match goal with H : dead _ _ |- _ => cbn [dead] in H; decompose [and] H; clear H end.
Ltac look := idtac; simp; first [reflexivity | eassumption | congruence].
Ltac num := first [lia | nia].
Ltac mkdead := cbn [dead]; repeat split; look.
Ltac le_one := simp; repeat match goal with H : ?R ?v = _ |- context [?R ?v] => rewrite H end; cbn [req_le];
  first [exact I | repeat split; num | apply req_refl].
Ltac le_tac := let w := fresh "w" in intros w;
  repeat match goal with
    | H : ?v <> w |- context [upd _ ?v _ w] => rewrite (upd_other _ v w _ H)
    | |- context [upd _ ?v _ w] => destruct (pv_eq v w) as [<-|]; [le_one|]
    end;
  apply req_refl.
Lemma t_post : forall f f' R c Q Q0 l l0, trif f f' R c Q l -> l = l0 -> spec_le Q Q0 -> trif f f' R c Q0 l0.
Proof. intros f f' R c Q Q0 l l0 H -> L. eapply t_weak; [apply le_refl|eassumption|assumption]. Qed.
Ltac fin t := cbv beta; eapply t_post; [t|reflexivity|le_tac].
Ltac one := idtac;
  lazymatch goal with
  | |- trif _ _ _ Nop _ _ => apply t_nop; lia
  | |- trif _ _ _ (Do (Malloc _ _ _)) _ _ => first [eapply t_malloc; [lia|look|num|num] | eapply t_malloc_lost; [lia|look|num|num]]
  | |- trif _ _ _ (Do (Free _)) _ _ => first [eapply t_free; [lia|look] | eapply t_free_any; [lia|look]]
  | |- trif _ _ _ (Do (Free2 _)) _ _ => eapply t_free2; [lia|look|num]
  | |- trif _ _ _ (Do (SetNull _)) _ _ => first [eapply t_null; [lia|look] | eapply t_null_lost; [lia|look]]
  | |- trif _ _ _ (Do (Rd _ _ _)) _ _ => eapply t_rd; [lia|look|num|num|num]
  | |- trif _ _ _ (Do (Wr _ _ _)) _ _ => first [eapply t_wr_next; [lia|look|num|num|num] | eapply t_wr_old; [lia|look|num|num]]
  | |- trif _ _ _ (Do Open) _ _ => apply t_open
  | |- trif _ _ _ (Do Close) _ _ => apply t_close
  | |- trif _ _ _ (rd _ _) _ _ => unfold rd; one
  | |- trif _ _ _ (wr _ _) _ _ => unfold wr; one
  end.
Ltac sq := eapply t_then; [one|].
Ltac go := idtac; repeat sq; try one.
(** the last write of a cell that was already written *)
Ltac old := eapply t_wr_old; [lia|look|num|num].

Lemma t_for_up : forall f R v n1 n2 (g : Z -> Z) k0 lo hi c, f <= 1 -> lo <= hi -> R v = Up n1 n2 k0 -> g lo <= k0 ->
  (forall z, lo <= z < hi -> trif f f (upd R v (Up n1 n2 (g z))) (c z) (upd R v (Up n1 n2 (g (z + 1)))) []) ->
  trif f f R (For lo hi c) (upd R v (Up n1 n2 (g hi))) [].
Proof.
  intros f R v n1 n2 g k0 lo hi c Hf Hl HR Hg H. eapply t_weak; [|apply (t_for f Hf (fun z => upd R v (Up n1 n2 (g z)))); auto|apply le_refl].
  intros w. unfold upd. destruct (pv_eq v w) as [<-|]; [rewrite HR; cbn; repeat split; lia|apply le_refl].
Qed.
(** vectors and rows *)
Lemma t_rdvec : forall f R v m n1 k, f <= 1 -> R v = Up n1 1 k -> m <= n1 -> m <= k -> trif f f R (rdvec v m) R [].
Proof. intros. apply t_for_same; auto. intros. one. Qed.
Lemma t_wrvec_new : forall f R v m n1, f <= 1 -> R v = Up n1 1 0 -> 0 <= m <= n1 -> trif f f R (wrvec v m) (upd R v (Up n1 1 m)) [].
Proof. intros. apply (t_for_up f R v n1 1 (fun z => z) 0); try lia; auto. intros z Hz. fin one. Qed.
Lemma t_wrvec_old : forall f R v m n1 k, f <= 1 -> R v = Up n1 1 k -> m <= n1 -> trif f f R (wrvec v m) R [].
Proof. intros. apply t_for_same; auto. intros. unfold wr. old. Qed.
Lemma t_rdrow : forall f R v i m n1 n2 k, f <= 1 -> R v = Up n1 n2 k -> 0 <= i < n1 -> m <= n2 -> i * n2 + m <= k -> trif f f R (rdrow v i m) R [].
Proof. intros. apply t_for_same; auto. intros. one. Qed.
Lemma t_wrrow_new : forall f R v i m n1 n2, f <= 1 -> R v = Up n1 n2 (i * n2) -> 0 <= m <= n2 -> 0 <= i < n1 -> 
  trif f f R (wrrow v i m) (upd R v (Up n1 n2 (i * n2 + m))) [].
Proof. intros. apply (t_for_up f R v n1 n2 (fun z => i * n2 + z) (i * n2)); try lia; auto. intros z Hz. fin one. Qed.
Lemma t_wrrow_old : forall f R v i m n1 n2 k, f <= 1 -> R v = Up n1 n2 k -> m <= n2 -> 0 <= i < n1 -> trif f f R (wrrow v i m) R [].
Proof. intros. apply t_for_same; auto. intros. old. Qed.
Ltac rv := idtac; first [eapply t_rdvec; [lia|look|num|num] | eapply t_rdrow; [lia|look|num|num|num]].
Ltac vn := idtac; first [eapply t_wrvec_new; [lia|look|num] | eapply t_wrrow_new; [lia|look|num|num]].
Ltac vo := idtac; first [eapply t_wrvec_old; [lia|look|num] | eapply t_wrrow_old; [lia|look|num|num]].
Ltac sq1 t := eapply t_then; [t|].

(** *** readin.c *)
Section Readin.
Variable LL : Z.
Notation DESTU := (Up DEST 1 0).
Lemma DEST_eq : DEST = 100.
Proof. reflexivity. Qed.
Opaque DEST.
Lemma t_getline : forall R l, 0 <= l -> (exists m k, R line_buf = Up m 1 k) -> trif 1 1 R (get_line l) (upd R line_buf (Up (l + 1) 1 (l + 1))) [].
Proof. intros R l Hl [m [k HR]]. unfold get_line. fin ltac:(go; sq1 vn; rv). Qed.
(** an unspecified buffer of getline *)
Definition anybuf (R : spec) (s : hst) : Prop := exists m, 1 <= m /\ sat (upd R line_buf (Up m 1 0)) s.
Lemma t_lines : forall R t, tr (Many (Pick (fun l => 0 <= l <= LL) get_line)) t -> forall s, anybuf R s -> files s = 1 ->
  exists s', good 1 s t s' /\ anybuf R s' /\ lost s' = lost s /\ files s' = 1.
Proof.
  intros R t Ht. remember (Many (Pick (fun l => 0 <= l <= LL) get_line)) as c eqn:Ec. revert Ec. induction Ht; intros Ec s HS HF; try discriminate.
  - exists s. split; [apply good_nil; lia|]. auto.
  - injection Ec as ->. inversion Ht1 as [| | | | | | | | |? ? l ? Hl Hg]; subst.
    destruct HS as [m [Hm HS]].
    assert (T : trif 1 1 (upd R line_buf (Up m 1 0)) (get_line l) (upd R line_buf (Up (l + 1) 1 0)) []).
    { eapply t_post; [apply t_getline; [lia|exists m, 0; look]|reflexivity|le_tac]. }
    destruct (T _ Hg s HS HF) as [s1 [G1 [S1 [L1 F1]]]].
    destruct (IHHt2 eq_refl s1) as [s2 [G2 [S2 [L2 F2]]]]; auto. { exists (l + 1). split; [lia|]. auto. }
    exists s2. split; [eapply good_app; eauto|]. split; auto. split; auto. cbn in L1. congruence.
Qed.
(** a command after the loop over lines *)
Lemma t_many_lines : forall R c f' Q l m0, R line_buf = Up m0 1 0 -> 1 <= m0 -> (forall m, 1 <= m -> trif 1 f' (upd R line_buf (Up m 1 0)) c Q l) ->
  trif 1 f' R (Many (Pick (fun l => 0 <= l <= LL) get_line);; c) Q l.
Proof.
  intros R c f' Q l m0 HR Hm H t Ht s Hs E. inversion Ht as [| |? ? t1 t2 T1 T2| | | | | | |]; subst.
  destruct (t_lines R t1 T1 s) as [s1 [G1 [[m [Hm1 S1]] [L1 F1]]]]; auto.
  { exists m0. split; auto. intros v. unfold upd. destruct (pv_eq line_buf v) as [<-|]; [rewrite <- HR|]; apply Hs. }
  destruct (H m Hm1 t2 T2 s1 S1 F1) as [s2 [G2 [S2 [L2 F2]]]]. exists s2. split; [eapply good_app; eauto|]. split; auto. split; auto. congruence.
Qed.
Definition lostp (q : req) : list (pv * Z) := match q with Up a b _ => [(para_line, a * b)] | _ => [] end.
Lemma t_onepara : forall R, R line_buf = Dead -> R para_line <> Any -> trif 0 0 R (read_onepara LL) (upd R para_line DESTU) (lostp (R para_line)).
Proof.
  intros R HR HA. pose proof DEST_eq. unfold read_onepara.
  assert (Main : trif 1 0 (upd (upd R para_line DESTU) line_buf (Up 1 1 0))
    (Many (Pick (fun l => 0 <= l <= LL) get_line);;
     Pick (below DEST) (fun len => get_line len;; For 0 (len + 1) (fun k => rd line_buf k;; wr para_line k);;
       Many (Pick (fun l => 0 <= l <= LL) get_line);; Do Close;; Do (Free line_buf);; Do (SetNull line_buf);; rdvec para_line (len + 1)))
    (upd R para_line DESTU) []).
  { eapply t_many_lines; [look|lia|]. intros m Hm. apply t_pick. unfold below. intros len Hlen.
    eapply t_post with (Q := upd R para_line (Up DEST 1 (len + 1))). { sq1 ltac:(apply t_getline; [lia|eexists; eexists; look]).
    sq1 ltac:(eapply (t_for_up 1 _ para_line DEST 1 (fun z => z)); [lia|lia|look|lia|intros z Hz; fin go]).
    eapply t_weak; [|eapply (t_many_lines (upd (upd R para_line (Up DEST 1 (len + 1))) line_buf (Up (len + 1) 1 0)) _ _ (upd R para_line (Up DEST 1 (len + 1))) []); [look|lia|]|apply le_refl]. { le_tac. }
    intros m2 Hm2. fin ltac:(go; rv). } all: [> reflexivity|le_tac]. }
  destruct (R para_line) as [| |n1 n2 k] eqn:EP; cbn [lostp]; [|congruence|].
  - fin ltac:(sq; sq; sq; eapply t_weak; [|apply Main|apply le_refl]; le_tac).
  - fin ltac:(sq; sq; sq; eapply t_weak; [|apply Main|apply le_refl]; le_tac).
Qed.

Notation PL := (para_line, DEST).
Lemma t_onepara_dead : forall R, R line_buf = Dead -> R para_line = Dead -> trif 0 0 R (read_onepara LL) (upd R para_line DESTU) [].
Proof. intros R H1 H2. pose proof (t_onepara R H1 ltac:(congruence)) as T. rewrite H2 in T. exact T. Qed.
Lemma t_onepara_up : forall R k, R line_buf = Dead -> R para_line = Up DEST 1 k -> trif 0 0 R (read_onepara LL) (upd R para_line DESTU) [PL].
Proof. intros R k H1 H2. pose proof (t_onepara R H1 ltac:(congruence)) as T. rewrite H2 in T. unfold lostp in T. rewrite Z.mul_1_r in T. exact T. Qed.
Lemma t_calls_up : forall m R k, R line_buf = Dead -> R para_line = Up DEST 1 k -> 0 <= k -> trif 0 0 R (calls LL m) (upd R para_line DESTU) (repeat PL m).
Proof.
  induction m as [|m IH]; intros R k H1 H2 H3.
  - cbn. fin one.
  - cbn [calls repeat]. eapply t_post; [eapply t_then; [eapply t_onepara_up; look|eapply (IH _ 0); [look|look|lia]]|symmetry; apply repeat_cons|le_tac].
Qed.
Lemma t_calls : forall m R, R line_buf = Dead -> R para_line = Dead -> trif 0 0 R (calls LL (S m)) (upd R para_line DESTU) (repeat PL m).
Proof.
  intros m R H1 H2. cbn [calls]. eapply t_post; [eapply t_then; [eapply t_onepara_dead; look|eapply (t_calls_up _ _ 0); [look|look|lia]]|apply app_nil_r|le_tac].
Qed.
Lemma t_drop : forall R k, R para_line = Up DEST 1 k -> trif 0 0 R drop_para (upd R para_line Dead) [].
Proof. intros R k H. unfold drop_para. fin go. Qed.
Lemma t_scan_dead : forall R v, v <> para_line -> R line_buf = Dead -> R para_line = Dead -> R v = DESTU -> trif 0 0 R (scan_str LL v) (upd R para_line DESTU) [].
Proof.
  intros R v Hv H1 H2 H3. pose proof DEST_eq. unfold scan_str.
  fin ltac:(eapply t_then; [apply t_onepara_dead; look|]; apply t_pick; unfold below; intros l Hl; eapply t_wrvec_old; [lia|look|lia]).
Qed.
Lemma t_scan_up : forall R v k, v <> para_line -> R line_buf = Dead -> R para_line = Up DEST 1 k -> R v = DESTU -> trif 0 0 R (scan_str LL v) (upd R para_line DESTU) [PL].
Proof.
  intros R v k Hv H1 H2 H3. pose proof DEST_eq. unfold scan_str.
  fin ltac:(eapply t_then; [eapply t_onepara_up; look|]; apply t_pick; unfold below; intros l Hl; eapply t_wrvec_old; [lia|look|lia]).
Qed.
Lemma t_grid : forall R, R line_buf = Dead -> R para_line = Dead -> trif 0 0 R (read_chains_grid LL) R (repeat PL 8).
Proof. intros R H1 H2. unfold read_chains_grid. fin ltac:(sq1 ltac:(apply t_calls; look); eapply t_drop; look). Qed.
Lemma t_sampling : forall R, R line_buf = Dead -> R para_line = Dead -> trif 0 0 R (read_sampling_para LL) R (repeat PL 16).
Proof. intros R H1 H2. unfold read_sampling_para. fin ltac:(sq1 ltac:(apply t_calls; look); eapply t_drop; look). Qed.
Lemma t_range : forall R K, 1 <= K -> R line_buf = Dead -> R para_line = Dead -> trif 0 0 R (read_parm_range LL K) R (repeat PL (Z.to_nat (2 * K - 1))).
Proof.
  intros R K HK H1 H2. unfold read_parm_range. replace (Z.to_nat (2 * K)) with (S (Z.to_nat (2 * K - 1))) by lia.
  fin ltac:(sq1 ltac:(apply t_calls; look); eapply t_drop; look).
Qed.
Lemma t_out_name : forall R, dead R [line_buf; para_line; FoutPre; FoutSuf; results_dir] ->
  trif 0 0 R (read_chain_out_name LL) (upd (upd (upd R FoutPre DESTU) FoutSuf DESTU) results_dir DESTU) (repeat PL 3).
Proof.
  intros R H. pose proof DEST_eq. opend. unfold read_chain_out_name.
  fin ltac:(go; sq1 ltac:(apply t_onepara_dead; look); sq1 ltac:(eapply t_scan_up; [discriminate|look|look|look]); sq1 ltac:(eapply t_scan_up; [discriminate|look|look|look]);
    sq1 ltac:(eapply t_scan_up; [discriminate|look|look|look]); eapply t_drop; look).
Qed.
Lemma t_beta : forall R Nb, 0 <= Nb -> dead R [line_buf; para_line; Beta_Values] -> trif 0 0 R (read_beta_values LL Nb) (upd R Beta_Values (Up Nb 1 Nb)) [].
Proof.
  intros R Nb HN H. opend. unfold read_beta_values. fin ltac:(go; sq1 ltac:(apply t_onepara_dead; look); sq1 vn; eapply t_drop; look).
Qed.
Definition blankq (blank : bool) : req := if blank then Dead else DESTU.
Definition blankl (blank : bool) : list (pv * Z) := if blank then [(Delimiter, DEST)] else [].
Lemma t_data_desc : forall R blank, dead R [line_buf; para_line; Data_file; Delimiter] ->
  trif 0 0 R (read_data_desc LL blank) (upd (upd R Data_file DESTU) Delimiter (blankq blank)) (blankl blank ++ repeat PL 2).
Proof.
  intros R blank H. pose proof DEST_eq. opend. unfold read_data_desc. rewrite <- (Z.mul_1_r DEST) at 4.
  destruct blank; cbn [when blankq blankl].
  - fin ltac:(go; sq1 ltac:(apply t_scan_dead; [discriminate|look|look|look]); sq1 ltac:(eapply t_onepara_up; look);
      sq1 ltac:(eapply t_scan_up; [discriminate|look|look|look]); sq; eapply t_drop; look).
  - fin ltac:(go; sq1 ltac:(apply t_scan_dead; [discriminate|look|look|look]); sq1 ltac:(eapply t_onepara_up; look);
      sq1 ltac:(eapply t_scan_up; [discriminate|look|look|look]); sq; eapply t_drop; look).
Qed.
Definition ini_lost (blank : bool) : list (pv * Z) := repeat PL 16 ++ blankl blank ++ repeat PL 13.
Definition ini_spec (R : spec) (Nb : Z) (blank : bool) : spec :=
  upd (upd (upd (upd (upd (upd R FoutPre DESTU) FoutSuf DESTU) results_dir DESTU) Beta_Values (Up Nb 1 Nb)) Data_file DESTU) Delimiter (blankq blank).
Lemma t_ini : forall R Nb blank, 0 <= Nb -> dead R [line_buf; para_line; FoutPre; FoutSuf; results_dir; Data_file; Delimiter; Beta_Values] ->
  trif 0 0 R (read_input_ini LL Nb blank) (ini_spec R Nb blank) (ini_lost blank).
Proof.
  intros R Nb blank HN H. opend. unfold read_input_ini.
  eapply t_post; [sq1 ltac:(apply t_grid; look); sq1 ltac:(apply t_out_name; mkdead); sq1 ltac:(apply t_beta; [lia|mkdead]);
    sq1 ltac:(apply t_data_desc; mkdead); apply t_sampling; look|unfold ini_lost; cbn; rewrite <- !app_assoc; reflexivity|unfold ini_spec; le_tac].
Qed.
End Readin.
