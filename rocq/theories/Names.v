(** The names of the output files. *)
From Coq Require Import ZArith Ascii String List Bool Lia.
From Verif Require Import Base Arith Mh Mpi Prog Seq System Bytes BytesFacts.
Import ListNotations.
Open Scope Z_scope.

(** snprintf(fname, size, ...): the text cut to size - 1 bytes.  char fname[Fout_Len] with Fout_Len <= 0 is undefined. *)
Definition snprintf (size : Z) (text : bytes) : res bytes :=
  if size <=? 0 then Stop BadSize else OK (firstn (Z.to_nat (size - 1)) text).

Section Names.
Variables (dir pre suf : bytes) (Fout_Len : Z).    (* results_dir, FoutPre, FoutSuf *)

Definition in_dir (name : bytes) : bytes := dir ++ lit "/" ++ name.
(** mpi_init.c:284-285 and mpi_batch.c:433-434 *)
Definition chain_text (r : nat) : bytes := in_dir (pre ++ dec (Z.of_nat r) ++ suf).
(** the name of each output file: mpi_flow.c:341-343, mpi_stack.c:468-470, mpi_init.c:247-248, 219-220 *)
Definition path_of (f : fname) : res bytes :=
  match f with
  | FChain r => snprintf Fout_Len (chain_text r)
  | FSigma r => snprintf 100 (in_dir (lit "gaussian_prop.chain" ++ dec (Z.of_nat r)))
  | FBeta => snprintf 100 (in_dir (lit "Beta_Values_in_stack.dat"))
  | FInit => snprintf Fout_Len (in_dir (lit "init.parm"))
  | FSeed => snprintf Fout_Len (in_dir (lit "init.randseed"))
  end.
(** the file an append goes to *)
Definition file_of {A} (e : event A) : option fname :=
  match e with
  | EvDir => None
  | EvSeed _ _ => Some FSeed
  | EvInit _ => Some FInit
  | EvRow r _ => Some (FChain r)
  | EvSigma r _ => Some (FSigma r)
  | EvBeta _ => Some FBeta
  end.
Definition same_name (p : bytes) (r : res bytes) : bool :=
  match r with OK q => if list_eq_dec ascii_dec p q then true else false | Stop _ => false end.
(** the lines of the file with the name p, after the appends t *)
Definition disk {A} (p : bytes) (t : list (nat * event A)) : list (event A) :=
  filter (fun e => match file_of e with Some f => same_name p (path_of f) | None => false end) (map snd t).

Definition fits_in (size : Z) (text : bytes) : Prop := blen text < size.
Lemma snprintf_fits : forall size text, fits_in size text -> snprintf size text = OK text.
Proof.
  intros size text H. unfold fits_in, blen in H. unfold snprintf. destruct (Z.leb_spec size 0); [lia|].
  rewrite firstn_all2 by lia. auto.
Qed.

(** all names of a run with n ranks fit *)
Definition all_fit (n : nat) : Prop :=
  (forall r, (r < n)%nat -> fits_in Fout_Len (chain_text r) /\ fits_in 100 (in_dir (lit "gaussian_prop.chain" ++ dec (Z.of_nat r)))) /\
  fits_in 100 (in_dir (lit "Beta_Values_in_stack.dat")) /\ fits_in Fout_Len (in_dir (lit "init.parm")) /\ fits_in Fout_Len (in_dir (lit "init.randseed")).
(** FoutPre is none of the words the other names start with, nor the beginning of one, nor a continuation *)
Definition apart (p q : bytes) : Prop := prefix p q = false /\ prefix q p = false.
Definition own_prefix : Prop := apart pre (lit "gaussian_prop.chain") /\ apart pre (lit "Beta_Values_in_stack.dat") /\
  apart pre (lit "init.parm") /\ apart pre (lit "init.randseed").

Definition valid_file (n : nat) (f : fname) : Prop := match f with FChain r => (r < n)%nat | FSigma r => (r < n)%nat | _ => True end.
Definition full (f : fname) : bytes :=
  match f with
  | FChain r => chain_text r
  | FSigma r => in_dir (lit "gaussian_prop.chain" ++ dec (Z.of_nat r))
  | FBeta => in_dir (lit "Beta_Values_in_stack.dat")
  | FInit => in_dir (lit "init.parm")
  | FSeed => in_dir (lit "init.randseed")
  end.
Lemma path_full : forall n f, all_fit n -> valid_file n f -> path_of f = OK (full f).
Proof.
  intros n f [H1 [H2 [H3 H4]]] Hv. destruct f; cbn [path_of full valid_file] in *; apply snprintf_fits; auto; apply H1; auto.
Qed.

Lemma in_dir_inj : forall a b, in_dir a = in_dir b -> a = b.
Proof. intros a b E. unfold in_dir in E. apply app_inv_head in E. apply app_inv_head in E. auto. Qed.
Lemma apart_ne : forall p q a b, apart p q -> p ++ a <> q ++ b.
Proof.
  induction p as [|c p IH]; intros q a b [H1 H2]; [discriminate|]. destruct q as [|d q]; [discriminate|].
  cbn [prefix] in *. cbn [app]. intros E. injection E as -> E. rewrite ch_refl in *. cbn [andb] in *. exact (IH q a b (conj H1 H2) E).
Qed.
Lemma apart_ne0 : forall p q a, apart p q -> p ++ a <> q.
Proof. intros p q a H E. apply (apart_ne p q a [] H). rewrite app_nil_r. auto. Qed.
Lemma dec_rank_inj : forall r q, dec (Z.of_nat r) = dec (Z.of_nat q) -> r = q.
Proof. intros r q E. apply dec_inj in E. lia. Qed.
Lemma full_inj : own_prefix -> forall f g, full f = full g -> f = g.
Proof.
  intros [A1 [A2 [A3 A4]]] f g E. destruct f, g; cbn [full] in E; auto; unfold chain_text in E; apply in_dir_inj in E;
    try (exfalso; revert E; first [exact (apart_ne _ _ _ _ A1)|exact (apart_ne0 _ _ _ A2)|exact (apart_ne0 _ _ _ A3)|exact (apart_ne0 _ _ _ A4)]; fail);
    try (exfalso; symmetry in E; revert E; first [exact (apart_ne _ _ _ _ A1)|exact (apart_ne0 _ _ _ A2)|exact (apart_ne0 _ _ _ A3)|exact (apart_ne0 _ _ _ A4)]; fail);
    try (exfalso; cbn in E; discriminate).
  - apply app_inv_head in E. apply app_inv_tail in E. f_equal. apply dec_rank_inj; auto.
  - apply app_inv_head in E. f_equal. apply dec_rank_inj; auto.
Qed.

(** with these the file of the name of f holds the lines of f *)
Lemma disk_file : forall {A} n, all_fit n -> own_prefix -> forall f, valid_file n f ->
  forall t : list (nat * event A), (forall r e, In (r, e) t -> forall g, file_of e = Some g -> valid_file n g) ->
  forall p, path_of f = OK p -> disk p t = file f t.
Proof.
  intros A n HF HO f Hv t Ht p Hp. rewrite (path_full n f HF Hv) in Hp. injection Hp as <-.
  unfold disk, file. apply filter_ext_in. intros e He. apply in_map_iff in He. destruct He as [[r e'] [<- Hin]]. cbn [snd] in *. rename e' into e.
  assert (W : forall g, file_of e = Some g -> same_name (full f) (path_of g) = true <-> f = g).
  { intros g Eg. rewrite (path_full n g HF (Ht r e Hin g Eg)). unfold same_name. destruct (list_eq_dec ascii_dec (full f) (full g)) as [K|K].
    - split; auto. intros _. apply full_inj; auto.
    - split; [discriminate|]. intros ->. congruence. }
  assert (V : in_file f e = true <-> file_of e = Some f).
  { destruct f, e; cbn; split; intros K; try discriminate; try rewrite Nat.eqb_eq in *; try congruence; auto. }
  destruct (file_of e) as [g|] eqn:Eg.
  - specialize (W g eq_refl). destruct (same_name (full f) (path_of g)), (in_file f e); auto.
    + assert (f = g) by (apply W; auto). subst. destruct V as [_ V]. discriminate (V eq_refl).
    + destruct V as [V _]. injection (V eq_refl) as ->. destruct W as [_ W]. discriminate (W eq_refl).
  - destruct (in_file f e); auto. destruct V as [V _]. discriminate (V eq_refl).
Qed.
End Names.
