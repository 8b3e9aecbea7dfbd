(** The shipped configuration files, read by the model. *)
From Coq Require Import ZArith String List Ascii Bool Lia.
From Verif Require Import Base Arith Bytes Mh Prog Readin Loader Inputs SeqTotal Demo.
Import ListNotations.
Open Scope Z_scope.

(** plain decimal numbers  [sign] digits [ . digits ] : a version of strtod for the examples *)
Definition frac (l : bytes) : Z * Z :=       (* value of the digits, their number *)
  (fix go (l : bytes) (a k : Z) := match l with [] => (a, k) | c :: t => match digit c with Some d => go t (10 * a + d) (k + 1) | None => (a, k) end end) l 0 0.
Fixpoint skip_digits (l : bytes) : bytes := match l with [] => [] | c :: t => match digit c with Some _ => skip_digits t | None => l end end.
Definition dec_abs {A : Arith} (neg : bool) (l : bytes) : option (num A) :=
  match unsigned_part l with
  | None => None
  | Some m =>
      let sg z := if neg then - z else z in
      match skip_digits l with
      | c :: t => if ch c "."%char then (let (f, k) := frac t in if k =? 0 then Some (nof (sg m)) else Some (nlit (sg (m * 10 ^ k + f)) k)) else Some (nof (sg m))
      | [] => Some (nof (sg m))
      end
  end.
Definition dec_lf {A : Arith} (l : bytes) : option (num A) :=
  match skip_space l with
  | c :: t => if ch c "-"%char then dec_abs true t else if ch c "+"%char then dec_abs false t else dec_abs false (c :: t)
  | [] => None
  end.
Definition dec_atof {A : Arith} (l : bytes) : num A := match dec_lf l with Some v => v | None => nof 0 end.

Section S.
Context {A : Arith}.
Variable scan_lf : bytes -> option (num A).
Variable atof : bytes -> num A.
Definition boot (f : bytes) : res (ini (A := A)) := read_input_ini scan_lf atof (Some f).
End S.
Lemma shipped_demo : forall A, exists i, boot (A := A) dec_lf dec_atof ini_regression = OK i /\ ini_cfg i = demo_cfg A.
Proof. intros A. eexists. split; [vm_compute; reflexivity|]. reflexivity. Qed.

(** the files that can be used, with their numbers of ranks *)
Definition usable : list (bytes * nat) :=
  [(ini_regression, 4); (ini_curved, 4); (ini_multi_gaussian, 5); (ini_rastrigin_TLTB, 4); (ini_rastrigin, 4); (ini_rastrigin_noL, 4);
   (ini_rastrigin_no, 4)]%nat.
Lemma usable_ok : forall A scan_lf atof f n, In (f, n) usable -> exists i, boot (A := A) scan_lf atof f = OK i /\
  i_N_beta i = Z.of_nat n /\ ValidCfg (ini_cfg i) n /\ 1 <= i_ndim_data i /\
  i_FoutPre i <> None /\ i_FoutSuf i <> None /\ i_results_dir i <> None /\ i_Data_file i <> None.
Proof.
  intros A scan_lf atof f n H. cbn [usable In] in H.
  repeat (destruct H as [H|H]; [injection H as <- <-; eexists; split; [vm_compute; reflexivity|]; split; [reflexivity|]; split;
    [constructor; cbn; try (vm_compute; intuition discriminate); try lia|]; split; [vm_compute; discriminate|]; repeat split; discriminate|]).
  destruct H.
Qed.
Lemma eggbox_stop : forall A scan_lf atof, boot (A := A) scan_lf atof ini_eggbox = Stop IntOverflow.
Proof. intros. vm_compute. reflexivity. Qed.
Lemma fit_orbit_stop : forall A scan_lf atof, boot (A := A) scan_lf atof ini_fit_orbit = Stop NullPtr.
Proof. intros. vm_compute. reflexivity. Qed.
Lemma hier_R_stop : forall A scan_lf atof, boot (A := A) scan_lf atof ini_hier_R = Stop NullPtr.
Proof. intros. vm_compute. reflexivity. Qed.
