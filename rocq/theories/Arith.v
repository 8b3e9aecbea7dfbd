(** The double-precision operations used by the C code, as a record.

    The sampler is transcribed over this record, so that the same transcription
    can be read over IEEE binary64 ([B64.v]) and over the reals ([RArith]). *)
From Coq Require Import ZArith Bool Reals Lia Lra.
From Verif Require Import Base.

Record Arith : Type := mkArith {
  num : Type;
  nof : Z -> num;                      (* (double) of an int *)
  nadd : num -> num -> num;
  nsub : num -> num -> num;
  nmul : num -> num -> num;
  ndiv : num -> num -> num;
  nopp : num -> num;                   (* unary minus *)
  nabs : num -> num;                   (* fabs *)
  nltb : num -> num -> bool;           (* a < b *)
  neqb : num -> num -> bool;           (* a == b; false on NaN *)
  nsqrt : num -> num;
  nexp : num -> num;
  nlog : num -> num;
  ncos : num -> num;
  nsin : num -> num;
  npow : num -> num -> num;
  nfloor : num -> num;                 (* floor *)
  nround : num -> num;                 (* round: halves away from zero *)
  ntrunc : num -> option Z             (* truncation towards zero; None on NaN and infinities *)
}.

Arguments nof {a}. Arguments nadd {a}. Arguments nsub {a}. Arguments nmul {a}.
Arguments ndiv {a}. Arguments nopp {a}. Arguments nabs {a}. Arguments nltb {a}.
Arguments neqb {a}. Arguments nsqrt {a}. Arguments nexp {a}. Arguments nlog {a}.
Arguments ncos {a}. Arguments nsin {a}. Arguments npow {a}. Arguments nfloor {a}.
Arguments nround {a}. Arguments ntrunc {a}.

(** A decimal literal m * 10^-e of the source.  Division of two exactly
    representable integers is the correctly rounded value, i.e. what the
    compiler stores, as long as m < 2^53 and e <= 22. *)
Definition nlit {A : Arith} (m : Z) (e : Z) : num A := ndiv (nof m) (nof (10 ^ e)).

(** isnan(x), as x != x *)
Definition nnan {A : Arith} (x : num A) : bool := negb (neqb x x).

(** C99 fmax / fmin: a NaN operand is ignored. *)
Definition nfmax {A : Arith} (x y : num A) : num A :=
  if nnan x then y else if nnan y then x else if nltb x y then y else x.
Definition nfmin {A : Arith} (x y : num A) : num A :=
  if nnan x then y else if nnan y then x else if nltb y x then y else x.

(** Conversion of a double to int: undefined when the truncated value does not fit (C11 6.3.1.4). *)
Definition n2i {A : Arith} (x : num A) : res Z :=
  match ntrunc x with
  | Some z => if (INT_MIN <=? z)%Z && (z <=? INT_MAX)%Z then OK z else Stop BadConv
  | None => Stop BadConv
  end.

(** ** The exact-real instance. *)
Open Scope R_scope.

Definition Rltb (x y : R) : bool := if Rlt_dec x y then true else false.
Definition Reqb (x y : R) : bool := if Req_EM_T x y then true else false.

Lemma Rltb_true : forall x y, Rltb x y = true <-> x < y.
Proof. intros; unfold Rltb; destruct (Rlt_dec x y); intuition; discriminate. Qed.
Lemma Rltb_false : forall x y, Rltb x y = false <-> y <= x.
Proof.
  intros; unfold Rltb; destruct (Rlt_dec x y); split; intros; try discriminate; auto; lra.
Qed.
Lemma Reqb_true : forall x y, Reqb x y = true <-> x = y.
Proof. intros; unfold Reqb; destruct (Req_EM_T x y); intuition; discriminate. Qed.
Lemma Reqb_refl : forall x, Reqb x x = true.
Proof. intros; apply Reqb_true; auto. Qed.

(** floor as the integer part: [Int_part] of the standard library (up r - 1). *)
Definition Rfloor (x : R) : Z := Int_part x.
(** round half away from zero *)
Definition Rround_away (x : R) : Z :=
  if Rltb x 0 then (- Int_part (- x + /2))%Z else Int_part (x + /2).
Definition Rtrunc (x : R) : Z := if Rltb x 0 then (- Int_part (- x))%Z else Int_part x.

(** pow: a base that is not positive with an integer exponent is a product; with another exponent C gives NaN or zero and the value 0
    here has no meaning *)
Definition Rcpow (x y : R) : R :=
  if Rltb 0 x then Rpower x y else if Reqb y (IZR (Int_part y)) then powerRZ x (Int_part y) else 0.

Definition RArith : Arith := {|
  num := R;
  nof := IZR;
  nadd := Rplus; nsub := Rminus; nmul := Rmult; ndiv := Rdiv;
  nopp := Ropp; nabs := Rabs;
  nltb := Rltb; neqb := Reqb;
  nsqrt := sqrt; nexp := exp; nlog := ln; ncos := cos; nsin := sin; npow := Rcpow;
  nfloor := fun x => IZR (Rfloor x);
  nround := fun x => IZR (Rround_away x);
  ntrunc := fun x => Some (Rtrunc x)
|}.

Lemma Int_part_spec : forall r, IZR (Int_part r) <= r < IZR (Int_part r) + 1.
Proof. intros r. destruct (base_Int_part r). lra. Qed.

Lemma Int_part_IZR_eq : forall z, Int_part (IZR z) = z.
Proof.
  intros z. pose proof (Int_part_spec (IZR z)) as [H1 H2].
  apply le_IZR in H1. rewrite <- plus_IZR in H2. apply lt_IZR in H2. lia.
Qed.

Lemma Int_part_bounds : forall r a b, IZR a <= r < IZR b -> (a <= Int_part r < b)%Z.
Proof.
  intros r a b [Ha Hb]. pose proof (Int_part_spec r) as [H1 H2]. split.
  - assert (a < Int_part r + 1)%Z. { apply lt_IZR. rewrite plus_IZR. lra. } lia.
  - apply lt_IZR. lra.
Qed.

Lemma Rcpow_2 : forall x, Rcpow x 2 = x * x.
Proof.
  intros x. unfold Rcpow. destruct (Rltb 0 x) eqn:E.
  - apply Rltb_true in E. replace 2 with (1 + 1) by ring. rewrite Rpower_plus, Rpower_1 by auto. reflexivity.
  - rewrite (Int_part_IZR_eq 2), Reqb_refl. simpl. ring.
Qed.

Lemma Rtrunc_IZR : forall z, Rtrunc (IZR z) = z.
Proof.
  intros z. unfold Rtrunc. destruct (Rltb (IZR z) 0).
  - rewrite <- opp_IZR, Int_part_IZR_eq. lia.
  - apply Int_part_IZR_eq.
Qed.

Lemma nnan_R : forall x : num RArith, nnan x = false.
Proof. intros. unfold nnan. simpl. rewrite Reqb_refl. auto. Qed.

Lemma nfmax_R : forall x y : num RArith, nfmax x y = Rmax x y.
Proof.
  intros. unfold nfmax. rewrite !nnan_R. simpl. unfold Rltb, Rmax.
  destruct (Rlt_dec x y), (Rle_dec x y); lra.
Qed.
Lemma nfmin_R : forall x y : num RArith, nfmin x y = Rmin x y.
Proof.
  intros. unfold nfmin. rewrite !nnan_R. simpl. unfold Rltb, Rmin.
  destruct (Rlt_dec y x), (Rle_dec x y); lra.
Qed.
