(** IEEE 754 binary64 instance of [Arith], from Flocq (one NaN, round to nearest even). *)
From Coq Require Import ZArith Bool Reals Lia Lra Psatz.
From Flocq Require Import Core IEEE754.BinarySingleNaN.
From Verif Require Import Base Arith.

Definition prec : Z := 53.
Definition emax : Z := 1024.

Global Instance prec_gt_0_53 : Prec_gt_0 prec.
Proof. reflexivity. Qed.
Global Instance prec_lt_emax_53 : Prec_lt_emax prec emax.
Proof. reflexivity. Qed.

Definition b64 := binary_float prec emax.
Definition b64_nan : b64 := B754_nan.

Definition bof (z : Z) : b64 := binary_normalize prec emax _ _ mode_NE z 0 false.

(** (double)n for the integer-valued result of floor / round *)
Definition bint (m : mode) (x : b64) : b64 := Bnearbyint m x.

Definition btrunc (x : b64) : option Z :=
  match x with
  | B754_zero _ => Some 0%Z
  | B754_finite _ _ _ _ => Some (Btrunc x)
  | _ => None
  end.

(** The library functions whose accuracy the C standard leaves open. *)
Record Libm : Type := mkLibm {
  l_exp : b64 -> b64;
  l_log : b64 -> b64;
  l_cos : b64 -> b64;
  l_sin : b64 -> b64;
  l_pow : b64 -> b64 -> b64
}.

Definition B64 (L : Libm) : Arith := {|
  num := b64;
  nof := bof;
  nadd := Bplus mode_NE; nsub := Bminus mode_NE; nmul := Bmult mode_NE; ndiv := Bdiv mode_NE;
  nopp := Bopp; nabs := Babs;
  nltb := Bltb; neqb := Beqb;
  nsqrt := Bsqrt mode_NE;
  nexp := l_exp L; nlog := l_log L; ncos := l_cos L; nsin := l_sin L; npow := l_pow L;
  nfloor := bint mode_DN;
  nround := bint mode_NA;
  ntrunc := btrunc
|}.
