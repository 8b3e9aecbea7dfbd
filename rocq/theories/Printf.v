(** printf of doubles, and the text of everything the program writes to its result files. *)
From Coq Require Import ZArith Ascii String List Bool Lia.
From Flocq Require Import IEEE754.BinarySingleNaN.
From Verif Require Import Base Arith B64 Bytes Mh Prog System.
Import ListNotations.
Open Scope Z_scope.
Open Scope list_scope.

(** ** conversions of a double (C11 7.21.6.1; the C library rounds the exact value to the nearest decimal, halves to even) *)

(** the integer nearest to p / q, halves to even *)
Definition rne (p q : Z) : Z :=
  let d := p / q in
  match 2 * (p mod q) ?= q with
  | Lt => d
  | Gt => d + 1
  | Eq => if Z.even d then d else d + 1
  end.
(** w digits, with leading zeros *)
Fixpoint padded (w : nat) (z : Z) (acc : bytes) : bytes :=
  match w with O => acc | S k => padded k (z / 10) (dchar (z mod 10) :: acc) end.
Definition ndig (z : Z) : Z := blen (dec z).
(** m * 2^e as a fraction *)
Definition frac (m : positive) (e : Z) : Z * Z := if 0 <=? e then (Zpos m * 2 ^ e, 1) else (Zpos m, 2 ^ (- e)).
(** the x with 10^x <= p / q < 10^(x+1) *)
Definition exp10 (p q : Z) : Z := if q <=? p then ndig (p / q) - 1 else - ndig ((q - 1) / p).
(** 13 significant digits d and the exponent of the first *)
Definition sci (p q : Z) : Z * Z :=
  let x := exp10 p q in
  let d := if x <=? 12 then rne (p * 10 ^ (12 - x)) q else rne p (q * 10 ^ (x - 12)) in
  if d =? 10 ^ 13 then (10 ^ 12, x + 1) else (d, x).
Definition minus (s : bool) : bytes := if s then lit "-" else [].
(** the exponent has a sign and at least two digits *)
Definition exp_text (x : Z) : bytes :=
  lit "e" ++ (if x <? 0 then lit "-" else lit "+") ++ (if Z.abs x <? 100 then padded 2 (Z.abs x) [] else dec (Z.abs x)).

Section Text.
(** the C library prints nan or -nan, by the sign bit of the NaN, which is not modelled *)
Variable nan_text : bytes.

(** "%.12e" *)
Definition print_e (x : b64) : bytes :=
  match x with
  | B754_zero s => minus s ++ lit "0.000000000000e+00"
  | B754_infinity s => minus s ++ lit "inf"
  | B754_nan => nan_text
  | B754_finite s m e _ =>
      let (p, q) := frac m e in
      let (d, k) := sci p q in
      minus s ++ [dchar (d / 10 ^ 12)] ++ lit "." ++ padded 12 (d mod 10 ^ 12) [] ++ exp_text k
  end.
(** "%lf" and "%f" *)
Definition print_f (x : b64) : bytes :=
  match x with
  | B754_zero s => minus s ++ lit "0.000000"
  | B754_infinity s => minus s ++ lit "inf"
  | B754_nan => nan_text
  | B754_finite s m e _ =>
      let (p, q) := frac m e in
      let k := rne (p * 10 ^ 6) q in
      minus s ++ dec (k / 10 ^ 6) ++ lit "." ++ padded 6 (k mod 10 ^ 6) []
  end.

(** ** lines *)
Context {L : Libm}.
Notation num := (num (B64 L)).
(** mpi_batch.c:446-463 and mpi_init.c:296-311: every field followed by two spaces *)
Definition row_line (r : crow (B64 L)) : bytes :=
  concat (map (fun x => print_e x ++ lit "  ") (r_parm r)) ++
  print_f (r_lp r) ++ lit "  " ++ dec (r_it r) ++ lit "  " ++ dec (r_acc r) ++ lit "  ".
(** mpi_flow.c:353-358 *)
Definition sigma_line (l : list num) : bytes := concat (map (fun x => print_e x ++ lit "   ") l).
(** mpi_stack.c:481-485 *)
Definition beta_line (l : list num) : bytes := concat (map (fun x => print_f x ++ lit " ") l).
(** mpi_init.c:259-267 *)
Definition init_line (i : nat) (l : list num) : bytes :=
  lit "init para set " ++ dec (Z.of_nat i) ++ lit ": " ++ concat (map (fun x => print_f x ++ lit " ") l).
(** mpi_init.c:231 *)
Definition seed_line (r : nat) (seed : Z) : bytes := lit "seed for rank " ++ dec (Z.of_nat r) ++ lit " is " ++ dec seed.
(** the lines of one append; each is followed by a newline *)
Definition event_lines (e : event (B64 L)) : list bytes :=
  match e with
  | EvDir => []
  | EvSeed r s => [seed_line r s]
  | EvInit rows => map (fun ir => init_line (fst ir) (snd ir)) (combine (seq 0 (List.length rows)) rows)
  | EvRow _ r => [row_line r]
  | EvSigma _ l => [sigma_line l]
  | EvBeta l => [beta_line l]
  end.
(** the bytes of file f after the appends t *)
Definition file_lines (f : fname) (t : list (nat * event (B64 L))) : list bytes := concat (map event_lines (file f t)).
Definition file_text (f : fname) (t : list (nat * event (B64 L))) : bytes := concat (map (fun l => l ++ [NL]) (file_lines f t)).
End Text.
