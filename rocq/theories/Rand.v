(** Random numbers: the POSIX generator and rand_func.c. *)
From Coq Require Import ZArith List Bool Lia.
From Verif Require Import Base Arith.
Open Scope Z_scope.

(** POSIX drand48: X' = (0x5DEECE66D * X + 0xB) mod 2^48; the returned double is X' / 2^48. *)
Definition RMOD : Z := 281474976710656. (* 2^48 *)
Definition LCG_A : Z := 25214903917.
Definition LCG_C : Z := 11.
Definition lcg (x : Z) : Z := (LCG_A * x + LCG_C) mod RMOD.

(** POSIX srand48(seed): high 32 bits are the low 32 bits of the seed, low 16 bits are 0x330E. *)
Definition srand48 (seed : Z) : Z := (seed mod UINT_MOD) * 65536 + 13070.

Section RandFunc.
Context {A : Arith}.

(** drand48(), on the generator state; X'/2^48 is exact in binary64. *)
Definition drand48 (g : Z) : num A * Z := let g' := lcg g in (ndiv (nof g') (nof RMOD), g').

(** rand_func.c:36 [const double r8_pi = 3.141592653589793] *)
Definition r8_pi : num A := nlit 3141592653589793 15.

(** rand_func.c:32-44 *)
Definition r8_normal_01 (g : Z) : num A * Z :=
  let (r1, g1) := drand48 g in
  let (r2, g2) := drand48 g1 in
  (nmul (nsqrt (nmul (nopp (nof 2)) (nlog r1))) (ncos (nmul (nmul (nof 2) r8_pi) r2)), g2).

(** rand_func.c:69-76 *)
Definition r8_normal_ab (a b : num A) (g : Z) : num A * Z :=
  let (x, g') := r8_normal_01 g in (nadd a (nmul b x), g').

(** rand_func.c:100-112 *)
Definition r8_logunif_ab (a b : num A) (g : Z) : num A * Z :=
  let (u, g') := drand48 g in (nmul a (nexp (nmul u (nlog (ndiv b a)))), g').

(** rand_func.c:132-143 *)
Definition r8_unif_ab (a b : num A) (g : Z) : num A * Z :=
  let (u, g') := drand48 g in (nadd (nmul u (nsub b a)) a, g').

(** rand_func.c:159-170: [value = round(u*(double)(b-a))+a]; b-a is an int
    subtraction, the addition is in double, then conversion to int. *)
Definition i4_unif_ab (a b : Z) (g : Z) : res (Z * Z) :=
  let (u, g') := drand48 g in
  let* d := i32 (b - a) in
  let* v := n2i (nadd (nround (nmul u (nof d))) (nof a : num A)) in
  OK (v, g').

(** rand_func.c:185-196: [value = floor(u*(double)(a))] *)
Definition i4_unif_0a (a : Z) (g : Z) : res (Z * Z) :=
  let (u, g') := drand48 g in
  let* v := n2i (nfloor (nmul u (nof a : num A))) in
  OK (v, g').

(** rand_func.c:200-206 *)
Definition normal_pdf (x mean sd : num A) : num A :=
  let a := ndiv (nsub x mean) sd in
  nmul (ndiv (nlit 3989422804014327 16) sd)
       (nexp (nmul (nmul (nopp (nlit 5 1)) a) a)).

End RandFunc.
