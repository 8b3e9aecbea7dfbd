(** Byte strings and the C library functions used to read input.ini and the data file:
    getline, strstr, strtok, sscanf, printf("%d"). *)
From Coq Require Import ZArith Ascii String List Bool Lia.
From Verif Require Import Base.
Import ListNotations.
Open Scope Z_scope.

Definition bytes : Type := list ascii.
(** a C string literal *)
Definition lit (s : string) : bytes := list_ascii_of_string s.

Definition NUL : ascii := ascii_of_nat 0.
Definition NL : ascii := ascii_of_nat 10.
Definition COLON : ascii := ":"%char.
Definition ch (c d : ascii) : bool := Ascii.eqb c d.

(** the C string held by a buffer: everything before the first NUL *)
Fixpoint cstr (l : bytes) : bytes :=
  match l with [] => [] | c :: t => if ch c NUL then [] else c :: cstr t end.

(** the lines successive calls of getline return, each with its newline; the last one may have none *)
Fixpoint lines (f : bytes) : list bytes :=
  match f with
  | [] => []
  | c :: t => if ch c NL then [c] :: lines t
              else match lines t with [] => [[c]] | l :: ls => (c :: l) :: ls end
  end.

(** strncmp(p, l, strlen(p)) == 0 *)
Fixpoint prefix (p l : bytes) : bool :=
  match p, l with
  | [], _ => true
  | _, [] => false
  | a :: p', b :: l' => ch a b && prefix p' l'
  end.
(** strstr(l, p) != NULL *)
Fixpoint strstr (l p : bytes) : bool :=
  prefix p l || match l with [] => false | _ :: t => strstr t p end.

(** isspace in the C locale *)
Definition isspace (c : ascii) : bool := let k := nat_of_ascii c in Nat.eqb k 32 || (Nat.leb 9 k && Nat.leb k 13).
Definition digit (c : ascii) : option Z :=
  let k := Z.of_nat (nat_of_ascii c) in if (48 <=? k) && (k <=? 57) then Some (k - 48) else None.

Fixpoint skip_space (l : bytes) : bytes :=
  match l with [] => [] | c :: t => if isspace c then skip_space t else l end.

(** the value of the longest initial run of digits, added to 10^k * acc *)
Fixpoint digits (acc : Z) (l : bytes) : Z :=
  match l with
  | [] => acc
  | c :: t => match digit c with Some d => digits (10 * acc + d) t | None => acc end
  end.
(** %d and %u skip white space, accept one sign and need a digit.  The integer denoted, or a matching failure. *)
Definition unsigned_part (l : bytes) : option Z :=
  match l with
  | c :: _ => match digit c with Some _ => Some (digits 0 l) | None => None end
  | [] => None
  end.
Definition scan_int (l : bytes) : option Z :=
  match skip_space l with
  | c :: t => if ch c "-"%char then option_map Z.opp (unsigned_part t)
              else if ch c "+"%char then unsigned_part t else unsigned_part (c :: t)
  | [] => None
  end.

(** %s: the next run of bytes that are not white space; None: end of input *)
Fixpoint nonspace (l : bytes) : bytes :=
  match l with [] => [] | c :: t => if isspace c then [] else c :: nonspace t end.
Definition scan_word (l : bytes) : option bytes :=
  match nonspace (skip_space l) with [] => None | w => Some w end.

(** the part before the first byte of the set [d], and the rest from that byte on *)
Fixpoint upto (d : ascii -> bool) (l : bytes) : bytes * bytes :=
  match l with
  | [] => ([], [])
  | c :: t => if d c then ([], l) else let (a, b) := upto d t in (c :: a, b)
  end.

Definition DEST_SIZE : Z := 100.
Definition blen (l : bytes) : Z := Z.of_nat (List.length l).
(** storing the string s, with its NUL, in a buffer of DEST_SIZE bytes *)
Definition fits (s : bytes) : bool := blen s <? DEST_SIZE.

(** sscanf(line, "%[^:]:%X", dummy, &v) up to the conversion X.  [None]: a matching failure before X, v is left
    as it was.  dummy has DEST_SIZE bytes. *)
Definition after_colon (line : bytes) : res (option bytes) :=
  match upto (ch COLON) line with
  | ([], _) => OK None
  | (pre, rest) =>
      if fits pre then match rest with [] => OK None | _ :: t => OK (Some t) end
      else Stop OutOfBounds
  end.

(** the set of bytes of a delimiter string *)
Definition is_delim (delim : bytes) (c : ascii) : bool := existsb (ch c) delim.
Fixpoint skip_delim (d : ascii -> bool) (l : bytes) : bytes :=
  match l with [] => [] | c :: t => if d c then skip_delim d t else l end.
(** strtok on the string l, or strtok(NULL, .) when l is the saved rest: the token and the new rest *)
Definition strtok (d : ascii -> bool) (l : bytes) : option (bytes * bytes) :=
  match skip_delim d l with
  | [] => None
  | s => let (tok, rest) := upto d s in Some (tok, match rest with [] => [] | _ :: t => t end)
  end.

(** printf("%d"): decimal digits, least significant last *)
Definition dchar (d : Z) : ascii := ascii_of_nat (Z.to_nat (48 + d)).
Fixpoint dec_pos (fuel : nat) (z : Z) (acc : bytes) : bytes :=
  match fuel with
  | O => acc
  | S k => if z <? 10 then dchar z :: acc else dec_pos k (z / 10) (dchar (z mod 10) :: acc)
  end.
(** log2 z + 1 digits are enough *)
Definition dec (z : Z) : bytes :=
  if z <? 0 then "-"%char :: dec_pos (Z.to_nat (Z.log2 (- z) + 1)) (- z) []
  else dec_pos (Z.to_nat (Z.log2 z + 1)) z [].

