(** data_loader.c: the data file.

    [atof] is a parameter; NULL to strtok/atof and stores outside the allocated block stop the run. *)
From Coq Require Import ZArith Ascii String List Bool Lia.
From Verif Require Import Base Arith Bytes Mh Prog Readin.
Import ListNotations.
Open Scope Z_scope.

(** the value -1 = EOF of a (signed) char *)
Definition xFF : ascii := ascii_of_nat 255.
(** get_nlines_of_file, data_loader.c:97-119: c is a char, so the byte 0xFF ends the loop 110-112 like the end of the file.
    getc(NULL) when the file cannot be opened. *)
Fixpoint count_nl (b : bytes) (line_number : Z) : res Z :=
  match b with
  | [] => OK line_number
  | c :: t => if ch c xFF then OK line_number
              else if ch c NL then (let* k := i32 (line_number + 1) in count_nl t k)
              else count_nl t line_number
  end.
Definition get_nlines (f : file_t) : res Z :=
  match f with None => Stop NullPtr | Some b => count_nl b 0 end.

Section Load.
Context {A : Arith}.
Notation num := (num A).
Variable atof : bytes -> num.
Variable delim : bytes.

(** the tokens of one line: data_loader.c:50-57 after the first one; [o]: what the last strtok returned, [rest]: its saved
    position.  atof(NULL) stops. *)
Definition store (arr : list (option num)) (iline ndim j : Z) (o : option (bytes * bytes)) : res (list (option num) * bytes) :=
  match o with
  | None => Stop NullPtr
  | Some (tok, rest) =>
      let* p := i32 (iline * ndim) in
      let* q := i32 (p + j) in
      let* arr' := zset arr q (Some (atof tok)) in OK (arr', rest)
  end.
Definition read_line (arr : list (option num)) (iline ndim : Z) (l : bytes) : res (list (option num)) :=
  let* (arr1, rest1) := store arr iline ndim 0 (strtok (is_delim delim) (cstr l)) in          (* 47-50 *)
  let* (arr2, rest2) := for_from (Z.to_nat (ndim - 1)) 1                                        (* 52-56 *)
       (fun j s => store (fst s) iline ndim j (strtok (is_delim delim) (snd s))) (arr1, rest1) in
  OK arr2.
(** read_data, data_loader.c:28-71: the loop 45-58 over the lines.  The caller ignores the returned status. *)
Fixpoint read_lines (arr : list (option num)) (iline ndim : Z) (ls : list bytes) : res (list (option num)) :=
  match ls with
  | [] => OK arr
  | l :: t => let* arr' := read_line arr iline ndim l in
              let* k := i32 (iline + 1) in
              read_lines arr' k ndim t
  end.
(** with the array of main.c:127, alloc_1d_double(nline_data*ndim_data).  All its cells are then broadcast (data_loader.c:24).
    For a negative number of cells malloc is asked for almost 2^64 bytes and returns NULL. *)
Definition read_data (f : file_t) (ndim nline : Z) : res (list num) :=
  let* size := i32 (nline * ndim) in
  match f with
  | None => Stop NullPtr
  | Some b => if size <? 0 then Stop NullPtr else let* arr := read_lines (fresh size) 0 ndim (lines b) in all_cells arr
  end.

Definition file_env (f : file_t) (ndim time : Z) : Env (A := A) := mkEnv (get_nlines f) (read_data f ndim) time.
End Load.
