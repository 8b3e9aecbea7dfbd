(** The scripts of models/eggbox that turn a chain file into the counts of a picture. *)
From Coq Require Import ZArith Ascii String List Bool Reals Lia Lra.
From Flocq Require Import Core IEEE754.BinarySingleNaN.
From Verif Require Import Base Arith B64 Bytes Launch.
Import ListNotations.
Open Scope list_scope.
Open Scope Z_scope.

(** a run-time error of Python is None: IndexError, ValueError *)
Definition obind {X Y} (o : option X) (f : X -> option Y) : option Y := match o with Some x => f x | None => None end.

(** str.split().  Of the white space of Python only the bytes that occur in the files of the program. *)
Definition gap (c : ascii) : bool := ch c " "%char || ch c NL.
Definition split (l : bytes) : list bytes := pieces gap [] l.

Section Merge.
(** float(text); None: ValueError *)
Variable float : bytes -> option b64.
(** merge_lines.py:3, 31-36: the first n_parm = 2 fields *)
Definition two (l : bytes) : option (b64 * b64) :=
  match split l with a :: b :: _ => obind (float a) (fun x => obind (float b) (fun y => Some (x, y))) | _ => None end.
(** merge_lines.py:38: np.sum(np.abs(comp_arr[:,0]-comp_arr[:,1])) *)
Definition all_diff (p q : b64 * b64) : b64 :=
  Bplus mode_NE (Babs (Bminus mode_NE (fst p) (fst q))) (Babs (Bminus mode_NE (snd p) (snd q))).
(** merge_lines.py:20-46: the loop over the lines; what is written to chain3.d *)
Fixpoint loop (old : bytes) (ls : list bytes) : option (list bytes) :=
  match ls with
  | [] => Some []
  | l :: t => obind (two l) (fun p => obind (two old) (fun q => obind (loop l t) (fun out =>
      Some (if Bltb (bof 0) (all_diff p q) then l :: out else out))))
  end.
(** merge_lines.py:10-12: the first line is read, the file closed and opened again *)
Definition merge (f : bytes) : option (list bytes) := loop (nth 0 (lines f) []) (lines f).
End Merge.

(** sampling_static.py:11-19: dx = dy = (50.0-0.0)/100 *)
Definition dx : b64 := Bdiv mode_NE (Bminus mode_NE (bof 50) (bof 0)) (bof 100).
(** sampling_static.py:48-49: int(x/dx); None: ValueError, OverflowError *)
Definition ind (x : b64) : option Z := btrunc (Bdiv mode_NE x dx).
(** sampling_static.py:50: the index x_ind*y_dim+y_ind of an array of 10000 rows; negative ones count from the end *)
Definition place (x y : b64) : option Z :=
  obind (ind x) (fun i => obind (ind y) (fun j => let k := i * 100 + j in
    if (0 <=? k) && (k <? 10000) then Some k else if (-10000 <=? k) && (k <? 0) then Some (k + 10000) else None)).
(** sampling_static.py:47-50 *)
Fixpoint histogram (c : Z -> Z) (pts : list (b64 * b64)) : option (Z -> Z) :=
  match pts with
  | [] => Some c
  | (x, y) :: t => obind (place x y) (fun k => histogram (fun i => if i =? k then c i + 1 else c i) t)
  end.
