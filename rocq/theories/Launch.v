(** mjob.sh: how many processes are started.  The same script is in models/rastrigin, multi_gaussian, curved_likelihood and eggbox;
    prep.sh copies it to the other models. *)
From Coq Require Import ZArith Ascii String List Bool Lia.
From Verif Require Import Base Bytes.
Import ListNotations.
Open Scope list_scope.
Open Scope Z_scope.

(** blanks of awk's default FS and of the shell's default IFS *)
Definition blank (c : ascii) : bool := ch c " "%char || ch c (ascii_of_nat 9) || ch c NL.
(** the maximal pieces without bytes of sp; cur: the piece that is being read *)
Fixpoint pieces (sp : ascii -> bool) (cur l : bytes) : list bytes :=
  match l with
  | [] => match cur with [] => [] | _ => [cur] end
  | c :: t => if sp c then match cur with [] => pieces sp [] t | _ => cur :: pieces sp [] t end else pieces sp (cur ++ [c]) t
  end.
Definition words (l : bytes) : list bytes := pieces blank [] l.
(** grep "N_beta" input.ini (mjob.sh:10) on a text file: without NUL, in the C locale *)
Definition grep (key f : bytes) : list bytes := filter (fun l => strstr l key) (lines f).
(** awk '{print$2}' (mjob.sh:10): one line for each line, empty without a second field *)
Definition awk2 (ls : list bytes) : bytes := List.concat (map (fun l => nth 1 (words l) [] ++ [NL]) ls).
(** the backquotes drop the newlines at the end, which the splitting of the unquoted $NUM does as well; the arguments of
    $MPIRUN -n $NUM ./$OBJ (mjob.sh:23).  Pathname expansion is left out. *)
Definition argv (f : bytes) : list bytes := [lit "mpirun"; lit "-n"] ++ words (awk2 (grep (lit "N_beta") f)) ++ [lit "./a.out"].
(** mpirun -n takes a decimal number *)
Definition numeral (w : bytes) : option Z :=
  match w with [] => None | _ => if forallb (fun c => match digit c with Some _ => true | None => false end) w then Some (digits 0 w) else None end.
(** the number of processes that run a.out; None: mpirun is not told a number, or runs something else *)
Definition processes (f : bytes) : option Z :=
  match argv f with
  | [_; _; w; _] => numeral w
  | _ => None
  end.
