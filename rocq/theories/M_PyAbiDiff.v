(** polytracker/scripts/track_list_diff.py: conflicts between two ABI lists.
    Simplifications: a file is the text Python decodes it to, with its line ends already turned
    into "\n"; the two paths name different files, and both exist (120-126); what is printed
    besides the conflicts (137) is left out. *)
From Coq Require Import NArith ZArith List Bool String.
From Verif Require Import M_Base M_PyBuild.
Import ListNotations.
Open Scope N_scope.
Open Scope list_scope.

(** ** Python strings *)
(** file.readlines: the lines with their line ends; a line is never empty. *)
Fixpoint readlines (t : str) : list str :=
  match t with
  | [] => []
  | c :: r =>
      if c =? 10 then [c] :: readlines r
      else match readlines r with [] => [[c]] | l :: ls => (c :: l) :: ls end
  end.
(** str.split(c): the pieces between occurrences of [c]; at least one. *)
Fixpoint split (c : N) (s : str) : list str :=
  match s with
  | [] => [[]]
  | x :: r =>
      if x =? c then [] :: split c r
      else match split c r with [] => [[x]] | p :: ps => (x :: p) :: ps end
  end.
(** str.isspace of one character. *)
Definition is_space (c : N) : bool :=
  ((9 <=? c) && (c <=? 13)) || ((28 <=? c) && (c <=? 32)) || (c =? 133) || (c =? 160) || (c =? 5760) ||
  ((8192 <=? c) && (c <=? 8202)) || (c =? 8232) || (c =? 8233) || (c =? 8239) || (c =? 8287) || (c =? 12288).
Fixpoint lstrip (s : str) : str :=
  match s with
  | [] => []
  | c :: r => if is_space c then lstrip r else s
  end.
(** str.strip() *)
Definition strip (s : str) : str := rev (lstrip (rev (lstrip s))).

(** ** Lines *)
(** Lines 37-40: nothing for a line that does not start with "f"; otherwise name and value
    around the only "=" after the fourth character, or ValueError. *)
Definition definition_of (line : str) : Res (option (str * str)) :=
  match line with
  | 102 :: _ =>
      match split 61 (skipn 4 line) with
      | [fname; val] => Ok (Some (fname, val))
      | _ => Exit
      end
  | _ => Ok None
  end.
Definition w_uninst : str := lit "uninstrumented".

(** ** analyze_abi_file *)
(** file_conflicts: a name, and whether it was for several attributes (45) or a redefinition
    (48).  func_attrs: a name and its list of attributes, in order of insertion. *)
Definition conflicts := list (str * bool).
Definition attrs := list (str * list str).
Fixpoint lookup {V} (n : str) (d : list (str * V)) : option V :=
  match d with
  | [] => None
  | (k, v) :: r => if str_eqb n k then Some v else lookup n r
  end.
(** dict.__setitem__: a key keeps its place. *)
Fixpoint store {V} (n : str) (v : V) (d : list (str * V)) : list (str * V) :=
  match d with
  | [] => [(n, v)]
  | (k, w) :: r => if str_eqb n k then (k, v) :: r else (k, w) :: store n v r
  end.
Definition mem (x : str) (l : list str) : bool := existsb (str_eqb x) l.

(** Lines 36-50. *)
Definition analyze_line (st : conflicts * attrs) (line : str) : Res (conflicts * attrs) :=
  let (cs, fs) := st in
  do def <- definition_of line;
  match def with
  | None => Ok st
  | Some (fname, val0) =>
      let val := strip val0 in
      if str_eqb val w_uninst then Ok st
      else match lookup fname fs with
           | Some vals => Ok (store fname (negb (mem val vals)) cs, fs)
           | None => Ok (cs, store fname [val] fs)
           end
  end.
Fixpoint analyze_lines (st : conflicts * attrs) (lines : list str) : Res (conflicts * attrs) :=
  match lines with
  | [] => Ok st
  | l :: r => do st' <- analyze_line st l; analyze_lines st' r
  end.
(** analyze_abi_file, 30-51. *)
Definition analyze_abi_file (text : str) : Res (conflicts * attrs) := analyze_lines ([], []) (readlines text).

(** list_diff, 60-66. *)
Definition list_diff (a b : list str) : bool :=
  negb (Nat.eqb (List.length a) (List.length b)) || existsb (fun x => negb (mem x b)) a.

(** ** auto_resolve_conflicts *)
(** Lines 81-86. *)
Fixpoint resolve_lines (diff : list str) (lines : list str) : Res (list str) :=
  match lines with
  | [] => Ok []
  | l :: r =>
      do def <- definition_of l;
      do r' <- resolve_lines diff r;
      Ok (match def with
          | Some (fname, _) => if mem fname diff then 35 :: l else l
          | None => l
          end :: r')
  end.
(** auto_resolve_conflicts, 78-89: seek, write and truncate replace the contents. *)
Definition auto_resolve_conflicts (text : str) (diff : list str) : Res str :=
  do ls <- resolve_lines diff (readlines text); Ok (List.concat ls).

(** ** main *)
(** diff_conflicts, 130-135. *)
Definition diff_conflicts (f1 f2 : attrs) : list str :=
  map fst (filter (fun p => match lookup (fst p) f2 with Some v => list_diff (snd p) v | None => false end) f1).

(** The exit status, both files afterwards, and the conflicts that are printed. *)
Record outcome := mkOutcome {
  o_status : N; o_one : str; o_two : str; o_conflicts1 : conflicts; o_conflicts2 : conflicts; o_diff : list str }.
(** main, 128-168. *)
Definition diff_main (one two : str) (choose_file : option Z) : Res outcome :=
  do a1 <- analyze_abi_file one;
  do a2 <- analyze_abi_file two;
  let diff := diff_conflicts (snd a1) (snd a2) in
  match choose_file with
  | Some f =>
      if negb (f =? 1)%Z && negb (f =? 2)%Z then Ok (mkOutcome 1 one two [] [] [])
      else if (f =? 1)%Z then do two' <- auto_resolve_conflicts two diff; Ok (mkOutcome 0 one two' [] [] [])
      else do one' <- auto_resolve_conflicts one diff; Ok (mkOutcome 0 one' two [] [] [])
  | None =>
      let found := negb (Nat.eqb (List.length (fst a1)) 0) || negb (Nat.eqb (List.length (fst a2)) 0) || negb (Nat.eqb (List.length diff) 0) in
      Ok (mkOutcome (if found then 1 else 0) one two (fst a1) (fst a2) diff)
  end.
