(** Model of Dockerfile, polytracker/containerization.py (32-79): the number of lines of a
    file and the line at which a command stands.  Files are lists of bytes; text is taken to be
    ASCII, so that a byte is a character. *)
From Coq Require Import NArith List Bool.
From Verif Require Import M_Base.
Import ListNotations.
Open Scope N_scope.

(** 46-57: the offsets behind the newlines, for a file read from [offset] on. *)
Fixpoint newlines (offset : nat) (f : list N) : list nat :=
  match f with
  | [] => []
  | c :: r => if c =? 10 then S offset :: newlines (S offset) r else newlines (S offset) r
  end.
(** 47-48, 56: _line_offsets, the offset of line i at index i. *)
Definition line_offsets (f : list N) : list nat := 0%nat :: newlines 0 f.
(** __len__, 43-58. *)
Definition num_lines (f : list N) : nat := length (newlines 0 f).

(** 67: a file opened as text has \r\n and \r read as \n (Python's universal newlines). *)
Fixpoint universal (after_cr : bool) (s : list N) : list N :=
  match s with
  | [] => []
  | c :: r =>
      if c =? 13 then 10 :: universal true r
      else if (c =? 10) && after_cr then universal false r
      else c :: universal false r
  end.
(** 71: all lines readline returns, with their ends. *)
Fixpoint readlines (s : list N) : list (list N) :=
  match s with
  | [] => []
  | c :: r =>
      if c =? 10 then [10] :: readlines r
      else match readlines r with [] => [[c]] | l :: ls => (c :: l) :: ls end
  end.

Fixpoint text_eqb (a b : list N) : bool :=
  match a, b with
  | [], [] => true
  | x :: a', y :: b' => (x =? y) && text_eqb a' b'
  | _, _ => false
  end.
(** 69-77: the number of the first line equal to the command. *)
Fixpoint search (lines : list (list N)) (command : list N) (number : nat) : option nat :=
  match lines with
  | [] => None
  | l :: r => if text_eqb l command then Some number else search r command (S number)
  end.
(** get_line, 60-78. *)
Definition get_line (f command : list N) (start : nat) : option nat :=
  match nth_error (line_offsets f) start with
  | None => None
  | Some o => search (readlines (universal false (skipn o f))) command start
  end.
