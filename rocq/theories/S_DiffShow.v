(** Specification: what a user sees of a difference. *)
From Coq Require Import NArith ZArith List Bool.
From Verif Require Import M_Base M_PyTaints M_PyDiff M_PyDiffShow S_PyTaints S_Diff.
Import ListNotations.
Open Scope N_scope.

(** The bytes of a file from [a] up to [b]. *)
Definition slice (content : list N) (a b : N) : list N := firstn (N.to_nat (b - a)) (skipn (N.to_nat a) content).
(** [n] characters of a line after the first [k]. *)
Definition part (text : list N) (k n : N) : list N := firstn (N.to_nat n) (skipn (N.to_nat k) text).
(** The text of bytes. *)
Definition text_of (bytes : list N) : list N := flat_map render bytes.
