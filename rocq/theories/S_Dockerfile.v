(** What a line of a text file is: specification for C127, with nothing of the model. *)
From Coq Require Import Arith NArith List.
Import ListNotations.
Open Scope N_scope.

(** Text without ends of lines. *)
Definition plain (l : list N) : Prop := forall c, In c l -> c <> 10 /\ c <> 13.
(** A file of terminated lines and text behind the last of them, which may be empty. *)
Definition file_of (lines : list (list N)) (last : list N) : list N :=
  concat (map (fun l => l ++ [10]) lines) ++ last.
(** Line [i] of the file, with its end. *)
Definition line_at (lines : list (list N)) (last : list N) (i : nat) : option (list N) :=
  if (i <? length lines)%nat then option_map (fun l => l ++ [10]) (nth_error lines i)
  else if (i =? length lines)%nat then match last with [] => None | _ => Some last end
  else None.
