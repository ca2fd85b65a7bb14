(** Vocabulary for paths: texts made of pieces with slashes between them. *)
From Coq Require Import NArith List.
Import ListNotations.

Fixpoint joined_by (c : N) (ps : list (list N)) : list N :=
  match ps with
  | [] => []
  | [p] => p
  | p :: rest => p ++ c :: joined_by c rest
  end.
(** A piece that names something: not empty and not ".". *)
Definition names_something (p : list N) : Prop := p <> [] /\ p <> [46%N].
(** [l] is what is left of [ps] without the other pieces, in the same order. *)
Inductive kept : list (list N) -> list (list N) -> Prop :=
| kept_nil : kept [] []
| kept_take p ps l : names_something p -> kept ps l -> kept (p :: ps) (p :: l)
| kept_drop p ps l : ~ names_something p -> kept ps l -> kept (p :: ps) l.
