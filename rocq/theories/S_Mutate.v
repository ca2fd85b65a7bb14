(** Specification vocabulary for the tools that check cavities. *)
From Coq Require Import NArith ZArith List Bool.
From Verif Require Import M_Base M_PyMutate.
Import ListNotations.
Open Scope Z_scope.

(** The cavities that are to be mutated: those listed for the file, without the first [skip], and
    no more than [limit] (-1: all).  A cavity is given by its first and its last offset. *)
Definition listed (nm : name) (csv : list row) : list (Z * Z) :=
  flat_map (fun r : row => let '(n, a, b) := r in if name_eqb n nm then [(a, b)] else []) csv.
Definition selected (limit skip : Z) (l : list (Z * Z)) : list (Z * Z) :=
  let l' := skipn (Z.to_nat skip) l in if limit =? -1 then l' else firstn (Z.to_nat limit) l'.
Definition in_cavity (o : N) (c : Z * Z) : Prop := fst c <= Z.of_N o <= snd c.
Definition disjoint (c d : Z * Z) : Prop := snd c < fst d \/ snd d < fst c.

(** What the methods do to byte [o] of a cavity [a, b], the [j]th that is mutated. *)
Definition new_byte (m : method) (data : list N) (j : nat) (a b : Z) (o : N) : option N :=
  match m with
  | MZero => Some 0%N
  | MRandom rnd => Some (rnd (Z.of_nat j) (Z.to_nat (Z.of_N o - a)))
  | MReverse => get data (Z.to_N (a + b - Z.of_N o))
  | MFlip => option_map (fun x => (255 - x)%N) (get data o)
  end.
