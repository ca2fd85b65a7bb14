(** Specification vocabulary for trees and terminals as text. *)
From Coq Require Import NArith List.
From Verif Require Import M_Base M_PyParseTree.
Import ListNotations.
Open Scope N_scope.

Section Trees.
  Context {V : Type}.
  (** The nodes of a tree, a node before or after those below it, children from left to right. *)
  Fixpoint nodes_first (t : ptree V) : list (ptree V) := let 'PNode _ cs := t in t :: flat_map nodes_first cs.
  Fixpoint nodes_last (t : ptree V) : list (ptree V) := let 'PNode _ cs := t in flat_map nodes_last cs ++ [t].
  (** The first child, and each further one with a blank after it. *)
  Definition run_together (texts : list (list N)) : list N :=
    match texts with
    | [] => []
    | x :: r => x ++ flat_map (fun y => y ++ [32]) r
    end.
  Fixpoint shown (name : V -> list N) (t : ptree V) : list N :=
    let 'PNode v cs := t in
    match cs, name v with
    | [], _ => name v
    | _, [] => run_together (map (shown name) cs)
    | _, _ => name v ++ [32; 91] ++ run_together (map (shown name) cs) ++ [93]
    end.
  (** [c] is a child of [n], and [n] occurs in [t]. *)
  Inductive occurs : ptree V -> ptree V -> Prop :=
  | occurs_here t : occurs t t
  | occurs_below v cs c t : In c cs -> occurs c t -> occurs (PNode v cs) t.
End Trees.

(** The number of nodes. *)
Fixpoint d_size (t : dtree) : N := let 'DNode _ cs := t in 1 + fold_right (fun c n => d_size c + n) 0 cs.

(** Text that can be printed: blank to tilde. *)
Definition printable (c : N) : Prop := 32 <= c <= 126.
(** Two lines of text; the second has marks below the columns from [a] to [b]. *)
Definition marks (a b : N) (second : list N) : Prop :=
  len second = b /\ forall i, i < b -> get second i = Some (if a <=? i then 94 else 32).
