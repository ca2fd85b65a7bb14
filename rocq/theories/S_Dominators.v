(** Specification vocabulary for graphs: walks, distances, domination. *)
From Coq Require Import ZArith List.
Import ListNotations.

(** A walk along edges, with all the nodes it visits, both ends included. *)
Inductive walk (es : list (Z * Z)) : Z -> list Z -> Z -> Prop :=
| walk_here a : walk es a [a] a
| walk_on a b c l : In (a, b) es -> walk es b l c -> walk es a (a :: l) c.

(** There is a walk of any length, the empty one included. *)
Definition reaches (es : list (Z * Z)) (a b : Z) : Prop := exists l, walk es a l b.
(** The least number of edges of a walk is [n]. *)
Definition distance (es : list (Z * Z)) (a b : Z) (n : nat) : Prop :=
  (exists l, walk es a l b /\ length l = S n) /\ forall l, walk es a l b -> S n <= length l.

(** Every walk from the root [r] to [n] visits [d]. *)
Definition dominates (es : list (Z * Z)) (r d n : Z) : Prop := forall l, walk es r l n -> In d l.
Definition strictly_dominates es r d n := dominates es r d n /\ d <> n.
(** ... and [d] is the closest such node. *)
Definition immediately_dominates es r d n :=
  strictly_dominates es r d n /\ forall e, strictly_dominates es r e n -> dominates es r e d.

(** [l] lists exactly the members of [P], once each. *)
Definition lists {A} (P : A -> Prop) (l : list A) : Prop := NoDup l /\ forall x, In x l <-> P x.
(** Whatever is earlier in [l] is related by [R] to what is later. *)
Fixpoint in_order {A} (R : A -> A -> Prop) (l : list A) : Prop :=
  match l with
  | [] => True
  | x :: r => (forall y, In y r -> R x y) /\ in_order R r
  end.
