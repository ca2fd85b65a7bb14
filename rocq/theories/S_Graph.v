(** Specification vocabulary for exported graphs: paths, and what a drawing shows. *)
From Coq Require Import NArith ZArith List Bool.
From Verif Require Import M_Base M_PyFile M_PyAnalysis M_PyGraph S_Runtime.
Import ListNotations.
Open Scope N_scope.

(** There is a path of one or more edges. *)
Inductive path (es : list (Z * Z)) : Z -> Z -> Prop :=
| pa_edge a b : In (a, b) es -> path es a b
| pa_more a b c : In (a, b) es -> path es b c -> path es a c.

(** Nothing points to the node. *)
Definition no_incoming (es : list (Z * Z)) (z : Z) : Prop := forall a, ~ In (a, z) es.

(** ** What a drawing shows *)
(** The value of an attribute: the innermost default wins, the lists being innermost first. *)
Fixpoint attr (k : str) (l : list (str * str)) : option str :=
  match l with
  | [] => None
  | (k', v) :: r => if list_eqb N.eqb k k' then Some v else attr k r
  end.

(** The nodes drawn by statements: identifier, caption and shape.  [na] are the defaults for
    nodes in force. *)
Fixpoint drawn_nodes (na : list (str * str)) (s : dot) : list (str * str * option str) :=
  match s with
  | DotNode id label => [(id, label, attr w_shape na)]
  | DotEdge _ _ => []
  | DotSub _ _ na' _ body => flat_map (drawn_nodes (na' ++ na)) body
  end.
(** The edges drawn by statements, with their style. *)
Fixpoint drawn_edges (ea : list (str * str)) (s : dot) : list (str * str * option str) :=
  match s with
  | DotNode _ _ => []
  | DotEdge a b => [(a, b, attr w_style ea)]
  | DotSub _ _ _ ea' body => flat_map (drawn_edges (ea' ++ ea)) body
  end.
Definition picture_nodes (body : list dot) := flat_map (drawn_nodes []) body.
Definition picture_edges (body : list dot) := flat_map (drawn_edges []) body.

(** The text [t] is the decimal notation of [z]. *)
Definition numeral (t : str) (z : Z) : Prop := exists n ds, decimal ds n /\
  ((0 <= z)%Z /\ t = ds /\ z = Z.of_N n \/ (z < 0)%Z /\ t = 45 :: ds /\ z = (- Z.of_N n)%Z).
