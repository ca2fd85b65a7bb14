(** Specification vocabulary for the taint forest: its states and walks over parents. *)
From Coq Require Import NArith ZArith List.
From Verif Require Import M_Base M_PyFile M_PyAnalysis.
Import ListNotations.
Open Scope N_scope.

(** The states a forest can be in: it starts out empty and nodes are asked for in any
    order. *)
Inductive forest_run (d : tdfile) : forest -> Prop :=
| fr_new fo : forest_new d = Ok fo -> forest_run d fo
| fr_get fo z n fo' : forest_run d fo -> get_node d fo z = Ok (n, fo') -> forest_run d fo'.

(** [later d fo fo']: more nodes were asked for in between. *)
Inductive later (d : tdfile) : forest -> forest -> Prop :=
| la_refl fo : later d fo fo
| la_get fo fo1 z n fo2 : later d fo fo1 -> get_node d fo1 z = Ok (n, fo2) -> later d fo fo2.

(** [walk d fo z fo' n]: starting at label [z] and following parents arbitrarily often one
    gets to node [n]; the forest ends up in state [fo']. *)
Inductive walk (d : tdfile) : forest -> Z -> forest -> fnode -> Prop :=
| wk_here fo z fo' n : get_node d fo z = Ok (n, fo') -> walk d fo z fo' n
| wk_up fo z n fo1 p q y fo2 n' :
    get_node d fo z = Ok (n, fo1) -> fn_parents n = Some (p, q) -> y = p \/ y = q ->
    walk d fo1 y fo2 n' -> walk d fo z fo2 n'.

(** The label is known to the forest. *)
Definition has_label (fo : forest) (z : Z) : Prop := dict_get Z.eqb (fo_cache fo) z <> None.
