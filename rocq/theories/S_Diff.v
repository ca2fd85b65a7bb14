(** Specification: the difference of two traces. *)
From Coq Require Import NArith ZArith List Bool.
From Verif Require Import M_Base M_PyAnalysis M_PyTaints M_PyDiff S_PyTaints.
Import ListNotations.
Open Scope N_scope.

(** Some function of the trace operated on byte [o] of input [x]. *)
Definition touched (t : trace) (x : py_input) (o : N) : Prop := exists f, In f t /\ tainted (f_taints f) x o.
(** The trace has a function with this index; with this name. *)
Definition runs (t : trace) (i : N) : Prop := exists f, In f t /\ f_index f = i.
Definition runs_named (t : trace) (n : N) : Prop := exists f, In f t /\ f_name f = n.
(** In both traces the functions have the same indices and names (they are traces of one
    program). *)
Definition same_program (t1 t2 : trace) : Prop :=
  forall f g, In f (t1 ++ t2) -> In g (t1 ++ t2) -> (f_index f = f_index g <-> f_name f = f_name g).
