(** Model of combineOrigins, polytracker/src/passes/DataFlowSanitizer.cpp (1966-2010): the
    origin of a value computed from operands.  The code that is added is modelled by what it
    computes; an operand is known to have no origin when the code is added if its origin is a
    null constant. *)
From Coq Require Import NArith List Bool.
From Verif Require Import M_Base.
Import ListNotations.
Open Scope N_scope.

Record operand : Type := mkOperand { op_label : N; op_origin : N; op_null : bool }.

(** The loop, 1975-1990; [acc] is Origin, None for nullptr. *)
Fixpoint combine_loop (ops : list operand) (acc : option N) : option N :=
  match ops with
  | [] => acc
  | op :: r =>
      if op_null op then combine_loop r acc
      else match acc with
           | None => combine_loop r (Some (op_origin op))
           | Some o => combine_loop r (Some (if negb (op_label op =? 0) then op_origin op else o))
           end
  end.
(** combineOrigins, 1966-1992, as called by combineOperandOrigins, 1994-2003. *)
Definition combine_origins (ops : list operand) : N :=
  match combine_loop ops None with Some o => o | None => 0 end.
