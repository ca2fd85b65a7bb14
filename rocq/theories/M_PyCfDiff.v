(** Model of the search for differing control flow, polytracker/diffing.py:73-118
    (ControlFlowDiff), on the graphs of M_PyDiGraph. *)
From Coq Require Import NArith ZArith List Bool.
From Verif Require Import M_Base M_PyGraph M_PyDiGraph.
Import ListNotations.

(** A function of a trace (tracing.py:371-425): its index, which identifies it, its name, the
    functions it calls, and the bytes its taints() has. *)
Record cfunc := mkCF { cf_index : Z; cf_name : N; cf_calls : list Z; cf_taints : list N }.
(** has_function and get_function, tracing.py:1045-1060. *)
Definition cf_find (t : list cfunc) (name : N) : option cfunc := find (fun f => N.eqb (cf_name f) name) t.
(** The object for an index. *)
Definition cf_at (t : list cfunc) (i : Z) : option cfunc := find (fun f => Z.eqb (cf_index f) i) t.
(** function_cfg, tracing.py:1251-1259. *)
Definition function_cfg (t : list cfunc) : dgraph := build_cfg (map (fun f => (cf_index f, cf_calls f)) t).

(** a1.taints() != a2.taints(), diffing.py:115: Taints (tracing.py:215-368) defines no __eq__, so
    that two objects differ unless they are one.  [one] tells whether both calls return the same
    object; calls for two traces return two. *)
Definition taints_ne (one : bool) (f g : cfunc) : bool := negb one.

(** The loop, diffing.py:112-117. *)
Fixpoint cf_loop (one : bool) (t1 t2 : list cfunc) (l : list (Z * Z)) : Res (option N) :=
  match l with
  | [] => Ok None
  | (a, b) :: rest =>
      match cf_at t1 a, cf_at t2 b with
      | Some f, Some g =>
          if negb (N.eqb (cf_name f) (cf_name g)) then cf_loop one t1 t2 rest
          else if taints_ne one f g then Ok (Some (cf_name f)) else cf_loop one t1 t2 rest
      | _, _ => Exit
      end
  end.
(** _diff, diffing.py:88-117, and first_function_with_different_control_flow, 81-85.  The two
    statements with &=, 103-104, change nothing: see oset_iand in M_PyCache.v and C80. *)
Definition cf_diff (one : bool) (t1 t2 : list cfunc) (name : N) : Res (option N) :=
  match cf_find t1 name, cf_find t2 name with
  | Some f1, Some f2 =>
      do a1 <- ancestors false (fst (dominator_forest (function_cfg t1))) (cf_index f1);
      do a2 <- ancestors false (fst (dominator_forest (function_cfg t2))) (cf_index f2);
      match a1, a2 with
      | [], _ | _, [] => Ok None
      | _, _ => cf_loop one t1 t2 (combine a1 a2)
      end
  | _, _ => Ok None
  end.
