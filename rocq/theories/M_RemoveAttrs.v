(** What the optimiser may assume about the functions of an instrumented program.
    polytracker/src/passes/remove_fn_attr.cpp, and the places of DataFlowSanitizer.cpp and
    tainted_control_flow.cpp that give functions their attributes.

    Simplifications: only the attributes of functions and of calls (index FunctionIndex) are kept,
    as lists; of a body only the calls; names are lists of characters. *)
From Coq Require Import NArith List Bool.
From Verif Require Import M_Base.
Import ListNotations.
Open Scope N_scope.

Inductive attr : Type := ReadOnly | ReadNone | InaccessibleMemOnly | InaccessibleMemOrArgMemOnly | ArgMemOnly | OtherAttr (n : N).
(** CallInst and InvokeInst; [None]: getCalledFunction is null. *)
Inductive call_kind : Type := Plain | Invoke.
Inductive instr : Type := ICall (k : call_kind) (callee : option (list N)) (attrs : list attr) | IOther (n : N).
Record func : Type := mkFunc { f_name : list N; f_attrs : list attr; f_void : bool; f_body : list instr }.

(** "__dfsw", "dfs$", "__dfsw_", "dfsw$". *)
Definition s_dfsw : list N := [95; 95; 100; 102; 115; 119].
Definition s_dfs : list N := [100; 102; 115; 36].
Definition s_custom : list N := [95; 95; 100; 102; 115; 119; 95].
Definition s_wrap : list N := [100; 102; 115; 119; 36].
(** StringRef::startswith. *)
Fixpoint startswith (name p : list N) {struct p} : bool :=
  match p, name with
  | [], _ => true
  | x :: p', y :: n' => (x =? y) && startswith n' p'
  | _, _ => false
  end.
Definition by_pass (name : list N) : bool := startswith name s_dfsw || startswith name s_dfs.
(** removeAttribute / removeFnAttr of the three kinds, remove_fn_attr.cpp:20-25 and 34-36. *)
Definition removed (a : attr) : bool :=
  match a with ReadOnly | InaccessibleMemOnly | InaccessibleMemOrArgMemOnly => true | _ => false end.
Definition strip (l : list attr) : list attr := filter (fun a => negb (removed a)) l.
(** visitCallInst, remove_fn_attr.cpp:13-27; an InvokeInst is not visited. *)
Definition rm_instr (i : instr) : instr :=
  match i with
  | ICall Plain (Some c) l => if by_pass c then ICall Plain (Some c) (strip l) else i
  | _ => i
  end.
(** run, remove_fn_attr.cpp:29-41. *)
Definition rm_func (f : func) : func :=
  mkFunc (f_name f) (if by_pass (f_name f) then strip (f_attrs f) else f_attrs f) (f_void f) (map rm_instr (f_body f)).
Definition rm_pass (m : list func) : list func := map rm_func m.

(** removeAttributes with ReadOnlyNoneAttrs, DataFlowSanitizer.cpp:1493-1494. *)
Definition no_read_attrs (l : list attr) : list attr :=
  filter (fun a => match a with ReadOnly | ReadNone => false | _ => true end) l.
(** An instrumented function, DataFlowSanitizer.cpp:1542-1544 and addGlobalNamePrefix, 1146-1148. *)
Definition instrumented (f : func) : func := mkFunc (s_dfs ++ f_name f) (f_attrs f) (f_void f) (f_body f).
(** The wrapper of a function that keeps its ABI, DataFlowSanitizer.cpp:1545-1564 and
    buildWrapperFunction, 1166-1195; its body calls the function. *)
Definition wrapped (f : func) : func :=
  mkFunc (s_wrap ++ f_name f) (no_read_attrs (f_attrs f)) (f_void f) [ICall Plain (Some (f_name f)) []].
(** The declaration of a custom function and the call of it that replaces a call with the
    attributes [l], DataFlowSanitizer.cpp:2990-3049. *)
Definition custom (f : func) : func :=
  mkFunc (s_custom ++ f_name f) (if f_void f then f_attrs f else no_read_attrs (f_attrs f)) (f_void f) [].
Definition custom_call (f : func) (l : list attr) : instr := ICall Plain (Some (s_custom ++ f_name f)) l.
(** declareLoggingFunctions, tainted_control_flow.cpp:147-164; the pass runs before opt -O3
    (build.py:140-165). *)
Definition s_log : list N := [95; 95; 112; 111; 108; 121; 116; 114; 97; 99; 107; 101; 114; 95; 108; 111; 103; 95; 116; 97; 105; 110; 116; 101; 100; 95; 99; 111; 110; 116; 114; 111; 108; 95; 102; 108; 111; 119].
Definition s_enter : list N := [95; 95; 112; 111; 108; 121; 116; 114; 97; 99; 107; 101; 114; 95; 101; 110; 116; 101; 114; 95; 102; 117; 110; 99; 116; 105; 111; 110].
Definition s_leave : list N := [95; 95; 112; 111; 108; 121; 116; 114; 97; 99; 107; 101; 114; 95; 108; 101; 97; 118; 101; 95; 102; 117; 110; 99; 116; 105; 111; 110].
Definition logging_functions : list func := [mkFunc s_log [ReadNone] false []; mkFunc s_enter [] true []; mkFunc s_leave [] true []].
