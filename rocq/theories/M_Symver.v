(** Model of DataFlowSanitizer::addGlobalNamePrefix, polytracker/src/passes/DataFlowSanitizer.cpp
    (1146-1163): the renaming of an instrumented function and of its directive in the module's
    inline assembly.  Strings are lists of characters. *)
From Coq Require Import NArith List Bool.
From Verif Require Import M_Base.
Import ListNotations.
Open Scope N_scope.

Definition dfs_prefix : list N := [100; 102; 115; 36]. (* dfs$ *)
Definition symver : list N := [46; 115; 121; 109; 118; 101; 114; 32]. (* .symver and a space *)

Fixpoint starts_with (p s : list N) : bool :=
  match p, s with
  | [], _ => true
  | x :: p', y :: s' => (x =? y) && starts_with p' s'
  | _, [] => false
  end.
(** std::string::find, 1157: the position of the first occurrence. *)
Fixpoint find (p s : list N) : option nat :=
  if starts_with p s then Some 0%nat
  else match s with
       | [] => None
       | _ :: r => option_map S (find p r)
       end.
(** 1156 *)
Definition search_string (name : list N) : list N := symver ++ name ++ [44].
(** 1155-1162: the module's assembly afterwards. *)
Definition rewrite_asm (name asm : list N) : list N :=
  match find (search_string name) asm with
  | Some pos =>
      firstn pos asm
      ++ (symver ++ dfs_prefix ++ name ++ [44] ++ dfs_prefix)
      ++ skipn (pos + length (search_string name)) asm
  | None => asm
  end.
(** 1146-1163: the new name, 1148, and the assembly. *)
Definition add_prefix (name asm : list N) : list N * list N := (dfs_prefix ++ name, rewrite_asm name asm).
