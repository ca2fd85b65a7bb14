(** The scripts that make lists of functions for the instrumentation:
    polytracker/scripts/create_stublist.py, libcxx_tracklist.py, list_diff.py and
    compiler-rt/lib/dfsan/scripts/build-libc-list.py.

    Simplifications: text is a list of characters; readelf succeeds; the order of the lines is that
    of the names in the set (sort is not modelled), with every name once. *)
From Coq Require Import NArith List Bool.
From Verif Require Import M_Base M_Functions.
Import ListNotations.
Open Scope N_scope.

Definition t_func : list N := [70; 85; 78; 67]. (* FUNC *)
Definition t_ifunc : list N := [73; 70; 85; 78; 67]. (* IFUNC *)
Definition t_local : list N := [76; 79; 67; 65; 76]. (* LOCAL *)
Definition t_und : list N := [85; 78; 68]. (* UND *)
Definition t_dfsw : list N := [100; 102; 115; 119; 36]. (* dfsw$ *)
Definition t_dfs : list N := [100; 102; 115; 36]. (* dfs$ *)
Definition t_fun : list N := [102; 117; 110; 58]. (* fun: *)
Definition t_uninst : list N := [61; 117; 110; 105; 110; 115; 116; 114; 117; 109; 101; 110; 116; 101; 100]. (* =uninstrumented *)
Definition t_discard : list N := [61; 100; 105; 115; 99; 97; 114; 100]. (* =discard *)
Definition t_literal : list N := [102; 117; 110; 58; 123; 102; 125; 61; 117; 110; 105; 110; 115; 116; 114; 117; 109; 101; 110; 116; 101; 100]. (* fun:{f}=uninstrumented *)

(** line[a:b] *)
Definition slice (a b : nat) (l : list N) : list N := firstn (b - a) (skipn a l).
(** str.split(x)[0] *)
Fixpoint before (x : N) (l : list N) : list N :=
  match l with [] => [] | y :: r => if y =? x then [] else y :: before x r end.
Fixpoint starts (p l : list N) : bool :=
  match p, l with
  | [], _ => true
  | x :: p', y :: l' => (x =? y) && starts p' l'
  | _, _ => false
  end.
(** p in l *)
Fixpoint contains (p l : list N) : bool :=
  starts p l || match l with [] => false | _ :: r => contains p r end.
(** l.replace(p, "") for a [p] that is not empty; [skip] characters of a match are left. *)
Fixpoint remove_go (p l : list N) (skip : nat) : list N :=
  match l with
  | [] => []
  | x :: r =>
      match skip with
      | S k => remove_go p r k
      | O => if starts p l then remove_go p r (length p - 1) else x :: remove_go p r 0
      end
  end.
Definition remove (p l : list N) : list N := remove_go p l 0.

(** The test of defined_function_list, create_stublist.py:31-35, libcxx_tracklist.py:15-19,
    build-libc-list.py:29-33. *)
Definition is_function (line : list N) : bool := bytes_eqb (slice 31 35 line) t_func || bytes_eqb (slice 31 36 line) t_ifunc.
Definition line_name (line : list N) : list N := before 64 (skipn 59 line).
Definition is_defined (line : list N) : bool :=
  is_function line && negb (bytes_eqb (slice 39 44 line) t_local) && negb (bytes_eqb (slice 55 58 line) t_und).
(** defined_function_list, create_stublist.py:21-38, libcxx_tracklist.py:5-22. *)
Definition defined_function_list (lines : list (list N)) : list (list N) := map line_name (filter is_defined lines).
(** undefined_function_list, libcxx_tracklist.py:25-38. *)
Definition undefined_function_list (lines : list (list N)) : list (list N) :=
  map line_name (filter (fun l => is_function l && contains t_und l) lines).

Definition mem (x : list N) (l : list (list N)) : bool := existsb (bytes_eqb x) l.
(** set() *)
Fixpoint uniq (l : list (list N)) : list (list N) :=
  match l with [] => [] | x :: r => if mem x r then uniq r else x :: uniq r end.
(** The two lines printed for a name, create_stublist.py:106-110, libcxx_tracklist.py:66-70 and 76-80. *)
Definition clean (f : list N) : list N := remove t_dfs (remove t_dfsw f).
Definition two_lines (f : list N) : list (list N) := [t_fun ++ clean f ++ t_uninst; t_fun ++ clean f ++ t_discard].
(** create_stublist.py:96-110, with one library. *)
Definition stublist (lines : list (list N)) : list (list N) := flat_map two_lines (uniq (defined_function_list lines)).
(** libcxx_tracklist.py:44-70: the first of the two lists printed, and 73-80, the second. *)
Definition tracklist (cxx abi : list (list N)) : list (list N) :=
  flat_map two_lines (uniq (filter (fun f => negb (mem f (defined_function_list abi))) (undefined_function_list cxx) ++ defined_function_list abi)).
Definition abi_ignore (abi : list (list N)) : list (list N) := flat_map two_lines (uniq (defined_function_list abi)).
(** build-libc-list.py:112-123; the text has braces but is no f-string.  (Under Python 3 the
    script fails before, at line 25, which splits bytes at a str.) *)
Definition libc_list (lines : list (list N)) : list (list N) := map (fun _ => t_literal) (uniq (defined_function_list lines)).

(** list_diff.py:14-15 and 20-21: item[4:item.find("=")]; find gives -1 when there is none, and
    the last character is left out. *)
Definition item_name (item : list N) : list N :=
  skipn 4 (if existsb (N.eqb 61) item then before 61 item else removelast item).
(** list_diff.py:9-28; the items printed (print adds a line end to the one they have). *)
Definition list_diff (main_items items : list (list N)) : list (list N) :=
  filter (fun i => negb (mem (item_name i) (map item_name main_items))) items.
