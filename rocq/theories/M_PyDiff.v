(** Model of the comparison of two traces, polytracker/diffing.py:121-457 (TraceDiff).

    Simplifications: a function of a trace is its index, its name (a number) and the bytes its
    taints() has; a trace is the list of its functions (C97, C98 have the rest of traces).  The
    iteration order of sets and of intersections of key sets is that of insertion.
    ControlFlowDiff and the text around the chunks are left out.  IntervalTree as in M_PyTree;
    the data of all intervals is None. *)
From Coq Require Import NArith ZArith List Bool.
From Verif Require Import M_Base M_PyAnalysis M_PyTaints M_PyTree.
Import ListNotations.
Open Scope N_scope.

(** Function, tracing.py:371-403; equal if the indices are, 416-422. *)
Record func := mkFunc { f_index : N; f_name : N; f_taints : list pbyte }.
Definition func_eqb (f g : func) : bool := f_index f =? f_index g.
Definition trace := list func.

(** ** Functions *)
(** frozenset(functions) *)
Definition func_set (l : list func) : list func := fold_left (fun s f => if existsb (func_eqb f) s then s else s ++ [f]) l [].
(** _diff_functions, diffing.py:169-174. *)
Definition func_minus (a b : list func) : list func := filter (fun f => negb (existsb (func_eqb f) b)) a.
Definition only_in_first (t1 t2 : trace) : list func := func_minus (func_set t1) (func_set t2).
Definition only_in_second (t1 t2 : trace) : list func := func_minus (func_set t2) (func_set t1).
(** get_function(name), tracing.py:1045-1052: an exception if there is none. *)
Definition get_function (t : trace) (name : N) : Res func :=
  match find (fun f => f_name f =? name) t with Some f => Ok f | None => Exit end.
(** functions_in_both, diffing.py:154-167: the names, each with the diff of its taints. *)
Definition name_set (l : list N) : list N := fold_left (fun s n => if existsb (N.eqb n) s then s else s ++ [n]) l [].
Definition shared_names (t1 t2 : trace) : list N :=
  let out := map f_name (only_in_first t1 t2 ++ only_in_second t1 t2) in
  name_set (filter (fun n => negb (existsb (N.eqb n) out)) (map f_name t1)).
Fixpoint diff_names (t1 t2 : trace) (ns : list N) : Res (list (N * (list pbyte * list pbyte))) :=
  match ns with
  | [] => Ok []
  | n :: r =>
      do f <- get_function t1 n; do g <- get_function t2 n;
      do rest <- diff_names t1 t2 r; Ok ((n, taint_diff (taints_new (f_taints f)) (taints_new (f_taints g))) :: rest)
  end.
Definition in_both (t1 t2 : trace) : Res (list (N * (list pbyte * list pbyte))) := diff_names t1 t2 (shared_names t1 t2).
(** TraceDiff.__bool__, diffing.py:298-299. *)
Definition trace_diff_bool (t1 t2 : trace) : bool :=
  match only_in_first t1 t2, only_in_second t1 t2 with [], [] => false | _, _ => true end.

(** ** Bytes *)
(** The intervals of each input. *)
Definition touches := list (py_input * intervals).
(** IntervalTree.add: an empty interval is an exception. *)
Definition touch (d : touches) (r : region) : Res touches :=
  if rg_length r =? 0 then Exit else
  Ok (dict_set input_eqb d (rg_source r)
       (iv_add (match dict_get input_eqb d (rg_source r) with Some s => s | None => [] end)
               (mkIv (Z.of_N (rg_offset r)) (Z.of_N (rg_offset r + rg_length r)) (-1)))).
Fixpoint touch_all (d : touches) (rs : list region) : Res touches :=
  match rs with [] => Ok d | r :: rest => do d' <- touch d r; touch_all d' rest end.
(** The loops over the functions, diffing.py:181-207, with merge_overlaps().  [has] tells
    whether functions have the method get_taints: those of tracing.py do not, they have
    taints(). *)
Fixpoint touched_by (has : bool) (d : touches) (t : trace) : Res touches :=
  match t with
  | [] => Ok d
  | f :: rest => if has then do d' <- touch_all d (taints_regions (taints_new (f_taints f))); touched_by has d' rest else Exit
  end.
Definition merged (d : touches) : touches := map (fun p => (fst p, iv_merge true (snd p))) d.
(** remove_overlap(begin, end) of intervaltree: the intervals that overlap are removed as a whole. *)
Definition remove_overlap (t : intervals) (b e : Z) : intervals :=
  if (b <? e)%Z then filter (fun i => negb ((iv_begin i <? e)%Z && (b <? iv_end i)%Z)) t else t.
Definition remove_all (t s : intervals) : intervals := fold_left (fun t i => remove_overlap t (iv_begin i) (iv_end i)) s t.
(** diffing.py:209-247: the inputs of both, then those of one alone. *)
Definition only (d1 d2 : touches) : touches :=
  flat_map (fun p => match dict_get input_eqb d2 (fst p) with Some s => [(fst p, remove_all (snd p) s)] | None => [] end) d1 ++
  flat_map (fun p => match dict_get input_eqb d2 (fst p) with Some _ => [] | None => [p] end) d1.
(** The assertion, diffing.py:235-241: no interval of an input of both is in both results. *)
Definition assertion (d1 d2 : touches) : bool :=
  forallb (fun p => match dict_get input_eqb d2 (fst p) with
                    | Some s => negb (existsb (fun i => existsb (iv_eqb i) (remove_all s (snd p))) (remove_all (snd p) s))
                    | None => true
                    end) d1.
(** _diff_bytes, diffing.py:176-247. *)
Definition diff_bytes (has : bool) (t1 t2 : trace) : Res (touches * touches) :=
  do a <- touched_by has [] t1; do b <- touched_by has [] t2;
  let d1 := merged a in let d2 := merged b in
  if assertion d1 d2 then Ok (only d1 d2, only d2 d1) else Exit.
(** input_chunks_only_in_first, diffing.py:249-259. *)
Definition chunks (d : touches) : list region :=
  flat_map (fun p => map (fun i => mkRegion (fst p) (Z.to_N (iv_begin i)) (Z.to_N (iv_end i - iv_begin i))) (iv_sorted (snd p))) d.
(** has_input_chunks_only_in_first, diffing.py:273-277. *)
Definition has_chunks (d : touches) : bool := existsb (fun p => match snd p with [] => false | _ => true end) d.
(** The line "Both traces consumed the exact same input byte regions", diffing.py:423-427, and
    "Traces do not differ", 455-456. *)
Definition says_same_bytes (has : bool) (t1 t2 : trace) : Res bool :=
  do d <- diff_bytes has t1 t2; Ok (negb (has_chunks (fst d)) && negb (has_chunks (snd d))).
Definition says_no_difference (t1 t2 : trace) : bool := negb (trace_diff_bool t1 t2).
