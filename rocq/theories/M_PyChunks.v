(** Model of FunctionInfo.tainted_chunks, input_chunks and cmp_chunks, polytracker/cfg.py:71-93.

    Simplification: offsets are natural numbers. *)
From Coq Require Import NArith List Bool.
From Verif Require Import M_Base.
Import ListNotations.
Open Scope N_scope.

(** sorted(), of the Python library *)
Fixpoint insert_offset (x : N) (l : list N) : list N :=
  match l with
  | [] => [x]
  | y :: r => if x <=? y then x :: l else y :: insert_offset x r
  end.
Definition sorted_offsets (l : list N) : list N := fold_right insert_offset [] l.

(** The loop, cfg.py:75-83, once the first offset was seen: [start] and [last] are start_offset
    and last_offset. *)
Fixpoint chunks_from (start last : N) (l : list N) : list (N * N) :=
  match l with
  | [] => [(start, last + 1)]
  | x :: r =>
      if negb (x =? last) && negb (x =? last + 1)
      then (start, last + 1) :: chunks_from x x r
      else chunks_from start x r
  end.
Definition tainted_chunks (offsets : list N) : list (N * N) :=
  match sorted_offsets offsets with
  | [] => []
  | x :: r => chunks_from x x r
  end.

(** input_chunks and cmp_chunks, cfg.py:85-93: a source (by number) and its offsets for each entry
    of the dictionary. *)
Definition source_chunks (d : list (N * list N)) : list (N * (N * N)) :=
  flat_map (fun q => map (fun c => (fst q, c)) (tainted_chunks (snd q))) d.
