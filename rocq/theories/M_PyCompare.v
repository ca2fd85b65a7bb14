(** Model of the comparison of two traces in examples/analysis/ubet/eval_nitro.py.
    Simplifications: a printed line is kept as its columns, and a call stack as the list of
    names instead of its text (str of a list of strings tells different lists apart);
    cxxfilt.demangle is a function of the name. *)
From Coq Require Import NArith ZArith List Bool.
From Verif Require Import M_Base M_PyNode M_PySections M_PyFile M_PyAnalysis.
Import ListNotations.
Open Scope N_scope.

(** input_set, eval_nitro.py:167-187: the same loop as dfs_walk, keeping one node per source
    label (nodes are hashed by identity); a node that is neither source nor union is taken for
    a range, which fails for the untainted one. *)
Definition offsets_visit (acc : list N) (seen : list N) (lbl : N) (n : py_node) : Res (list N * list N) :=
  match n with
  | PySource _ offset _ => Ok (offset :: acc, seen)
  | PyUntainted => Exit
  | _ => Ok (acc, seen)
  end.
(** sorted() *)
Fixpoint insert_sorted (x : N) (l : list N) : list N :=
  match l with
  | [] => [x]
  | y :: r => if x <=? y then x :: l else y :: insert_sorted x r
  end.
Definition py_sorted (l : list N) : list N := fold_right insert_sorted [] l.
(** The second input_offsets, eval_nitro.py:190-191 (it replaces the first). *)
Definition input_offsets (fuel : nat) (d : tdfile) (label : N) : Res (list N) :=
  do p <- dfs_walk d offsets_visit fuel label [] []; Ok (py_sorted (fst p)).

(** One tainted record of a log: input offsets and call stack. *)
Definition entry : Type := list N * list (list N).

(** get_cflog_entires, eval_nitro.py:270-282. *)
Fixpoint tainted_entries (fuel : nat) (d : tdfile) (evs : list (py_cf_event (list N))) : Res (list entry) :=
  match evs with
  | [] => Ok []
  | PyTainted stack label :: rest =>
      do o <- input_offsets fuel d label; do r <- tainted_entries fuel d rest; Ok ((o, stack) :: r)
  | _ :: rest => tainted_entries fuel d rest
  end.
Definition cflog_entries (fuel : nat) (demangle : list N -> list N) (function_id : list (list N)) (d : tdfile) : Res (list entry) :=
  do b <- py_by_type (td_sections d) 8;
  do evs <- py_cf_iter (list_eqb N.eqb) (get (map demangle function_id)) b;
  tainted_entries fuel d evs.

(** The columns of a printed line, eval_nitro.py:259-264. *)
Inductive cell := Blank | Offsets (o : list N) | Whole (e : entry).
Inductive extra := Nothing | Stack (s : list (list N)) | Differ (dbg rel : list (list N)).
Definition row : Type := cell * cell * extra.

(** The inner loops of compare_cflog, eval_nitro.py:329-337: how far the next record with the
    offsets [o] is. *)
Fixpoint steps_to (o : list N) (l : list entry) : N :=
  match l with
  | [] => 0
  | e :: r => if list_eqb N.eqb (fst e) o then 0 else 1 + steps_to o r
  end.

(** The loop of compare_cflog, eval_nitro.py:295-344; [dbg] and [rel] are what follows the
    indices. *)
Fixpoint compare_loop (fuel : nat) (dbg rel : list entry) : Res (list row) :=
  match dbg, rel with
  | [], [] => Ok []
  | _, _ =>
      match fuel with
      | O => Fuel
      | S f =>
          match dbg, rel with
          | [], [] => Ok []
          | [], r :: rel' => do rows <- compare_loop f [] rel'; Ok ((Blank, Whole r, Nothing) :: rows)
          | d :: dbg', [] => do rows <- compare_loop f dbg' []; Ok ((Whole d, Blank, Nothing) :: rows)
          | d :: dbg', r :: rel' =>
              if list_eqb N.eqb (fst d) (fst r) then
                do rows <- compare_loop f dbg' rel';
                Ok ((Offsets (fst d), Offsets (fst r),
                     if list_eqb (list_eqb N.eqb) (snd d) (snd r) then Nothing else Differ (snd d) (snd r)) :: rows)
              else if steps_to (fst r) dbg <? steps_to (fst d) rel then
                do rows <- compare_loop f dbg' rel; Ok ((Offsets (fst d), Blank, Stack (snd d)) :: rows)
              else
                do rows <- compare_loop f dbg rel'; Ok ((Blank, Offsets (fst r), Stack (snd r)) :: rows)
          end
      end
  end.
(** compare_cflog, eval_nitro.py:267-346. *)
Definition compare_cflog (fuel : nat) (demangle : list N -> list N) (dbg_id rel_id : list (list N)) (dbg rel : tdfile) : Res (list row) :=
  do d <- cflog_entries fuel demangle dbg_id dbg;
  do r <- cflog_entries fuel demangle rel_id rel;
  compare_loop fuel d r.

(** OutputInputMapping.mapping, eval_nitro.py:86-95: as mapping_visit, with the pair the other
    way round.  Its dfs_walk (eval_nitro.py:58-84) is that of InputOutputMapping. *)
Definition oi_map : Type := list (file_offset_out * file_offset_in).
Definition oi_visit (d : tdfile) (s : py_sink) (acc : oi_map) (seen : list N) (lbl : N) (n : py_node) : Res (oi_map * list N) :=
  match n with
  | PySource idx offset _ =>
      do sp <- td_fd_header d (sk_fdidx s);
      do np <- td_fd_header d idx;
      Ok (acc ++ [((fst sp, sk_offset s), (fst np, offset))], seen)
  | _ => Ok (acc, seen)
  end.
Fixpoint oi_loop (fuel : nat) (d : tdfile) (sinks : list py_sink) (acc : oi_map) : Res oi_map :=
  match sinks with
  | [] => Ok acc
  | s :: rest => do p <- dfs_walk d (oi_visit d s) fuel (sk_label s) [] acc; oi_loop fuel d rest (fst p)
  end.
Definition oi_mapping (fuel : nat) (d : tdfile) : Res oi_map :=
  do sinks <- td_sinks d; oi_loop fuel d sinks [].

(** A dictionary of sets kept as the list of its (key, element) pairs: its keys in order, and
    the elements under a key. *)
Section Maps.
  Context {K V : Type} (keqb : K -> K -> bool) (veqb : V -> V -> bool).
  Fixpoint nub (l : list K) : list K :=
    match l with [] => [] | k :: r => k :: filter (fun x => negb (keqb k x)) (nub r) end.
  Definition keys (m : list (K * V)) : list K := nub (map fst m).
  Definition under (m : list (K * V)) (k : K) : list V := map snd (filter (fun p => keqb (fst p) k) m).
  Definition subset (a b : list V) : bool := forallb (fun x => existsb (veqb x) b) a.
  Definition set_eqb (a b : list V) : bool := subset a b && subset b a.

  (** compare_input_output and compare_output_input, eval_nitro.py:349-373: the keys only in
      [dbg], then the keys of [dbg] whose sets differ, with both sets.  The mappings are
      defaultdicts, so that a key missing in [rel] is looked up as the empty set. *)
  Definition key_diff (dbg rel : list (K * V)) : list K :=
    filter (fun k => negb (existsb (keqb k) (keys rel))) (keys dbg).
  Definition value_diff (dbg rel : list (K * V)) : list (K * list V * list V) :=
    map (fun k => (k, under dbg k, under rel k))
        (filter (fun k => negb (set_eqb (under dbg k) (under rel k))) (keys dbg)).
End Maps.

(** compare_inputs_used, eval_nitro.py:152-157: what it calls inputs are the second parts of
    the keys of OutputInputMapping, that is, output offsets. *)
Definition pos_eqb (a b : file_offset_out) : bool := path_eqb (fst a) (fst b) && Z.eqb (snd a) (snd b).
(** The same for the keys of InputOutputMapping. *)
Definition in_pos_eqb (a b : file_offset_in) : bool := path_eqb (fst a) (fst b) && (snd a =? snd b).
Definition inputs_used_diff (dbg rel : oi_map) : list Z :=
  let used m := map snd (keys pos_eqb m) in
  filter (fun x => negb (existsb (Z.eqb x) (used dbg))) (nub Z.eqb (used rel)).
