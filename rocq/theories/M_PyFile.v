(** Model of TDFile.__init__ and of the simple accessors of TDFile,
    polytracker/taint_dag.py:45-75, 439-579. *)
From Coq Require Import NArith ZArith List Bool.
From Verif Require Import M_Base M_Memory M_PyNode M_PySections.
Import ListNotations.
Open Scope N_scope.

(** The mmap-ed file: its bytes and its length.  [f_bytes] is only consulted below
    [f_len]. *)
Record file := mkFile { f_bytes : N -> N; f_len : N }.

(** mem[a:b]: slices are clamped to the length of the file. *)
Definition fslice (f : file) (a b : N) : list N :=
  let a' := N.min a (f_len f) in
  let b' := N.min b (f_len f) in load (f_bytes f) a' (b' - a').

(** A structure of [n] bytes read with from_buffer_copy(buffer, a): raises when the buffer
    is too short. *)
Definition fstruct (f : file) (a n : N) : Res (list N) :=
  if f_len f <? a + n then Exit else Ok (load (f_bytes f) a n).

(** TDFileMeta, taint_dag.py:45-57: only section_count is used. *)
Definition py_section_count (f : file) : Res N :=
  do r <- fstruct f 0 8; Ok (le_val (py_slice r 6 8)).

(** TDSectionMeta, taint_dag.py:60-73. *)
Record py_smeta := mkSmeta { sm_tag : N; sm_align : N; sm_offset : N; sm_size : N }.
Definition py_smeta_of (r : list N) : py_smeta :=
  mkSmeta (le_val (py_slice r 0 4)) (le_val (py_slice r 4 8))
          (le_val (py_slice r 8 16)) (le_val (py_slice r 16 24)).

(** One iteration of the loop over the section headers, taint_dag.py:456-484: the section
    object is its tag and its bytes.  An unknown tag raises NotImplementedError; the bitmap
    section asserts that its length is a multiple of 8 (taint_dag.py:290). *)
Definition py_section (f : file) (h : py_smeta) : Res (N * list N) :=
  let bytes := fslice f (sm_offset h) (sm_offset h + sm_size h) in
  if (1 <=? sm_tag h) && (sm_tag h <=? 8) then
    if (sm_tag h =? 5) && negb (len bytes mod 8 =? 0) then Exit
    else Ok (sm_tag h, bytes)
  else Exit.

Fixpoint py_section_loop (f : file) (section_offset : N) (n : nat) : Res (list (N * list N)) :=
  match n with
  | O => Ok []
  | S k => do r <- fstruct f section_offset 24;
           do s <- py_section f (py_smeta_of r);
           do rest <- py_section_loop f (section_offset + 24) k;
           Ok (s :: rest)
  end.

(** self.sections_by_type[...]: a later section of the same type replaces an earlier one;
    a missing one raises KeyError. *)
Fixpoint py_get_section (l : list (N * list N)) (tag : N) : option (list N) :=
  match l with
  | [] => None
  | (t, b) :: rest => match py_get_section rest tag with
                      | Some b' => Some b'
                      | None => if t =? tag then Some b else None
                      end
  end.
Definition py_by_type (l : list (N * list N)) (tag : N) : Res (list N) :=
  match py_get_section l tag with Some b => Ok b | None => Exit end.

(** str(Path(s)) of pathlib.PurePosixPath (Python's library, not part of /repo): empty
    and "." components are dropped, a leading "//" (exactly two) is kept.  A path is kept
    as (root, components). *)
Definition slash : N := 47.
Definition dot : N := 46.
Fixpoint split_slash (s : list N) (cur : list N) : list (list N) :=
  match s with
  | [] => [rev cur]
  | c :: r => if c =? slash then rev cur :: split_slash r [] else split_slash r (c :: cur)
  end.
Definition py_root (s : list N) : list N :=
  match s with
  | a :: b :: c :: _ => if a =? slash then if (b =? slash) && negb (c =? slash) then [slash; slash] else [slash] else []
  | [a; b] => if a =? slash then if b =? slash then [slash; slash] else [slash] else []
  | [a] => if a =? slash then [slash] else []
  | [] => []
  end.
Definition useful (c : list N) : bool :=
  match c with [] => false | [x] => negb (x =? dot) | _ => true end.
Definition py_path : Type := list N * list (list N).
Definition py_path_of (s : list N) : py_path := (py_root s, filter useful (split_slash s [])).

(** read_fd_headers, taint_dag.py:497-505; kept with the undecorated string beside the
    Path. *)
Definition py_read_fd_headers (secs : list (N * list N)) : Res (list (py_path * py_fdhdr)) :=
  do sources <- py_by_type secs 1;
  do strings <- py_by_type secs 3;
  do hs <- py_sources sources;
  py_map (fun h => do s <- py_read_string strings (fd_name_offset h); Ok (py_path_of s, h)) hs.

(** read_fn_headers, taint_dag.py:507-515: the names with their headers. *)
Definition py_read_fn_headers (secs : list (N * list N)) : Res (list (list N * N)) :=
  do functions <- py_by_type secs 6;
  do strings <- py_by_type secs 3;
  do hs <- py_functions functions;
  py_map (fun h => do s <- py_read_string strings h; Ok (s, h)) hs.

(** The state of a TDFile after __init__, taint_dag.py:440-492.  (raw_nodes is a cache of
    an immutable file and is left out.) *)
Record tdfile := mkTd {
  td_sections : list (N * list N);
  td_fd_headers : list (py_path * py_fdhdr);
  td_fn_headers : list (list N * N)
}.
Definition py_open (f : file) : Res tdfile :=
  if f_len f =? 0 then Exit
  else
    do n <- py_section_count f;
    do secs <- py_section_loop f 8 (N.to_nat n);
    do fds <- py_read_fd_headers secs;
    do fns <- py_read_fn_headers secs;
    Ok (mkTd secs fds fns).

(** input_labels, taint_dag.py:517-521. *)
Definition td_input_labels (d : tdfile) : Res (list N) :=
  do b <- py_by_type (td_sections d) 5; py_set_bits b.
(** label_count, taint_dag.py:523-527. *)
Definition td_label_count (d : tdfile) : Res N :=
  do b <- py_by_type (td_sections d) 2; Ok (py_label_count b).
(** read_node and decode_node, taint_dag.py:529-559. *)
Definition td_decode_node (d : tdfile) (label : N) : Res py_node :=
  if label =? 0 then Ok PyUntainted
  else do b <- py_by_type (td_sections d) 2;
       do v <- py_read_raw b label;
       Ok (py_decode_node label v).
(** nodes, taint_dag.py:561-564. *)
Definition td_nodes (d : tdfile) : Res (list py_node) :=
  do n <- td_label_count d; py_map (td_decode_node d) (nseq 1 (N.to_nat (n - 1))).
(** sinks, taint_dag.py:566-570. *)
Definition td_sinks (d : tdfile) : Res (list py_sink) :=
  do b <- py_by_type (td_sections d) 4; py_sinks b.
(** events, taint_dag.py:575-579. *)
Definition td_events (d : tdfile) : Res (list (N * N)) :=
  do b <- py_by_type (td_sections d) 7; py_events b.
(** fd_headers[i] for a non-negative index: IndexError out of range. *)
Definition td_fd_header (d : tdfile) (i : N) : Res (py_path * py_fdhdr) :=
  match get (td_fd_headers d) i with Some h => Ok h | None => Exit end.
