(** Model of the command "polytracker info", polytracker/taint_dag.py:817-893.

    A printed line is kept with its parts instead of as text.  If the command ends with an
    exception the result is [Exit]; the lines printed before it are left out. *)
From Coq Require Import NArith ZArith List Bool.
From Verif Require Import M_Base M_Memory M_Functions M_PyNode M_PySections M_PyFile.
Import ListNotations.
Open Scope N_scope.

(** The options, taint_dag.py:821-859. *)
Record info_options := mkInfo {
  print_fd_headers : bool; print_fn_headers : bool; print_taint_sinks : bool; print_taint_nodes : bool;
  print_function_trace : bool; print_control_flow_log : bool }.

(** The lines, taint_dag.py:864-893. *)
Inductive info_line : Type :=
| ILabels (n : N)                          (* 864 *)
| IFile (i : N) (path : py_path)           (* 866-869 *)
| IFunction (i : N) (name : list N)        (* 871-874 *)
| ISink (s : py_sink) (n : py_node)        (* 876-878 *)
| INode (label : N) (n : py_node)          (* 880-882 *)
| IEvent (k : event_kind) (fn : N)         (* 884-886 *)
| ILog (e : py_cf_event N).                (* 888-892 *)

(** enumerate(l), from [i]. *)
Fixpoint numbered {A} (i : N) (l : list A) : list (N * A) :=
  match l with [] => [] | x :: r => (i, x) :: numbered (i + 1) r end.

(** TDEvent.Kind(kind), taint_dag.py:419-424: ValueError for other numbers. *)
Definition kind_of (k : N) : Res event_kind :=
  if k =? 0 then Ok EvEntry else if k =? 1 then Ok EvExit else Exit.

Definition when (b : bool) (x : Res (list info_line)) : Res (list info_line) := if b then x else Ok [].

(** TDInfo.run, taint_dag.py:861-893.  The control-flow log is read without names (no call of
    function_id_mapping). *)
Definition info_run (o : info_options) (f : file) : Res (list info_line) :=
  do d <- py_open f;
  do n <- td_label_count d;
  do files <- when (print_fd_headers o) (Ok (map (fun p => IFile (fst p) (fst (snd p))) (numbered 0 (td_fd_headers d))));
  do functions <- when (print_fn_headers o) (Ok (map (fun p => IFunction (fst p) (fst (snd p))) (numbered 0 (td_fn_headers d))));
  do sinks <- when (print_taint_sinks o)
    (do ss <- td_sinks d; py_map (fun s => do x <- td_decode_node d (sk_label s); Ok (ISink s x)) ss);
  do nodes <- when (print_taint_nodes o)
    (py_map (fun l => do x <- td_decode_node d l; Ok (INode l x)) (nseq 1 (N.to_nat (n - 1))));
  do events <- when (print_function_trace o)
    (do es <- td_events d; py_map (fun e => do k <- kind_of (fst e); Ok (IEvent k (snd e))) es);
  do log <- when (print_control_flow_log o)
    (do b <- py_by_type (td_sections d) 8; do es <- py_cf_iter N.eqb Some b; Ok (map ILog es));
  Ok (ILabels n :: files ++ functions ++ sinks ++ nodes ++ events ++ log).
