(** Concurrent writers of outputs: StreamOffset::increase
    (polytracker/include/taintdag/stream_offset.h:29-36) as it is reached from the write
    wrappers (polytracker/src/taint_sources/write_taints.cpp:24-70): the system call first, then
    PolyTracker::taint_sink, which asks for the offset (polytracker/src/taintdag/polytracker.cpp:140-165). *)
From Coq Require Import NArith List.
From Verif Require Import M_Base M_Sources M_Conc.
Import ListNotations.
Open Scope N_scope.

(** One finished call: output, length, the offset handed out, and the position at which
    the kernel put the bytes (kept in the log for comparison only; the code never sees it). *)
Record wrote := mkWrote { w_idx : N; w_len : N; w_off : N; w_pos : N }.

Record wshared := mkWs {
  ws_off : N -> N;            (* StreamOffset::offset *)
  ws_pos : N -> N;            (* file positions kept by the kernel *)
  ws_log : list wrote
}.

(** A thread: its remaining calls (output, bytes written), and, between the system call
    and the instrumentation's callback, the position the kernel used. *)
Record wthread := mkWt { wt_mid : option (N * N * N); wt_todo : list (N * N) }.

(** Two atomic steps per call: the system call, then the fetch_add (which is one atomic
    instruction).  error_exit (index out of bounds) is a thread that cannot move: the
    process has ended. *)
Definition wstep (i : N) (_ : unit) (t : wthread) (s : wshared) : option (wthread * wshared) :=
  match wt_mid t, wt_todo t with
  | None, [] => None
  | None, (idx, n) :: rest =>
      let p := ws_pos s idx in
      Some (mkWt (Some (idx, n, p)) rest,
            mkWs (ws_off s) (fun j => if j =? idx then p + n else ws_pos s j) (ws_log s))
  | Some (idx, n, p), rest =>
      match stream_increase (ws_off s) idx n with
      | Ok (o, off') => Some (mkWt None rest, mkWs off' (ws_pos s) (ws_log s ++ [mkWrote idx n o p]))
      | _ => None
      end
  end.

(** The outputs start empty. *)
Definition wstart (progs : list (list (N * N))) : wshared * list wthread :=
  (mkWs (fun _ => 0) (fun _ => 0) [], map (mkWt None) progs).
