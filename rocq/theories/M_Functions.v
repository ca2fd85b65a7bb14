(** Model of polytracker/include/taintdag/fnmapping.h, src/taintdag/fnmapping.cpp
    (Functions) and fntrace.h, fntrace.cpp (Events). *)
From Coq Require Import NArith List Bool.
From Verif Require Import M_Base M_Memory M_Section M_StringTable.
Import ListNotations.
Open Scope N_scope.

(** fnmapping.h:23-35: struct Function is one uint32_t. *)
Definition fn_tag : N := 6.
Definition fn_entry_size : N := 4.
Definition fn_align_of : N := 4.
Definition fn_allocation_size : N := 65535 * fn_entry_size.

(** std::unordered_map<std::string_view, index_t>, fnmapping.h:47, as an association
    list.  The keys are views into the caller's memory; the model keeps the bytes at
    the time of the call (callers pass string constants of the instrumented program). *)
Definition fn_map := list (list N * N).
Fixpoint bytes_eqb (a b : list N) : bool :=
  match a, b with
  | [], [] => true
  | x :: a', y :: b' => (x =? y) && bytes_eqb a' b'
  | _, _ => false
  end.
Fixpoint fn_find (f : fn_map) (name : list N) : option N :=
  match f with
  | [] => None
  | (k, i) :: rest => if bytes_eqb k name then Some i else fn_find rest name
  end.

(** Functions::add_mapping, fnmapping.cpp:22-43. *)
Definition add_mapping (m : mem) (st fs : sect) (map : fn_map) (name : list N)
  : Res (option N * mem * sect * sect * fn_map) :=
  match fn_find map name with
  | Some i => Ok (Some i, m, st, fs, map)
  | None =>
      do r <- add_string m st name;
      let '(o, m1, st1) := r in
      match o with
      | None => Ok (None, m1, st1, fs, map)
      | Some ofs =>
          match construct m1 fs (le_bytes 4 ofs) with
          | None => Ok (None, m1, st1, fs, map)
          | Some (p, m2, fs2) =>
              do i <- sect_index fs2 fn_entry_size p;
              Ok (Some (i mod two16), m2, st1, fs2, (name, i mod two16) :: map)
          end
      end
  end.

(** fntrace.h:18-30: struct Event is uint8_t kind, one byte of padding (value
    unspecified, [pad]) and uint16_t function. *)
Inductive event_kind := EvEntry | EvExit.
Definition kind_code (k : event_kind) : N := match k with EvEntry => 0 | EvExit => 1 end.
Definition ev_tag : N := 7.
Definition ev_entry_size : N := 4.
Definition ev_align_of : N := 2.
Definition ev_allocation_size : N := 4294967295 * ev_entry_size.
Definition event_bytes (pad : N) (k : event_kind) (fn : N) : list N :=
  [kind_code k; pad] ++ le_bytes 2 fn.

(** Events::log_fn_event, fntrace.cpp:17-22. *)
Definition log_fn_event (pad : N) (m : mem) (s : sect) (k : event_kind) (fn : N) : Res (mem * sect) :=
  match construct m s (event_bytes pad k fn) with
  | Some (_, m', s') => Ok (m', s')
  | None => Exit
  end.
