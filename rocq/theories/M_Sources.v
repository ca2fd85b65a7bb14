(** Model of polytracker/include/taintdag/taint_source.h (Sources), stream_offset.h
    (StreamOffset) and sink.h (TaintSink). *)
From Coq Require Import NArith ZArith List Bool.
From Verif Require Import M_Base M_Memory M_Section M_StringTable.
Import ListNotations.
Open Scope N_scope.

(** A C int as four bytes in two's complement, and back. *)
Definition int_bits (z : Z) : N := Z.to_N (z mod 4294967296)%Z.
Definition int_of_bits (n : N) : Z :=
  if n <? 2147483648 then Z.of_N n else (Z.of_N n - 4294967296)%Z.

(** SourceEntry, taint_source.h:23-45; 16 bytes, no padding. *)
Definition invalid_size : N := 18446744073709551615.
Definition invalid_fd : Z := (-1)%Z.
Definition source_entry_size : N := 16.
Definition source_bytes (string_offset : N) (fd : Z) (size : N) : list N :=
  le_bytes 4 string_offset ++ le_bytes 4 (int_bits fd) ++ le_bytes 8 size.

(** taint_source.h:58-60. *)
Definition src_tag : N := 1.
Definition src_align_of : N := 8.
Definition src_allocation_size : N := 255 * source_entry_size.

(** Sources::Sources, taint_source.h:62-69. *)
Definition src_new (b e : N) : Res sect :=
  do s <- fixed_new src_align_of source_entry_size b e;
  if src_allocation_size <? e - b then Exit else Ok s.

(** Fields of the entry at index [i]. *)
Definition src_string_offset (m : mem) (s : sect) (i : N) : N :=
  load_int m (sbeg s + source_entry_size * i) 4.
Definition src_fd (m : mem) (s : sect) (i : N) : Z :=
  int_of_bits (load_int m (sbeg s + source_entry_size * i + 4) 4).
Definition src_size (m : mem) (s : sect) (i : N) : N :=
  load_int m (sbeg s + source_entry_size * i + 8) 8.

(** Sources::add_source, taint_source.h:71-84.  The index is narrowed to uint8_t. *)
Definition add_source (m : mem) (st src : sect) (name : list N) (fd : Z) (size : N)
  : Res (option N * mem * sect * sect) :=
  do r <- add_string m st name;
  let '(o, m1, st1) := r in
  match o with
  | None => Ok (None, m1, st1, src)
  | Some ofs =>
      match construct m1 src (source_bytes ofs fd size) with
      | None => Ok (None, m1, st1, src)
      | Some (p, m2, src2) =>
          do i <- sect_index src2 source_entry_size p;
          Ok (Some (i mod two8), m2, st1, src2)
      end
  end.

(** find_reverse_if over the entries, taint_source.h:98-106: the last [n] entries are
    still to be tested. *)
Fixpoint find_reverse (m : mem) (s : sect) (fd : Z) (n : nat) : option N :=
  match n with
  | O => None
  | S k => if (src_fd m s (N.of_nat k) =? fd)%Z then Some (N.of_nat k) else find_reverse m s fd k
  end.

(** Sources::mapping_idx, taint_source.h:86-92. *)
Definition mapping_idx (m : mem) (s : sect) (fd : Z) : Res (option N) :=
  match find_reverse m s fd (N.to_nat (sect_count s source_entry_size)) with
  | None => Ok None
  | Some k =>
      do i <- sect_index s source_entry_size (sbeg s + source_entry_size * k);
      Ok (Some (i mod two8))
  end.

(** StreamOffset<SourceCount>::increase, stream_offset.h:29-36, for
    SourceCount = max_source_index + 1 = 256 (polytracker.h): the array of 64-bit
    counters is a function from index to value; fetch_add wraps. *)
Definition stream_count : N := 256.
Definition stream_increase (off : N -> N) (idx n : N) : Res (N * (N -> N)) :=
  if stream_count <=? idx then Exit
  else Ok (off idx, fun i => if i =? idx then add64 (off idx) n else off i).

(** SinkLogEntry, sink.h:19-23: int64_t offset, uint32_t label, uint8_t sink and three
    bytes of padding whose value is unspecified ([pad]). *)
Definition sink_entry_size : N := 16.
Definition sink_bytes (pad : list N) (offset label sink : N) : list N :=
  le_bytes 8 offset ++ le_bytes 4 label ++ le_bytes 1 sink ++ firstn 3 (pad ++ [0; 0; 0]).

(** sink.h:25-30. *)
Definition sink_tag : N := 4.
Definition sink_align_of : N := 8.
Definition sink_allocation_size : N := 1048576 * sink_entry_size.

(** TaintSinkBase::log_single, sink.h:35-37; a full section is silently ignored. *)
Definition log_single (pad : list N) (m : mem) (s : sect) (offset label idx : N) : mem * sect :=
  match construct m s (sink_bytes pad offset label idx) with
  | Some (_, m', s') => (m', s')
  | None => (m, s)
  end.
