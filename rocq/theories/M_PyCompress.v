(** Model of examples/analysis/ubet/compress_tdag.py, which copies a sparse TDAG file into a
    dense one.
    Simplifications: the quotient handed to round() is exact (it is, for offsets below 2^53 and
    alignments that are powers of two); a file shorter than its header is rejected (readinto
    would leave zeros); the header is written when the output is closed, after the copies (it
    is, if it fits Python's buffer of 8192 bytes). *)
From Coq Require Import NArith List Bool.
From Verif Require Import M_Base M_Memory M_PyNode M_PySections M_PyFile.
Import ListNotations.
Open Scope N_scope.

(** round(s / a) of Python: to the nearest integer, halves to the even one. *)
Definition round_div (s a : N) : N :=
  let q := s / a in
  let r := s mod a in
  if 2 * r <? a then q
  else if a <? 2 * r then q + 1
  else if N.even q then q else q + 1.

(** compact_section, compress_tdag.py:25-34; the quotient by 0 raises. *)
Definition compact_section (starting_offset : N) (h : py_smeta) : Res py_smeta :=
  if sm_align h =? 0 then Exit
  else Ok (mkSmeta (sm_tag h) (sm_align h) (sm_align h * round_div starting_offset (sm_align h)) (sm_size h)).

(** The first loop of main, compress_tdag.py:63-66. *)
Fixpoint read_metas (f : file) (offset : N) (n : nat) : Res (list py_smeta) :=
  match n with
  | O => Ok []
  | S k => do r <- fstruct f offset 24; do rest <- read_metas f (offset + 24) k; Ok (py_smeta_of r :: rest)
  end.
(** The second loop of main, compress_tdag.py:72-76. *)
Fixpoint compact_all (starting_offset : N) (hs : list py_smeta) : Res (list py_smeta) :=
  match hs with
  | [] => Ok []
  | h :: rest => do o <- compact_section starting_offset h;
                 do os <- compact_all (sm_offset o + sm_size o) rest; Ok (o :: os)
  end.

(** A TDSectionMeta as bytes; the fields wrap. *)
Definition smeta_raw (h : py_smeta) : list N :=
  le_bytes 4 (sm_tag h) ++ le_bytes 4 (sm_align h) ++ le_bytes 8 (sm_offset h) ++ le_bytes 8 (sm_size h).

(** copy_section, compress_tdag.py:10-22.  [copied n] is how many of n bytes the system call
    copy_file_range copies, at most those that are there; what it returns is ignored. *)
Definition copy_section (copied : N -> N) (f g : file) (i o : py_smeta) : file :=
  let n := N.min (copied (sm_size i)) (f_len f - sm_offset i) in
  if n =? 0 then g
  else mkFile (store (f_bytes g) (sm_offset o) (load (f_bytes f) (sm_offset i) n)) (N.max (f_len g) (sm_offset o + n)).
(** The third loop of main, compress_tdag.py:79-81. *)
Fixpoint copy_all (copied : N -> N) (f g : file) (hs os : list py_smeta) : file :=
  match hs, os with
  | i :: hs', o :: os' => copy_all copied f (copy_section copied f g i o) hs' os'
  | _, _ => g
  end.

(** main, compress_tdag.py:57-81: the output file for an input file. *)
Definition compress (copied : N -> N) (f : file) : Res file :=
  do n <- py_section_count f;
  do hs <- read_metas f 8 (N.to_nat n);
  do os <- compact_all (8 + 24 * n) hs;
  let g := copy_all copied f (mkFile mem_zero 0) hs os in
  let header := load (f_bytes f) 0 8 ++ concat (map smeta_raw os) in
  Ok (mkFile (store (f_bytes g) 0 header) (N.max (f_len g) (len header))).
