(** What is asked of a file for compression to keep it. *)
From Coq Require Import NArith List.
From Verif Require Import M_Base M_Memory M_PyNode M_PySections M_PyFile.
Import ListNotations.
Open Scope N_scope.

(** The headers of the sections of a file. *)
Definition section_headers (f : file) (hs : list py_smeta) : Prop :=
  exists n, py_section_count f = Ok n /\ len hs = n /\ 8 + 24 * n <= f_len f /\
    forall i h, get hs i = Some h -> h = py_smeta_of (load (f_bytes f) (8 + 24 * i) 24).

(** Sections laid out one after the other from [at_] on: each starts at the next multiple of
    its alignment, and where that is not the end of the one before, it is less than half an
    alignment away (or exactly half, and an even multiple).  [stop] is the end of the last. *)
Inductive spaced : N -> list py_smeta -> N -> Prop :=
| spaced_nil a : spaced a [] a
| spaced_next a h hs stop : 0 < sm_align h -> a mod sm_align h = 0 ->
    spaced (a + sm_size h) hs stop -> spaced a (h :: hs) stop
| spaced_gap a h hs stop : 0 < sm_align h ->
    sm_align h < 2 * (a mod sm_align h) \/ (sm_align h = 2 * (a mod sm_align h) /\ N.odd (a / sm_align h) = true) ->
    spaced (a + (sm_align h - a mod sm_align h) + sm_size h) hs stop -> spaced a (h :: hs) stop.

(** Every byte of the file is a byte, and every section is inside the file. *)
Definition sound_file (f : file) (hs : list py_smeta) : Prop :=
  (forall a, f_bytes f a < 256) /\ forall h, In h hs -> sm_offset h + sm_size h <= f_len f.
