(** Mapping and unmapping of memory: polytracker/src/compiler-rt/lib/dfsan/dfsan_interceptors.cpp
    and __dfsw_munmap, polytracker/src/taint_sources/taint_sources.cpp:369-378, on the shadow
    memory of M_Dfsan.

    Simplifications: what the kernel answers is a parameter; the contents of mapped memory are
    not touched (labels only).  The page size is 4096. *)
From Coq Require Import NArith ZArith List Bool.
From Verif Require Import M_Base M_Memory M_Dfsan.
Import ListNotations.
Open Scope N_scope.

(** INTERCEPTOR mmap and mmap64, dfsan_interceptors.cpp:30-53: [res] is [None] for MAP_FAILED. *)
Definition icpt_mmap (m : mem) (length : N) (res : option N) : mem :=
  match res with Some a => set_label m 0 a (round_up length mod two64) | None => m end.
(** INTERCEPTOR munmap, 55-60. *)
Definition icpt_munmap (m : mem) (addr length : N) (res : Z) : mem :=
  if (res =? -1)%Z then m else set_label m 0 addr (round_up length mod two64).
(** __dfsw_munmap, taint_sources.cpp:369-378. *)
Definition dfsw_munmap (m : mem) (addr length : N) (res : Z) : mem :=
  set_label (icpt_munmap m addr length res) 0 addr length.

(** ** Histories of one thread *)
Inductive op : Type :=
| OMap (length : N) (res : option N)
| OUnmap (addr length : N) (res : Z)
| OLabel (label addr n : N).             (* dfsan_set_label by anybody *)
Definition op_step (m : mem) (o : op) : mem :=
  match o with
  | OMap n res => icpt_mmap m n res
  | OUnmap a n res => dfsw_munmap m a n res
  | OLabel l a n => set_label m l a n
  end.
Definition run_ops (m : mem) (os : list op) : mem := fold_left op_step os m.

(** ** Several threads *)
(** The steps of a call that other threads can come between: the system call, then each
    dfsan_set_label. *)
Inductive act : Type :=
| AMap (addr n : N) | AUnmap (addr n : N)       (* in the kernel *)
| ALabel (label addr n : N).
(** mmap, dfsan_interceptors.cpp:36-43. *)
Definition acts_mmap (addr n : N) : list act := [AMap addr n; ALabel 0 addr (round_up n mod two64)].
(** munmap, taint_sources.cpp:374-375 with dfsan_interceptors.cpp:56-58. *)
Definition acts_munmap (addr n : N) : list act := [AUnmap addr n; ALabel 0 addr (round_up n mod two64); ALabel 0 addr n].
Definition act_step (m : mem) (a : act) : mem := match a with ALabel l p n => set_label m l p n | _ => m end.
Definition run_acts (m : mem) (l : list act) : mem := fold_left act_step l m.
