(** Model of a program that forks while it is traced: the label table lies in a file
    that every process maps shared, the position of the next label is private.
    Only the section of labels is modelled here; the other sections have the same
    base class and the same private position.  The steps of two processes are not
    interleaved inside one operation on the table. *)
From Coq Require Import NArith List Bool.
From Verif Require Import M_Base M_Labels.
Import ListNotations.
Open Scope N_scope.

(** The words of the section of labels in the mapped file (MMapFile maps it
    MAP_SHARED, polytracker/include/taintdag/storage.h:63-72), for each process its
    private number of labels (SectionBase::write_it_, section.h:22-100, a plain member
    that fork copies; [None]: the process has ended) and the size that the header of
    the file gives for the section, counted in labels (outputfile.h:95-102). *)
Record world := World { file : list N; procs : list (option N); fsize : N }.

(** OutputFile::OutputFile, outputfile.h:104-117, and Labels::Labels, labels.h:29-32:
    one process, the section starts with the entry of label 0, the size in the header
    is 0. *)
Definition world_new : world := World labels_new [Some (len labels_new)] 0.

(** begin() and count() of Labels as process [p] sees them (labels.h:92-111,
    section.h:100-176): the words in the file, as many as its own position says.
    Simplification: a process never looks at words beyond its position. *)
Definition table_of (w : world) (p : N) : option table :=
  match get (procs w) p with
  | Some (Some c) => Some (firstn (N.to_nat c) (file w))
  | _ => None
  end.

(** Process [p] has changed its table into [t]: the words go to the file, over what is
    there, and the position goes to its own memory (section.h:139-170,
    labels.h:187-190). *)
Definition store (w : world) (p : N) (t : table) : world :=
  World (t ++ skipn (length t) (file w)) (upd (procs w) p (Some (len t))) (fsize w).

(** __dfsw_fork, polytracker/src/compiler-rt/lib/dfsan/dfsan_custom.cpp:2491-2495: nothing but the call;
    the new process has a copy of the private memory.  Returns the new process. *)
Definition do_fork (w : world) (p : N) : option (N * world) :=
  match get (procs w) p with
  | Some (Some c) => Some (len (procs w), World (file w) (procs w ++ [Some c]) (fsize w))
  | _ => None
  end.

(** exit(): the handler of main.cpp:98-107, registered at main.cpp:157-158, runs in
    every process that exits and OutputFile::~OutputFile, outputfile.h:119-132, writes
    the size as this process knows it. *)
Definition do_exit (w : world) (p : N) : option world :=
  match get (procs w) p with
  | Some (Some c) => Some (World (file w) (upd (procs w) p None) c)
  | _ => None
  end.

(** _exit(), a successful exec or a signal: no handler runs. *)
Definition do_quit (w : world) (p : N) : option world :=
  match get (procs w) p with
  | Some (Some _) => Some (World (file w) (upd (procs w) p None) (fsize w))
  | _ => None
  end.

(** The labels that a reader of the file gets: the section as long as the header says
    (polytracker/taint_dag.py:116-124). *)
Definition reader_table (w : world) : table := firstn (N.to_nat (fsize w)) (file w).
