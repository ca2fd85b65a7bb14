(** Specification vocabulary over histories of API calls. *)
From Coq Require Import NArith ZArith List Bool.
From Verif Require Import M_Base M_Memory M_PySections M_Api S_Api.
Import ListNotations.
Open Scope N_scope.

(** The registrations made by a history, in order. *)
Definition registration (e : call * ret) : list reg :=
  match fst e with
  | COpen fd path size => [mkReg path (Some fd) size]
  | CNamed name _ _ => [mkReg name None None]
  | _ => []
  end.
Definition registered (h : list (call * ret)) : list reg := flat_map registration h.

(** Registration [i] is the most recent one for descriptor [fd]. *)
Definition most_recent (regs : list reg) (fd : Z) (i : N) : Prop :=
  (exists g, get regs i = Some g /\ reg_fd g = Some fd) /\
  forall j g, i < j -> get regs j = Some g -> reg_fd g <> Some fd.

(** Label [l] was handed out for a byte that was read. *)
Definition returned (h : list (call * ret)) (l : N) : Prop :=
  exists c f la, In (c, RRange (Some (f, la))) h /\ f <= l <= la.

(** The log records of a write of [n] bytes at [addr] to stream position [o] of output
    [i]; [sh] gives the labels of memory. *)
Fixpoint logged (sh : N -> N) (i addr o : N) (n : nat) : list py_sink :=
  match n with
  | O => []
  | S k => (if sh addr =? 0 then [] else [mkSink (Z.of_N o) (sh addr) i]) ++ logged sh i (addr + 1) (o + 1) k
  end.

(** A memory image in which every byte is that of one or the other state: what may be
    found after a crash in the middle of an update. *)
Definition torn (m m' m'' : mem) : Prop := forall a, m'' a = m a \/ m'' a = m' a.

(** Any number of further files are opened. *)
Inductive more_opens : rt -> rt -> Prop :=
| mo_none r : more_opens r r
| mo_open r r1 r2 fd path size : more_opens r r1 -> rt_open r1 fd path size = Ok r2 -> more_opens r r2.
