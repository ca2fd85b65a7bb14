(** Specification vocabulary for cavities: bytes of an input file that are never used. *)
From Coq Require Import NArith ZArith List.
From Verif Require Import M_Base M_PyFile M_Api S_Api S_PyAnalysis.
Import ListNotations.
Open Scope N_scope.

(** At least one byte was read from registration [i]. *)
Definition was_read (s : ast) (i : N) : Prop := exists l o, In (i, o) (a_lab s l).

(** Byte [o] of registration [i] affected control flow or reached an output. *)
Definition used (s : ast) (i o : N) : Prop :=
  In (i, o) (a_cf s) \/ exists j pos bs, In (j, pos, bs) (a_out s) /\ In (i, o) bs.

(** [o] is inside registration [i]: below the size it was registered with, or at or before
    some byte that was read. *)
Definition inside (s : ast) (i o : N) : Prop :=
  (exists g n, get (a_regs s) i = Some g /\ reg_size g = Some n /\ o < n) \/
  (exists l o', In (i, o') (a_lab s l) /\ o <= o').

(** [rs] are the maximal runs, in increasing order, of the offsets that satisfy [P]: half-open,
    not empty, and not adjacent. *)
Fixpoint apart (from : N) (rs : list (N * N)) : Prop :=
  match rs with
  | [] => True
  | (a, b) :: r => from <= a /\ a < b /\ apart (b + 1) r
  end.
Definition maximal_runs (P : N -> Prop) (rs : list (N * N)) : Prop :=
  apart 0 rs /\ forall o, (exists a b, In (a, b) rs /\ a <= o < b) <-> P o.
