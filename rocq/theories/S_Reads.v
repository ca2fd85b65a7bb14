(** Specification vocabulary: how a program read an input. *)
From Coq Require Import NArith ZArith List Bool Sorted.
From Verif Require Import M_PyProgram.
Import ListNotations.
Open Scope N_scope.

(** The reads of source [src]: the number of the access, from [i], and the offset, in order. *)
Fixpoint reads_from (src i : N) (accs : list access) : list (N * N) :=
  match accs with
  | [] => []
  | a :: r => map (fun x => (i, snd x)) (filter (fun x => fst x =? src) a) ++ reads_from src (i + 1) r
  end.
Definition reads (src : N) (accs : list access) : list (N * N) := reads_from src 0 accs.

Definition was_read (us : list (N * N)) (o : N) : Prop := exists i, In (i, o) us.
(** Offset [o] was first read by access [i]. *)
Definition first_read (us : list (N * N)) (o i : N) : Prop := exists a b, us = a ++ (i, o) :: b /\ ~ was_read a o.
(** The places where the next offset is smaller: the number of the access before, both
    offsets. *)
Fixpoint falls (us : list (N * N)) : list (Z * N * N) :=
  match us with
  | (_, a) :: (((i, b) :: _) as r) => (if b <? a then [((Z.of_N i - 1)%Z, a, b)] else []) ++ falls r
  | _ => []
  end.
