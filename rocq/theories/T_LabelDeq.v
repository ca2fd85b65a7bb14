(** C11: the label queue. *)
From Coq Require Import NArith List.
From Verif Require Import M_Base M_LabelDeq S_Fifo P_LabelDeq.
Import ListNotations.
Open Scope N_scope.

(** C11: for every positive inline capacity, every content of the uninitialised array
    and every client program, all results (including undefined pops of an empty queue)
    are those of an unbounded FIFO queue. *)
Theorem C11_label_queue_is_fifo : forall cap junk ops, 1 <= cap ->
  deq_run cap (deq_new cap junk) ops = fifo_run [] ops.
Proof. exact (fun cap junk ops H => deq_run_fifo cap H ops _ _ (deq_new_rep cap H junk)). Qed.

(** Wrap-around of the ring and migration to the heap in one run. *)
Example C11_case : deq_run 3 (deq_new 3 99)
    [QPush 1; QPush 2; QPop; QPush 3; QPush 4; QPush 5; QPop; QPop; QEmpty; QPop; QPop; QEmpty; QPop] = UB /\
  deq_run 3 (deq_new 3 99)
    [QPush 1; QPush 2; QPop; QPush 3; QPush 4; QPush 5; QPop; QPop; QEmpty; QPop; QPop; QEmpty] =
  Ok [OUnit; OUnit; OVal 1; OUnit; OUnit; OUnit; OVal 2; OVal 3; OBool false; OVal 4; OVal 5; OBool true].
Proof. vm_compute. auto. Qed.

Print Assumptions C11_label_queue_is_fifo.
