(** Specification: an unbounded FIFO queue, and client programs using it. *)
From Coq Require Import NArith List.
From Verif Require Import M_Base.
Import ListNotations.

Inductive qop := QPush (v : N) | QPop | QEmpty.
Inductive qout := OUnit | OVal (v : N) | OBool (b : bool).

(** A queue is a list, oldest element first.  Popping an empty queue is undefined
    (labeldeq.h:42 "Undefined if empty()"). *)
Definition fifo_step (q : list N) (o : qop) : Res (qout * list N) :=
  match o with
  | QPush v => Ok (OUnit, q ++ [v])
  | QPop => match q with [] => UB | v :: r => Ok (OVal v, r) end
  | QEmpty => Ok (OBool (match q with [] => true | _ => false end), q)
  end.

Fixpoint fifo_run (q : list N) (ops : list qop) : Res (list qout) :=
  match ops with
  | [] => Ok []
  | o :: rest => do p <- fifo_step q o; do outs <- fifo_run (snd p) rest; Ok (fst p :: outs)
  end.
