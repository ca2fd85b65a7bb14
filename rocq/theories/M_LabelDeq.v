(** Model of polytracker/include/taintdag/labeldeq.h: LabelDeq<N>. *)
From Coq Require Import NArith List Bool.
From Verif Require Import M_Base.
Import ListNotations.
Open Scope N_scope.

(** ArrayImpl, labeldeq.h:88-109.  [slots] is arr_; note that [first] is the
    write position and [last] the read position, as in the code. *)
Record array_impl := mkArr { slots : list N; first : N; last : N }.

Section Deq.
  (** Template parameter N (labeldeq.h:19). *)
  Variable cap : N.

  (** labeldeq.h:93-97. *)
  Definition arr_next (i : N) : N := (i + 1) mod cap.
  Definition arr_empty (a : array_impl) : bool := first a =? last a.
  Definition arr_full (a : array_impl) : bool := last a =? arr_next (first a).

  (** ArrayImpl::pop_front, labeldeq.h:99-103; an out-of-bounds read is [UB]. *)
  Definition arr_pop (a : array_impl) : Res (N * array_impl) :=
    match get (slots a) (last a) with
    | Some v => Ok (v, mkArr (slots a) (first a) (arr_next (last a)))
    | None => UB
    end.

  (** ArrayImpl::push_back, labeldeq.h:105-108; an out-of-bounds write is [UB]. *)
  Definition arr_push (a : array_impl) (l : N) : Res array_impl :=
    if first a <? len (slots a)
    then Ok (mkArr (upd (slots a) (first a) l) (arr_next (first a)) (last a))
    else UB.

  (** The aligned union storage_ together with arr_active (labeldeq.h:124-128). *)
  Inductive labeldeq :=
  | DArr (a : array_impl)
  | DHeap (d : list N).

  (** LabelDeq::LabelDeq, labeldeq.h:23-26.  The array is uninitialised memory in
      the code; the model fills it with an arbitrary value [junk]. *)
  Definition deq_new (junk : N) : labeldeq :=
    DArr (mkArr (repeat junk (N.to_nat cap)) 0 0).

  (** labeldeq.h:43-52; popping an empty deque is [UB]. *)
  Definition deq_pop (q : labeldeq) : Res (N * labeldeq) :=
    match q with
    | DArr a =>
        if arr_empty a then UB
        else do p <- arr_pop a; Ok (fst p, DArr (snd p))
    | DHeap [] => UB
    | DHeap (v :: d) => Ok (v, DHeap d)
    end.

  (** The loop of LabelDeq::migrate, labeldeq.h:78-79.  At most [cap] iterations
      are possible, the number of slots is used as fuel. *)
  Fixpoint drain (fuel : nat) (a : array_impl) (d : list N) : Res (list N) :=
    if arr_empty a then Ok d
    else match fuel with
         | O => Fuel
         | S f => do p <- arr_pop a; drain f (snd p) (d ++ [fst p])
         end.

  (** LabelDeq::push_back and migrate, labeldeq.h:54-64, 75-86. *)
  Definition deq_push (q : labeldeq) (l : N) : Res labeldeq :=
    match q with
    | DArr a =>
        if arr_full a then
          do d <- drain (length (slots a)) a []; Ok (DHeap (d ++ [l]))
        else do a' <- arr_push a l; Ok (DArr a')
    | DHeap d => Ok (DHeap (d ++ [l]))
    end.

  (** labeldeq.h:66-72. *)
  Definition deq_empty (q : labeldeq) : bool :=
    match q with
    | DArr a => arr_empty a
    | DHeap d => match d with [] => true | _ => false end
    end.
End Deq.

(** A client program running on a LabelDeq (the public interface,
    labeldeq.h:42-72). *)
From Verif Require Import S_Fifo.
Definition deq_step (cap : N) (q : labeldeq) (o : qop) : Res (qout * labeldeq) :=
  match o with
  | QPush v => do q' <- deq_push cap q v; Ok (OUnit, q')
  | QPop => do p <- deq_pop cap q; Ok (OVal (fst p), snd p)
  | QEmpty => Ok (OBool (deq_empty q), q)
  end.

Fixpoint deq_run (cap : N) (q : labeldeq) (ops : list qop) : Res (list qout) :=
  match ops with
  | [] => Ok []
  | o :: rest => do p <- deq_step cap q o; do outs <- deq_run cap (snd p) rest; Ok (fst p :: outs)
  end.
