(** Specification vocabulary: a run of one thread as nested calls. *)
From Coq Require Import NArith List Bool Arith.
From Verif Require Import M_PyTrace.
Import ListNotations.
Open Scope nat_scope.

(** What happens in a call: a basic block is entered; a call without instrumentation; an event
    that has nothing to do with control flow; a call of function [f], with what happens in it,
    which returned or was cut off by the end of the trace. *)
Inductive item : Type :=
| IBlock (b : N) | IExtern | IOther | ICall (f : N) (body : list item) (returned : bool).

(** Its events. *)
Fixpoint flat (i : item) : list event :=
  match i with
  | IBlock b => [EBlock b]
  | IExtern => [ECall]
  | IOther => [EOther]
  | ICall f body r => EEntry f :: (fix flats (l : list item) := match l with [] => [] | x :: t => flat x ++ flats t end) body ++ if r then [EReturn] else []
  end.
Fixpoint flats (l : list item) : list event := match l with [] => [] | x :: t => flat x ++ flats t end.

(** Everything in it returned. *)
Inductive closed : item -> Prop :=
| cl_block b : closed (IBlock b)
| cl_extern : closed IExtern
| cl_other : closed IOther
| cl_call f body : Forall closed body -> closed (ICall f body true).
(** The trace ended during the call: only what happened last can be unfinished. *)
Inductive cut_off : item -> Prop :=
| co_here f body : Forall closed body -> cut_off (ICall f body false)
| co_below f body c : Forall closed body -> cut_off c -> cut_off (ICall f (body ++ [c]) false).
Definition run (i : item) : Prop := (exists f body r, i = ICall f body r) /\ (closed i \/ cut_off i).

(** The items of a body, each with the position of its first event. *)
Fixpoint places (p : nat) (body : list item) : list (nat * item) :=
  match body with
  | [] => []
  | i :: r => (p, i) :: places (p + length (flat i)) r
  end.
(** [i] occurs in the call [root], which starts at position 0, at position [p]. *)
Inductive occurs (root : item) : nat -> item -> Prop :=
| oc_root : occurs root 0 root
| oc_in p f body r q i : occurs root p (ICall f body r) -> In (q, i) (places (S p) body) -> occurs root q i.

Definition is_block (i : item) : bool := match i with IBlock _ => true | _ => false end.
Definition is_call (i : item) : bool := match i with ICall _ _ _ => true | _ => false end.
Definition is_silent (i : item) : bool := match i with IOther => true | _ => false end.
Definition blocks_at (p : nat) (body : list item) : list nat := map fst (filter (fun q => is_block (snd q)) (places p body)).
Definition calls_at (p : nat) (body : list item) : list nat := map fst (filter (fun q => is_call (snd q)) (places p body)).
Definition items_at (p : nat) (body : list item) : list nat := map fst (filter (fun q => is_block (snd q) || is_call (snd q)) (places p body)).
(** The first thing that matters is a block, if anything is. *)
Definition starts_with_block (body : list item) : Prop := forall a i r, body = a ++ i :: r -> forallb is_silent a = true -> is_silent i = false -> is_block i = true.
(** Every call comes right after a block. *)
Definition one_call_per_block (body : list item) : Prop := forall a i m j r,
  body = a ++ i :: m ++ j :: r -> forallb is_silent m = true -> is_call i = true -> is_call j = false.
Definition no_extern (body : list item) : Prop := ~ In IExtern body.
