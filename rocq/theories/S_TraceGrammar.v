(** Specification vocabulary: what a traced run consumed. *)
From Coq Require Import NArith List Bool.
From Verif Require Import M_PyGrammar M_PyTraceGrammar.
Import ListNotations.
Open Scope N_scope.

(** The bytes consumed by a run of a function: block by block, each followed by what the
    function it called consumed. *)
Fixpoint consumed (f : func) : list N :=
  let 'Func _ bs := f in
  (fix go (bs : list block) : list N :=
     match bs with
     | [] => []
     | (_, tokens, called) :: r => concat tokens ++ match called with Some (g, _) => consumed g | None => [] end ++ go r
     end) bs.
(** Something was consumed. *)
Definition consumes (f : func) : Prop := consumed f <> [].

(** The functions called in a run, at any depth, and itself. *)
Inductive called_in : func -> func -> Prop :=
| ci_self f : called_in f f
| ci_below f n bs b g r : In b bs -> block_call b = Some (g, r) -> called_in f g -> called_in f (Func n bs).
(** Tokens are not empty. *)
Definition tokens_ok (f : func) : Prop := forall h b t, called_in h f -> In b (func_blocks h) -> In t (block_tokens b) -> t <> [].

(** All names of functions and blocks in a run. *)
Fixpoint all_names (f : func) : list N :=
  let 'Func n bs := f in
  n :: (fix go (bs : list block) : list N :=
          match bs with
          | [] => []
          | (bn, _, called) :: r => bn :: match called with Some (g, _) => all_names g | None => [] end ++ go r
          end) bs.
(** No name stands for two things. *)
Definition names_distinct (f : func) : Prop := NoDup (START :: all_names f).

(** A block of [h] made a call that returned to the next block, and [h] consumed something
    after the call. *)
Definition consumes_after_call (h : func) : Prop :=
  exists a b g r, func_blocks h = a ++ b :: r /\ block_call b = Some (g, true) /\ consumed (Func 0 r) <> [].
(** The number of calls. *)
Fixpoint func_size (f : func) : nat :=
  let 'Func _ bs := f in
  S ((fix go (bs : list block) : nat :=
        match bs with
        | [] => O
        | (_, _, called) :: r => (match called with Some (g, _) => func_size g | None => O end + go r)%nat
        end) bs).
