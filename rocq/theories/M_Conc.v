(** Interleaving semantics used for the concurrent parts of the runtime.
    A configuration is a shared state and one local state per thread.  A schedule is a
    list of (thread, choice): the named thread performs its next atomic step, the choice
    resolving what the step leaves open (which call an idle thread makes, whether a weak
    compare-exchange fails spuriously).  A thread that cannot move (no such thread, lock
    taken, nothing to do) leaves the configuration unchanged, so every list is a schedule.
    Simplification: memory is sequentially consistent. *)
From Coq Require Import NArith List.
From Verif Require Import M_Base.
Import ListNotations.
Open Scope N_scope.

Section Machine.
  Context {S T C : Type}.
  (** One step of thread [i]: its local state and the shared state before and after. *)
  Variable step : N -> C -> T -> S -> option (T * S).

  Definition move (c : S * list T) (x : N * C) : S * list T :=
    match get (snd c) (fst x) with
    | None => c
    | Some t => match step (fst x) (snd x) t (fst c) with
                | None => c
                | Some r => (snd r, upd (snd c) (fst x) (fst r))
                end
    end.
  Definition run (c : S * list T) (schedule : list (N * C)) : S * list T :=
    fold_left move schedule c.
End Machine.
