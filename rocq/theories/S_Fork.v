(** Histories of a program that forks. *)
From Coq Require Import NArith List Bool.
From Verif Require Import M_Base M_Labels S_Labels M_Fork.
Import ListNotations.
Open Scope N_scope.

(** What a process does: a call that makes or marks labels, fork, exit, or an end
    without the handlers of exit. *)
Inductive pop : Type :=
| PLabels (o : lop)
| PFork
| PExit
| PQuit.

(** [pstep w p o res w']: process [p] does [o] with the result [res] (the label, or
    the new process). *)
Inductive pstep (w : world) (p : N) : pop -> N -> world -> Prop :=
| ps_labels : forall t o res t',
    table_of w p = Some t -> lop_ok t o -> lstep t o res t' ->
    pstep w p (PLabels o) res (store w p t')
| ps_fork : forall q w', do_fork w p = Some (q, w') -> pstep w p PFork q w'
| ps_exit : forall w', do_exit w p = Some w' -> pstep w p PExit 0 w'
| ps_quit : forall w', do_quit w p = Some w' -> pstep w p PQuit 0 w'.

(** Histories: any processes in any order. *)
Inductive phist : list (N * pop * N) -> world -> Prop :=
| ph_nil : phist [] world_new
| ph_snoc : forall h w p o res w',
    phist h w -> pstep w p o res w' -> phist (h ++ [(p, o, res)]) w'.

(** Process [p] has all the labels that any process has made so far. *)
Definition knows_all (w : world) (p : N) : Prop :=
  exists t, table_of w p = Some t /\ len t = len (file w).

(** Histories in which a process makes or marks labels only as long as it has all the
    labels of the other processes: after a fork either the old or the new process goes
    on, not both. *)
Inductive phist_alone : list (N * pop * N) -> world -> Prop :=
| pa_nil : phist_alone [] world_new
| pa_snoc : forall h w p o res w',
    phist_alone h w -> pstep w p o res w' ->
    (forall l, o = PLabels l -> knows_all w p) ->
    phist_alone (h ++ [(p, o, res)]) w'.

(** The calls of a history that made or marked labels, with the labels returned. *)
Definition calls (h : list (N * pop * N)) : list (lop * N) :=
  flat_map (fun e => match snd (fst e) with PLabels o => [(o, snd e)] | _ => [] end) h.

(** The calls of one process. *)
Definition calls_of (p : N) (h : list (N * pop * N)) : list (lop * N) :=
  calls (filter (fun e => fst (fst e) =? p) h).
