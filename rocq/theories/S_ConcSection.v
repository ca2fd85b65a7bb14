(** What "as if the calls had been made one after the other" means for a section. *)
From Coq Require Import NArith List.
From Verif Require Import M_Base M_Memory M_Section M_ConcSection.
Import ListNotations.
Open Scope N_scope.

(** [replays m s log m' s']: making the logged calls one after the other from memory [m]
    and section [s] gives exactly the logged answers and ends in [m'], [s']. *)
Fixpoint replays (m : mem) (s : sect) (log : list answer) (m' : mem) (s' : sect) : Prop :=
  match log with
  | [] => (forall a, m a = m' a) /\ s = s'
  | (r, a) :: rest =>
      match construct m s r with
      | Some (p, m1, s1) => a = Some p /\ replays m1 s1 rest m' s'
      | None => a = None /\ replays m s rest m' s'
      end
  end.

(** A thread with no call in progress and none left. *)
Definition sfinished (t : sthread) : Prop := t = SIdle [].
