(** Vocabulary for the labels that a traced program creates. *)
From Coq Require Import NArith List.
From Verif Require Import M_Base M_Conc M_UserLabels.
Import ListNotations.
Open Scope N_scope.

(** The state after [k] threads ran under a schedule: each entry lets the named thread go
    on by one atomic step. *)
Definition users (k : nat) (schedule : list N) : ushared * list uthread :=
  run ustep (ustart k) (map (fun i => (i, tt)) schedule).

(** The labels returned by all calls so far. *)
Definition returned (z : ushared * list uthread) : list N := us_log (fst z).

(** The calls that were begun: the ones that returned and the ones under way. *)
Definition under_way (t : uthread) : bool := match t with UIdle => false | UAdded _ => true end.
Definition begun (z : ushared * list uthread) : N :=
  len (returned z) + len (filter under_way (snd z)).

(** The labels of [n] calls made one after the other. *)
Fixpoint created (n : nat) (last : N) : Res (list N) :=
  match n with
  | O => Ok []
  | S k => do (l, last') <- create_label last;
           do ls <- created k last';
           Ok (l :: ls)
  end.
