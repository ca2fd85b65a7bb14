(** Sessions and their nesting: specification for C128. *)
From Coq Require Import NArith List.
From Verif Require Import M_PySession.
Import ListNotations.
Open Scope N_scope.

(** The user leaves with an end of file or a line that exits. *)
Definition leaves (s : step) : Prop :=
  match s with Eof => True | Line SysExit _ => True | _ => False end.
(** The session goes on. *)
Definition goes_on (s : step) : Prop :=
  match s with Interrupt => True | Line Done _ | Line NameErr _ | Line Raised _ => True | _ => False end.
(** The functions a step registers. *)
Definition registered (s : step) : list N := match s with Line _ l => l | _ => [] end.
(** Something went wrong at a step. *)
Definition wrong (s : step) : bool :=
  match s with Line Done _ => false | Eof | Line SysExit _ => false | _ => true end.

(** Starts and ends of sessions. *)
Inductive event : Type := Starts (i : N) | Ends (i : N).
Definition current_of (h : list event) (c : option N) : option N :=
  fold_left (fun c e => match e with Starts i => start i c | Ends i => finish i c end) h c.
(** Sessions run from within sessions, none from within itself. *)
Inductive nested : list event -> Prop :=
| nested_nil : nested []
| nested_cons : forall i h h', nested h -> nested h' -> ~ In (Starts i) h ->
    nested (Starts i :: h ++ Ends i :: h').
