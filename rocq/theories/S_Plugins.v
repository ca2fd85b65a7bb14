(** Specification: what a history of class definitions offers on the command line. *)
From Coq Require Import NArith List Bool.
From Verif Require Import M_Base M_PyPlugins.
Import ListNotations.
Open Scope N_scope.

(** The words that call class [i] of [ds]: a command is called by its name, a subcommand by
    the words of its parent and its name. *)
Inductive called (ds : list cls) : nat -> list (list N) -> Prop :=
| called_command : forall i c, nth_error ds i = Some c -> ckind c = KCommand -> called ds i [cname c]
| called_sub : forall i c p words, nth_error ds i = Some c -> ckind c = KSubcommand -> cparent c = Some p ->
    called ds p words -> called ds i (words ++ [cname c]).
(** The extensions of class [i], in the order of their definitions: those of [ds], the first of
    which has the number [n]. *)
Fixpoint extensions_from (n : nat) (ds : list cls) (i : nat) : list nat :=
  match ds with
  | [] => []
  | c :: r =>
      match ckind c, cparent c with
      | KExtension, Some p => if Nat.eqb p i then n :: extensions_from (S n) r i else extensions_from (S n) r i
      | _, _ => extensions_from (S n) r i
      end
  end.
Definition extensions (ds : list cls) (i : nat) : list nat := extensions_from 0 ds i.
(** As the documentation (7-75) describes: commands have no parent, the parent of a
    subcommand or extension is an earlier command or subcommand, all have help, and none
    chooses the name of its plugin. *)
Definition documented (ds : list cls) : Prop :=
  forall i c, nth_error ds i = Some c -> cplugin c = None /\ chelp c = true /\
    match ckind c with
    | KCommand => cparent c = None
    | _ => exists p pc, cparent c = Some p /\ (p < i)%nat /\ nth_error ds p = Some pc /\ ckind pc <> KExtension
    end.
(** The name of a class and of its parent. *)
Definition names_of (ds : list cls) (c : cls) : option (list N) * list N :=
  (match cparent c with Some p => option_map cname (nth_error ds p) | None => None end, cname c).
