(** Vocabulary for the verification of cavities and its summary. *)
From Coq Require Import NArith ZArith QArith List Bool.
From Verif Require Import M_Base M_PyMutate M_PyVerify.
Import ListNotations.
Local Open Scope Z_scope.

(** A name that is [base] followed by an extension: a dot and at least one character, none of
    them a dot; [base] is not empty. *)
Definition extension (e : name) : Prop := exists c r, e = 46%N :: c :: r /\ ~ In 46%N (c :: r).
Definition named (nm base e : name) : Prop := nm = base ++ e /\ base <> [] /\ extension e.

(** The summary's numbers, from the files alone. *)
Definition sum (f : result -> N) (rs : list result) : N := fold_right (fun r n => (f r + n)%N) 0%N rs.
Definition sumQ (f : result -> Q) (rs : list result) : Q := fold_right (fun r n => (f r + n)%Q) 0%Q rs.
Definition is_stats (r : result) : bool := match r with RStats _ _ _ => true | _ => false end.
Definition is_empty_error (r : result) : bool := match r with RError true => true | _ => false end.
Definition is_other_error (r : result) : bool := match r with RError false => true | _ => false end.
Definition size_of (r : result) : N := match r with RStats n _ _ => n | _ => 0%N end.
Definition cavity_of (f : stats -> N) (r : result) : N := match r with RStats _ c _ => f c | _ => 0%N end.
Definition other_of (f : stats -> N) (r : result) : N := match r with RStats _ _ o => f o | _ => 0%N end.
Definition fraction_of (r : result) : Q :=
  match r with RStats n c _ => NQ (st_count c) * 100 / NQ n | _ => 0%Q end.
(** Two lines that show the same numbers. *)
Definition same_line (a b : printed_line) : Prop :=
  match a, b with
  | PAvgSize p, PAvgSize q | PAvgCavity p, PAvgCavity q | PAvgFraction p, PAvgFraction q
  | PCavityNoOutput p, PCavityNoOutput q | POtherEq p, POtherEq q | POtherAffected p, POtherAffected q => (p == q)%Q
  | PCavityEq p a b, PCavityEq q a' b' => (p == q)%Q /\ a = a' /\ b = b'
  | _, _ => a = b
  end.
