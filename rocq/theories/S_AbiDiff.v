(** Specification vocabulary for ABI lists as text files. *)
From Coq Require Import NArith List Bool String.
From Verif Require Import M_Base M_PyBuild M_PyAbiDiff M_DfsanAbi.
Import ListNotations.
Open Scope N_scope.
Open Scope list_scope.

(** [t] consists of the lines [ls]: each ends with a line end, except perhaps the last. *)
Inductive lines_of : str -> list str -> Prop :=
| li_none : lines_of [] []
| li_last l : l <> [] -> ~ In 10 l -> lines_of l [l]
| li_more l t ls : ~ In 10 l -> lines_of t ls -> lines_of (l ++ 10 :: t) ((l ++ [10]) :: ls).

(** White space in Python: tab, line ends and the like, space, and the spaces of Unicode. *)
Definition white (c : N) : Prop :=
  In c [9; 10; 11; 12; 13; 28; 29; 30; 31; 32; 133; 160; 5760; 8192; 8193; 8194; 8195; 8196; 8197; 8198; 8199; 8200; 8201; 8202;
        8232; 8233; 8239; 8287; 12288].
(** The line says that function [n] has attribute [c]: fun:n=c, possibly with white space
    around the attribute.  (Any four characters of which the first is an f do for "fun:".) *)
Definition blank (s : str) : Prop := Forall white s.
Definition trimmed (s : str) : Prop := (forall c r, s = c :: r -> ~ white c) /\ (forall r c, s = r ++ [c] -> ~ white c).
Definition says (line n c : str) : Prop := exists x y z s1 s2,
  line = [102; x; y; z] ++ n ++ [61] ++ s1 ++ c ++ s2 /\ blank s1 /\ blank s2 /\ trimmed c /\ ~ In 61 n /\ ~ In 61 (s1 ++ c ++ s2).
(** Every line that starts with an f says something. *)
Definition well_formed (t : str) : Prop := forall ls l, lines_of t ls -> In l ls -> hd 0 l = 102 -> exists n c, says l n c.

(** Some line of the file says it. *)
Definition lists (t n c : str) : Prop := exists ls l, lines_of t ls /\ In l ls /\ says l n c.
(** Some line says how the function is wrapped: anything but "uninstrumented". *)
Definition declares (t n c : str) : Prop := lists t n c /\ c <> w_uninst.
(** Two lines do. *)
Definition declares_twice (t n : str) : Prop := exists ls a l b l' e c c',
  lines_of t ls /\ ls = a ++ l :: b ++ l' :: e /\ says l n c /\ says l' n c' /\ c <> w_uninst /\ c' <> w_uninst.

(** ** The list the pass makes of the files *)
(** Files say it of the function called [name n] (names without wildcards). *)
Definition word (c : category) : str :=
  match c with
  | Uninstrumented => w_uninst
  | Functional => lit "functional"
  | Discard => lit "discard"
  | Custom => lit "custom"
  end.
Definition means (files : list str) (name : N -> str) (L : abilist) : Prop :=
  (forall c, l_src L c = false) /\
  forall n c, l_fun L n c = true <-> exists t, In t files /\ lists t (name n) (word c).
(** How the pass wraps a function of category [c]. *)
Definition wrapped_as (c : category) : wkind :=
  match c with Functional => WKFunctional | Discard => WKDiscard | Custom => WKCustom | Uninstrumented => WKWarning end.

(** ** Conflicts *)
(** The first and the last line that says how the function is wrapped say [c]. *)
Definition first_says (t n c : str) : Prop := exists ls a l b, lines_of t ls /\ ls = a ++ l :: b /\ says l n c /\ c <> w_uninst /\
  forall l' c', In l' a -> says l' n c' -> c' = w_uninst.
Definition last_says (t n c : str) : Prop := exists ls a l b, lines_of t ls /\ ls = a ++ l :: b /\ says l n c /\ c <> w_uninst /\
  forall l' c', In l' b -> says l' n c' -> c' = w_uninst.
(** The files disagree: their first declarations differ. *)
Definition disagree (t1 t2 n : str) : Prop := exists c1 c2, first_says t1 n c1 /\ first_says t2 n c2 /\ c1 <> c2.
(** [t'] is [t] with exactly the lines of the functions in [P] commented out. *)
Definition commented (P : str -> Prop) (t t' : str) : Prop := exists ls ls', lines_of t ls /\ lines_of t' ls' /\
  Forall2 (fun l l' => (exists n c, says l n c /\ P n) /\ l' = 35 :: l \/ ~ (exists n c, says l n c /\ P n) /\ l' = l) ls ls'.
